(** The allocators of the NoC model: rad-sim/sim/noc/booksim/allocators. *)
From Coq Require Import ZArith Arith Bool List.
From Verif Require Import Fupd ArbiterModel.
Import ListNotations.

(** rad-sim/sim/noc/booksim/allocators/allocator.hpp:51-56 : a request without its port. *)
Record areq := { q_label : Z; q_ipri : Z; q_opri : Z }.
(** The request matrix.  rad-sim/sim/noc/booksim/allocators/allocator.hpp:97 for dense allocators.  For sparse ones (rad-sim/sim/noc/booksim/allocators/allocator.hpp:132-133)
    the two maps [_in_req] and [_out_req] always hold the same requests (rad-sim/sim/noc/booksim/allocators/allocator.cpp:338-342), so one
    matrix stands for both; a map is traversed in the order of its keys. *)
Definition rqm := nat -> nat -> option areq.
(** rad-sim/sim/noc/booksim/allocators/allocator.hpp:46-47; -1 is [None]. *)
Record match_ := { m_in : nat -> option nat; m_out : nat -> option nat }.
(** rad-sim/sim/noc/booksim/allocators/allocator.cpp:51-57 : all entries -1. *)
Definition no_match : match_ := {| m_in := fun _ => None; m_out := fun _ => None |}.
(** The pair of assignments that records a match, e.g. rad-sim/sim/noc/booksim/allocators/islip.cpp:152-153. *)
Definition pair_up (i o : nat) (m : match_) : match_ := {| m_in := fupd (m_in m) i (Some o); m_out := fupd (m_out m) o (Some i) |}.

(** Helpers: comparisons of an entry with -1 (e.g. rad-sim/sim/noc/booksim/allocators/islip.cpp:66) and with a port (e.g. rad-sim/sim/noc/booksim/allocators/islip.cpp:150). *)
Definition is_some {A} (x : option A) : bool := match x with Some _ => true | None => false end.
(** rad-sim/sim/noc/booksim/allocators/islip.cpp:66 : an entry compared with -1. *)
Definition is_none {A} (x : option A) : bool := negb (is_some x).
(** rad-sim/sim/noc/booksim/allocators/islip.cpp:150 : an entry compared with a port. *)
Definition is_at (x : option nat) (k : nat) : bool := match x with Some y => Nat.eqb y k | None => false end.

(** The keys of [_in_req[i]] and [_out_req[o]] in map order. rad-sim/sim/noc/booksim/allocators/allocator.hpp:132. *)
Definition outs_of (m : nat) (r : rqm) (i : nat) : list nat := filter (fun o => is_some (r i o)) (seq 0 m).
(** rad-sim/sim/noc/booksim/allocators/allocator.hpp:133 : the keys of [_out_req[o]] in map order. *)
Definition ins_of (n : nat) (r : rqm) (o : nat) : list nat := filter (fun i => is_some (r i o)) (seq 0 n).

(** What a kind of allocator adds to the base class: its own state, what AddRequest, Allocate and
    Clear do to it.  Allocate gets the requests and the current matches. *)
(** rad-sim/sim/noc/booksim/allocators/allocator.hpp:59-95. *)
Record allocator := {
  al_st : Type;
  al_init : al_st;
  al_add : nat -> nat -> areq -> al_st -> al_st;
  al_alloc : rqm -> match_ -> al_st -> option (al_st * match_);
  al_clear : al_st -> al_st }.

(** rad-sim/sim/noc/booksim/allocators/allocator.hpp:41-47,97. *)
Record alloc (A : allocator) := { g_own : al_st A; g_rq : rqm; g_dirty : bool; g_m : match_ }.
Arguments g_own {A}. Arguments g_rq {A}. Arguments g_dirty {A}. Arguments g_m {A}.
(** rad-sim/sim/noc/booksim/allocators/allocator.cpp:51-57, 114-126, 258-264. *)
Definition alloc0 (A : allocator) : alloc A := {| g_own := al_init A; g_rq := fun _ _ => None; g_dirty := false; g_m := no_match |}.

(** rad-sim/sim/noc/booksim/allocators/allocator.cpp:68-75, 156-165 and 314-343; [None] is a failed assert. *)
Definition alloc_add (A : allocator) (n m : nat) (i o : nat) (q : areq) (s : alloc A) : option (alloc A) :=
  if Nat.ltb i n && Nat.ltb o m && (0 <=? q_label q)%Z && is_none (g_rq s i o) then
    Some {| g_own := al_add A i o q (g_own s);
            g_rq := fun a b => if Nat.eqb a i && Nat.eqb b o then Some q else g_rq s a b; g_dirty := true; g_m := g_m s |}
  else None.

(** rad-sim/sim/noc/booksim/allocators/allocator.cpp:59-66, 128-136 and 267-283. *)
Definition alloc_clear (A : allocator) (s : alloc A) : alloc A :=
  {| g_own := al_clear A (g_own s); g_rq := fun _ _ => None; g_dirty := false; g_m := if g_dirty s then no_match else g_m s |}.

(** rad-sim/sim/noc/booksim/allocators/allocator.hpp:70 : Allocate works on the matches in place. *)
Definition alloc_run (A : allocator) (s : alloc A) : option (alloc A) :=
  match al_alloc A (g_rq s) (g_m s) (g_own s) with
  | Some (x, m) => Some {| g_own := x; g_rq := g_rq s; g_dirty := g_dirty s; g_m := m |}
  | None => None
  end.

(** How the router uses an allocator (rad-sim/sim/noc/booksim/routers/iq_router.cpp:559-841 and 1333-1839): requests, Allocate,
    reading of the matches, and Clear before the next requests. *)
Definition ask := (nat * nat * areq)%type.
(** The AddRequest calls of one cycle, rad-sim/sim/noc/booksim/routers/iq_router.cpp:559-641. *)
Fixpoint alloc_adds (A : allocator) (n m : nat) (l : list ask) (s : alloc A) : option (alloc A) :=
  match l with
  | [] => Some s
  | (i, o, q) :: r => match alloc_add A n m i o q s with Some s1 => alloc_adds A n m r s1 | None => None end
  end.
(** Several cycles, rad-sim/sim/noc/booksim/routers/iq_router.cpp:559-841. *)
Fixpoint alloc_rounds (A : allocator) (n m : nat) (l : list (list ask)) (s : alloc A) : option (alloc A * list match_) :=
  match l with
  | [] => Some (s, [])
  | a :: r =>
      match alloc_adds A n m a s with
      | None => None
      | Some s1 =>
          match alloc_run A s1 with
          | None => None
          | Some s2 => match alloc_rounds A n m r (alloc_clear A s2) with Some (s3, ms) => Some (s3, g_m s2 :: ms) | None => None end
          end
      end
  end.

(** ** iSLIP *)

(** rad-sim/sim/noc/booksim/allocators/islip.cpp:73-101 (and 129-166; rad-sim/sim/noc/booksim/allocators/selalloc.cpp:83-116, 150-184) : the ports visited.  First the keys not
    below the offset, then, once around, the first key whatever it is and further keys below the offset. *)
Fixpoint take_below (k : nat) (l : list nat) : list nat :=
  match l with [] => [] | x :: r => if Nat.ltb x k then x :: take_below k r else [] end.
(** rad-sim/sim/noc/booksim/allocators/islip.cpp:73-79. *)
Fixpoint drop_below (k : nat) (l : list nat) : list nat :=
  match l with [] => [] | x :: r => if Nat.ltb x k then drop_below k r else l end.
(** rad-sim/sim/noc/booksim/allocators/islip.cpp:73-101. *)
Definition visit (k : nat) (l : list nat) : list nat :=
  drop_below k l ++ match l with [] => [] | x :: r => x :: take_below k r end.

(** rad-sim/sim/noc/booksim/allocators/islip.hpp : the pointers. rad-sim/sim/noc/booksim/allocators/islip.hpp:38-39. *)
Record ptrs := { p_g : nat -> nat; p_a : nat -> nat }.
(** rad-sim/sim/noc/booksim/allocators/islip.cpp:41-42. *)
Definition ptrs0 : ptrs := {| p_g := fun _ => 0; p_a := fun _ => 0 |}.

(** rad-sim/sim/noc/booksim/allocators/islip.cpp:59-102 : the grant of one output. *)
Definition islip_grant (n : nat) (r : rqm) (m : match_) (p : ptrs) (o : nat) : option nat :=
  if is_some (m_out m o) then None
  else find (fun i => is_none (m_in m i)) (visit (p_g p o) (ins_of n r o)).

(** rad-sim/sim/noc/booksim/allocators/islip.cpp:120-167 : the accept of one input; [first] is [iter == 0]. *)
Definition islip_accept (n m : nat) (r : rqm) (grants : nat -> option nat) (first : bool) (s : ptrs * match_) (i : nat) : ptrs * match_ :=
  let '(p, mt) := s in
  match find (fun o => is_at (grants o) i) (visit (p_a p i) (outs_of m r i)) with
  | Some o => (if first then {| p_g := fupd (p_g p) o ((i + 1) mod n); p_a := fupd (p_a p) i ((o + 1) mod m) |} else p, pair_up i o mt)
  | None => s
  end.

(** rad-sim/sim/noc/booksim/allocators/islip.cpp:56-168 : one iteration, and all. *)
Definition islip_iter (n m : nat) (r : rqm) (first : bool) (s : ptrs * match_) : ptrs * match_ :=
  let grants := fun o => if Nat.ltb o m then islip_grant n r (snd s) (fst s) o else None in
  fold_left (islip_accept n m r grants first) (seq 0 n) s.
(** rad-sim/sim/noc/booksim/allocators/islip.cpp:56 : the later iterations. *)
Fixpoint islip_iters (n m : nat) (r : rqm) (k : nat) (s : ptrs * match_) : ptrs * match_ :=
  match k with 0 => s | S k' => islip_iters n m r k' (islip_iter n m r false s) end.
(** rad-sim/sim/noc/booksim/allocators/islip.cpp:56-168 : all iterations. *)
Definition islip_alloc (n m iters : nat) (r : rqm) (mt : match_) (p : ptrs) : option (ptrs * match_) :=
  Some (match iters with 0 => (p, mt) | S k => islip_iters n m r k (islip_iter n m r true (p, mt)) end).
(** rad-sim/sim/noc/booksim/allocators/islip.cpp:36-43 : the pointers start at 0. *)
Definition islip (n m iters : nat) : allocator :=
  {| al_st := ptrs; al_init := ptrs0; al_add := fun _ _ _ s => s; al_alloc := islip_alloc n m iters; al_clear := fun s => s |}.

(** ** PIM *)

(** rad-sim/sim/noc/booksim/allocators/pim.cpp:66-67 and 88-89 : the order in which ports are tried. *)
Definition rotated (k n : nat) : list nat := map (fun i => (i + k) mod n) (seq 0 n).

(** rad-sim/sim/noc/booksim/allocators/pim.cpp:47-118.  The random numbers come from a stream: the state is the number drawn so far. *)
Definition pim_grant (n : nat) (r : rqm) (mt : match_) (off o : nat) : option nat :=
  find (fun i => is_some (r i o) && is_none (m_in mt i) && is_none (m_out mt o)) (rotated off n).
(** rad-sim/sim/noc/booksim/allocators/pim.cpp:83-98 : the accept of one input. *)
Definition pim_accept (m : nat) (grants : nat -> option nat) (offs : nat -> nat) (mt : match_) (i : nat) : match_ :=
  match find (fun o => is_at (grants o) i) (rotated (offs i) m) with Some o => pair_up i o mt | None => mt end.
(** rad-sim/sim/noc/booksim/allocators/pim.cpp:55-98 : one iteration. *)
Definition pim_iter (n m : nat) (r : rqm) (rnd : nat -> nat) (s : nat * match_) : nat * match_ :=
  let '(c, mt) := s in
  let grants := fun o => if Nat.ltb o m then pim_grant n r mt (rnd (c + o)) o else None in
  (c + m + n, fold_left (pim_accept m grants (fun i => rnd (c + m + i))) (seq 0 n) mt).
(** rad-sim/sim/noc/booksim/allocators/pim.cpp:55 : all iterations. *)
Fixpoint pim_iters (n m : nat) (r : rqm) (rnd : nat -> nat) (k : nat) (s : nat * match_) : nat * match_ :=
  match k with 0 => s | S k' => pim_iters n m r rnd k' (pim_iter n m r rnd s) end.
(** rad-sim/sim/noc/booksim/allocators/pim.cpp:36-41. *)
Definition pim (n m iters : nat) (rnd : nat -> nat) : allocator :=
  {| al_st := nat; al_init := 0; al_add := fun _ _ _ s => s;
     al_alloc := fun r mt c => Some (pim_iters n m r rnd iters (c, mt)); al_clear := fun s => s |}.

(** ** LOA *)

(** rad-sim/sim/noc/booksim/allocators/loa.cpp:59-64. *)
Definition loa_count (n : nat) (r : rqm) (o : nat) : nat := length (ins_of n r o).
(** rad-sim/sim/noc/booksim/allocators/loa.cpp:70-85. *)
Definition loa_pick (n : nat) (r : rqm) (i : nat) (l : list nat) : option nat :=
  fst (fold_left (fun acc o => if is_some (r i o) && Nat.ltb (loa_count n r o) (snd acc) then (Some o, loa_count n r o) else acc) l (None, n + 1)).
(** rad-sim/sim/noc/booksim/allocators/loa.cpp:89-107 : one output; [p_a] is [_rptr], [p_g] is [_gptr]. *)
Definition loa_grant (n m : nat) (req : nat -> option nat) (s : ptrs * match_) (o : nat) : ptrs * match_ :=
  let '(p, mt) := s in
  match find (fun i => is_at (req i) o) (rotated (p_g p o) n) with
  | Some i => ({| p_g := fupd (p_g p) o ((p_g p o + 1) mod n); p_a := fupd (p_a p) i ((p_a p i + 1) mod m) |}, pair_up i o mt)
  | None => s
  end.
(** rad-sim/sim/noc/booksim/allocators/loa.cpp:45-110. *)
Definition loa_alloc (n m : nat) (r : rqm) (mt : match_) (p : ptrs) : option (ptrs * match_) :=
  let req := fun i => if Nat.ltb i n then loa_pick n r i (rotated (p_a p i) m) else None in
  Some (fold_left (loa_grant n m req) (seq 0 m) (p, mt)).
(** rad-sim/sim/noc/booksim/allocators/loa.cpp:34-43 : the pointers start at 0. *)
Definition loa (n m : nat) : allocator :=
  {| al_st := ptrs; al_init := ptrs0; al_add := fun _ _ _ s => s; al_alloc := loa_alloc n m; al_clear := fun s => s |}.

(** ** SelAlloc *)

(** rad-sim/sim/noc/booksim/allocators/selalloc.cpp:89-116 and 156-184 : the first of the visited ports that pass the test and have the
    highest priority. *)
Definition best_of (ok : nat -> bool) (pri : nat -> Z) (l : list nat) : option nat :=
  fst (fold_left (fun acc x => if ok x && ((snd acc <? pri x)%Z || is_none (fst acc)) then (Some x, pri x) else acc) l (None, 0%Z)).
(** rad-sim/sim/noc/booksim/allocators/allocator.cpp:338-342 : the priorities stored in [_in_req] and [_out_req]. *)
Definition ipri (r : rqm) (i o : nat) : Z := match r i o with Some q => q_ipri q | None => 0%Z end.
(** rad-sim/sim/noc/booksim/allocators/allocator.cpp:338-342. *)
Definition opri (r : rqm) (i o : nat) : Z := match r i o with Some q => q_opri q | None => 0%Z end.

(** rad-sim/sim/noc/booksim/allocators/selalloc.cpp:67-121 : the grant phase; a grant of an earlier iteration stays when the output is
    skipped or has no free requester. *)
Definition sel_grant (n m : nat) (r : rqm) (mask : nat -> bool) (mt : match_) (p : ptrs) (old : nat -> option nat) (o : nat) : option nat :=
  if negb (Nat.ltb o m) || Nat.eqb (length (ins_of n r o)) 0 || is_some (m_out mt o) || mask o then old o
  else match best_of (fun i => is_none (m_in mt i)) (fun i => opri r i o) (visit (p_g p o) (ins_of n r o)) with
       | Some i => Some i
       | None => old o
       end.
(** rad-sim/sim/noc/booksim/allocators/selalloc.cpp:139-199 : the accept of one input. *)
Definition sel_accept (n m : nat) (r : rqm) (grants : nat -> option nat) (first : bool) (s : ptrs * match_) (i : nat) : ptrs * match_ :=
  let '(p, mt) := s in
  match best_of (fun o => is_at (grants o) i) (fun o => ipri r i o) (visit (p_a p i) (outs_of m r i)) with
  | Some o => (if first then {| p_g := fupd (p_g p) o ((i + 1) mod n); p_a := fupd (p_a p) i ((o + 1) mod m) |} else p, pair_up i o mt)
  | None => s
  end.
(** rad-sim/sim/noc/booksim/allocators/selalloc.cpp:62-200. *)
Fixpoint sel_iters (n m : nat) (r : rqm) (mask : nat -> bool) (k : nat) (first : bool) (grants : nat -> option nat) (s : ptrs * match_) : ptrs * match_ :=
  match k with
  | 0 => s
  | S k' => let g := sel_grant n m r mask (snd s) (fst s) grants in
            sel_iters n m r mask k' false g (fold_left (sel_accept n m r g first) (seq 0 n) s)
  end.
(** rad-sim/sim/noc/booksim/allocators/selalloc.cpp:36-45. *)
Definition selalloc (n m iters : nat) (mask : nat -> bool) : allocator :=
  {| al_st := ptrs; al_init := ptrs0; al_add := fun _ _ _ s => s;
     al_alloc := fun r mt p => Some (sel_iters n m r mask iters true (fun _ => None) (p, mt)); al_clear := fun s => s |}.

(** ** Wavefront *)

(** rad-sim/sim/noc/booksim/allocators/wavefront.hpp:38-46. *)
Record wave := { w_num : nat; w_last : option (nat * nat); w_pris : list (Z * Z); w_pri : nat }.
(** rad-sim/sim/noc/booksim/allocators/wavefront.cpp:40-41. *)
Definition wave0 : wave := {| w_num := 0; w_last := None; w_pris := []; w_pri := 0 |}.

(** A [set<pair<int,int>>], here from the highest to the lowest pair. rad-sim/sim/noc/booksim/allocators/wavefront.hpp:40. *)
Definition pri_gt (a b : Z * Z) : bool := (fst b <? fst a)%Z || ((fst a =? fst b)%Z && (snd b <? snd a)%Z).
(** rad-sim/sim/noc/booksim/allocators/wavefront.cpp:52 : insertion into the set. *)
Fixpoint pri_insert (x : Z * Z) (l : list (Z * Z)) : list (Z * Z) :=
  match l with
  | [] => [x]
  | y :: r => if pri_gt x y then x :: l else if pri_gt y x then y :: pri_insert x r else l
  end.
(** rad-sim/sim/noc/booksim/allocators/wavefront.cpp:45-53. *)
Definition wave_add (i o : nat) (q : areq) (s : wave) : wave :=
  {| w_num := S (w_num s); w_last := Some (i, o); w_pris := pri_insert (q_opri q, q_ipri q) (w_pris s); w_pri := w_pri s |}.

(** rad-sim/sim/noc/booksim/allocators/wavefront.cpp:81-95 : one cell; [first_diag] is [None] while negative. *)
Definition wave_cell (n m : nat) (r : rqm) (pr : Z * Z) (s : option nat * match_) (c : nat * nat) : option nat * match_ :=
  let '(fd, mt) := s in let '(i, o) := c in
  if Nat.ltb i n && Nat.ltb o m && is_none (m_in mt i) && is_none (m_out mt o) &&
     match r i o with Some q => (q_ipri q =? snd pr)%Z && (q_opri q =? fst pr)%Z | None => false end
  then (match fd with None => Some (i + o) | _ => fd end, pair_up i o mt)
  else s.
(** rad-sim/sim/noc/booksim/allocators/wavefront.cpp:80-82 : the cells in the order of the loops. *)
Definition wave_cells (sq pri : nat) : list (nat * nat) :=
  flat_map (fun p => map (fun o => (((pri + p) + (sq - o)) mod sq, o)) (seq 0 sq)) (seq 0 sq).
(** rad-sim/sim/noc/booksim/allocators/wavefront.cpp:55-109. *)
Definition wave_alloc (n m : nat) (skip : bool) (r : rqm) (mt : match_) (s : wave) : option (wave * match_) :=
  let sq := Nat.max n m in
  if Nat.eqb (w_num s) 0 then Some (s, mt)
  else
    let res := if Nat.eqb (w_num s) 1
               then match w_last s with Some (i, o) => Some (Some (i + o), pair_up i o mt) | None => None end
               else Some (fold_left (fun st pr => fold_left (wave_cell n m r pr) (wave_cells sq (w_pri s)) st) (w_pris s) (None, mt)) in
    match res with
    | Some (Some fd, mt') => Some ({| w_num := 0; w_last := None; w_pris := []; w_pri := ((if skip then fd else w_pri s) + 1) mod sq |}, mt')
    | _ => None
    end.
(** rad-sim/sim/noc/booksim/allocators/wavefront.cpp:37-43. *)
Definition wavefront (n m : nat) (skip : bool) : allocator :=
  {| al_st := wave; al_init := wave0; al_add := wave_add; al_alloc := wave_alloc n m skip; al_clear := fun s => s |}.

(** ** Separable *)

(** rad-sim/sim/noc/booksim/allocators/separable.hpp:47-48 : the arbiters of the first and of the second stage. *)
Record sep (a b : arbiter) := { se_a : nat -> ast a; se_b : nat -> ast b }.
Arguments se_a {a b}. Arguments se_b {a b}.
(** rad-sim/sim/noc/booksim/allocators/separable.cpp:37-60. *)
Definition sep0 (a b : arbiter) : sep a b := {| se_a := fun _ => a_init a; se_b := fun _ => a_init b |}.

(** rad-sim/sim/noc/booksim/allocators/separable.cpp:76-86. *)
Definition sep_clear1 (a : arbiter) (s : ast a) : ast a := if Nat.eqb (a_num a s) 0 then s else a_clear a s.
(** rad-sim/sim/noc/booksim/allocators/separable.cpp:76-86. *)
Definition sep_clear {a b} (s : sep a b) : sep a b :=
  {| se_a := fun x => sep_clear1 a (se_a s x); se_b := fun y => sep_clear1 b (se_b s y) |}.

(** rad-sim/sim/noc/booksim/allocators/separable_input_first.cpp:58-66 and separable_output_first.cpp:58-66 : the requests of one
    port [x] go to its arbiter. *)
Fixpoint sep_adds (a : arbiter) (pa : areq -> Z) (row : nat -> option areq) (ys : list nat) (s : ast a) : option (ast a) :=
  match ys with
  | [] => Some s
  | y :: r =>
      match row y with
      | Some q => match a_add a y (q_label q) (pa q) s with Some s1 => sep_adds a pa row r s1 | None => None end
      | None => None
      end
  end.

(** rad-sim/sim/noc/booksim/allocators/separable_input_first.cpp:51-80 and separable_output_first.cpp:51-80 : the first stage.  In
    the input-first allocator the ports [xs] are the inputs and [rq x y] is the request of [x] for [y];
    in the output-first one they are the outputs and [rq] is the transposed matrix. *)
Fixpoint sep_first {a b} (m : nat) (pa pb : areq -> Z) (rq : rqm) (xs : list nat) (s : sep a b) : option (sep a b) :=
  match xs with
  | [] => Some s
  | x :: r =>
      match sep_adds a pa (rq x) (outs_of m rq x) (se_a s x) with
      | None => None
      | Some s1 =>
          match a_arb a s1 with
          | Some (s2, Some (y, id, _)) =>
              match rq x y with
              | Some q =>
                  if (q_label q =? id)%Z then
                    match a_add b x (q_label q) (pb q) (se_b s y) with
                    | Some t => sep_first m pa pb rq r {| se_a := fupd (se_a s) x s2; se_b := fupd (se_b s) y t |}
                    | None => None
                    end
                  else None
              | None => None
              end
          | _ => None
          end
      end
  end.

(** rad-sim/sim/noc/booksim/allocators/separable_input_first.cpp:82-102 and separable_output_first.cpp:82-102 : the second stage.
    [mate x y] records the pair. *)
Fixpoint sep_second {a b} (mx my : match_ -> nat -> option nat) (mate : nat -> nat -> match_ -> match_) (ys : list nat) (s : sep a b) (mt : match_) : option (sep a b * match_) :=
  match ys with
  | [] => Some (s, mt)
  | y :: r =>
      match a_arb b (se_b s y) with
      | None => None
      | Some (t, None) => sep_second mx my mate r {| se_a := se_a s; se_b := fupd (se_b s) y t |} mt
      | Some (t, Some (x, _, _)) =>
          if is_none (mx mt x) && is_none (my mt y) then
            match a_upd a (se_a s x), a_upd b t with
            | Some u, Some v => sep_second mx my mate r {| se_a := fupd (se_a s) x u; se_b := fupd (se_b s) y v |} (mate x y mt)
            | _, _ => None
            end
          else None
      end
  end.

(** The occupied ports of one side (rad-sim/sim/noc/booksim/allocators/allocator.cpp:322-329): those with a request. *)
Definition occupied (n m : nat) (rq : rqm) : list nat := filter (fun x => negb (Nat.eqb (length (outs_of m rq x)) 0)) (seq 0 n).
(** Helper: the request matrix seen from the outputs, [_out_req] of rad-sim/sim/noc/booksim/allocators/allocator.cpp:341-342. *)
Definition transpose (rq : rqm) : rqm := fun y x => rq x y.

(** rad-sim/sim/noc/booksim/allocators/separable_input_first.cpp:49-103. *)
Definition sep_input_first (a b : arbiter) (n m : nat) : allocator :=
  {| al_st := sep a b; al_init := sep0 a b; al_add := fun _ _ _ s => s;
     al_alloc := fun r mt s =>
       match sep_first m q_ipri q_opri r (occupied n m r) s with
       | Some s1 => sep_second m_in m_out pair_up (occupied m n (transpose r)) s1 mt
       | None => None
       end;
     al_clear := sep_clear |}.
(** rad-sim/sim/noc/booksim/allocators/separable_output_first.cpp:49-103. *)
Definition sep_output_first (a b : arbiter) (n m : nat) : allocator :=
  {| al_st := sep a b; al_init := sep0 a b; al_add := fun _ _ _ s => s;
     al_alloc := fun r mt s =>
       match sep_first n q_opri q_ipri (transpose r) (occupied m n (transpose r)) s with
       | Some s1 => sep_second m_out m_in (fun o i => pair_up i o) (occupied n m r) s1 mt
       | None => None
       end;
     al_clear := sep_clear |}.

(** rad-sim/sim/noc/booksim/allocators/separable.cpp:37-60 : both sets of arbiters are of the same type, those of the inputs have one
    entry per output and the other way round.  Simplified: there is at least one port on each side. *)
Definition new_sep_input_first (k : akind) (n m : nat) : option allocator :=
  match new_arbiter k m, new_arbiter k n with Some a, Some b => Some (sep_input_first a b n m) | _, _ => None end.
(** rad-sim/sim/noc/booksim/allocators/separable.cpp:37-60 and separable_output_first.cpp:38-44. *)
Definition new_sep_output_first (k : akind) (n m : nat) : option allocator :=
  match new_arbiter k n, new_arbiter k m with Some a, Some b => Some (sep_output_first a b n m) | _, _ => None end.

(** ** MaxSize *)

(** The state of one search: [_from] (a vector of [n] entries, rad-sim/sim/noc/booksim/allocators/maxsize.cpp:115). *)
Definition from0 : nat -> option nat := fun _ => None.

(** What the search for a path gives: the output that ends an augmenting path, or the next stack. rad-sim/sim/noc/booksim/allocators/maxsize.cpp:117-152. *)
Inductive search := Path (from : nat -> option nat) (j : nat) | Next (from : nat -> option nat) (ns : list nat).

(** rad-sim/sim/noc/booksim/allocators/maxsize.cpp:123-144 : the edges of input [i]; [_from] and the stack [_ns] have [n] entries, an
    access beyond is [None]. *)
Fixpoint ms_edges (n : nat) (r : rqm) (mt : match_) (i : nat) (js : list nat) (from : nat -> option nat) (ns : list nat) : option search :=
  match js with
  | [] => Some (Next from ns)
  | j :: rest =>
      if is_some (r i j) && negb (is_at (m_in mt i) j) then
        if Nat.ltb j n then
          match from j with
          | Some _ => ms_edges n r mt i rest from ns
          | None =>
              match m_out mt j with
              | None => Some (Path (fupd from j (Some i)) j)
              | Some i' => if Nat.ltb (length ns) n then ms_edges n r mt i rest (fupd from j (Some i)) (ns ++ [i']) else None
              end
          end
        else None
      else ms_edges n r mt i rest from ns
  end.
(** rad-sim/sim/noc/booksim/allocators/maxsize.cpp:120-145 : the inputs of the stack. *)
Fixpoint ms_level (n m : nat) (r : rqm) (mt : match_) (st : list nat) (from : nat -> option nat) (ns : list nat) : option search :=
  match st with
  | [] => Some (Next from ns)
  | i :: rest =>
      match ms_edges n r mt i (seq 0 m) from ns with
      | Some (Next from' ns') => ms_level n m r mt rest from' ns'
      | x => x
      end
  end.
(** rad-sim/sim/noc/booksim/allocators/maxsize.cpp:117-152 : [k] levels. *)
Fixpoint ms_search (n m : nat) (r : rqm) (mt : match_) (k : nat) (st : list nat) (from : nat -> option nat) : option search :=
  match k with
  | 0 => Some (Next from st)
  | S k' =>
      match ms_level n m r mt st from [] with
      | Some (Next from' ns) => ms_search n m r mt k' ns from'
      | x => x
      end
  end.

(** rad-sim/sim/noc/booksim/allocators/maxsize.cpp:164-192 : the path is followed back from output [j] whose [_outmatch] is about to
    be set; [None] when the path is broken or longer than the fuel. *)
Fixpoint ms_augment (fuel : nat) (from : nat -> option nat) (j : nat) (mt : match_) : option match_ :=
  match from j with
  | None => None
  | Some i =>
      let mt1 := {| m_in := m_in mt; m_out := fupd (m_out mt) j (Some i) |} in
      let mt2 := {| m_in := fupd (m_in mt) i (Some j); m_out := m_out mt1 |} in
      match m_in mt i with
      | None => Some mt2
      | Some jn => match fuel with 0 => None | S f => ms_augment f from jn mt2 end
      end
  end.

(** rad-sim/sim/noc/booksim/allocators/maxsize.cpp:99-210 : one call; [Some None] is the return value false. *)
Definition ms_step (n m prio : nat) (r : rqm) (mt : match_) : option (option match_) :=
  match ms_search n m r mt n (filter (fun j => is_none (m_in mt j)) (map (fun i => (i + prio) mod n) (seq 0 n))) from0 with
  | None => None
  | Some (Next _ _) => Some None
  | Some (Path from j) => match ms_augment n from j mt with Some mt' => Some (Some mt') | None => None end
  end.
(** rad-sim/sim/noc/booksim/allocators/maxsize.cpp:92 : as often as possible; [None] also when the fuel runs out. *)
Fixpoint ms_loop (fuel n m prio : nat) (r : rqm) (mt : match_) : option match_ :=
  match ms_step n m prio r mt with
  | None => None
  | Some None => Some mt
  | Some (Some mt') => match fuel with 0 => None | S f => ms_loop f n m prio r mt' end
  end.
(** rad-sim/sim/noc/booksim/allocators/maxsize.cpp:87-96.  The fuel, one more than the number of inputs, is
    never used up (see the theorems).  [None] for no inputs is the remainder by zero. *)
Definition ms_alloc (n m : nat) (r : rqm) (mt : match_) (prio : nat) : option (nat * match_) :=
  if Nat.eqb n 0 then None else match ms_loop (S n) n m prio r mt with Some mt' => Some ((prio + 1) mod n, mt') | None => None end.
(** rad-sim/sim/noc/booksim/allocators/maxsize.cpp:71-79. *)
Definition max_size (n m : nat) : allocator :=
  {| al_st := nat; al_init := 0; al_add := fun _ _ _ s => s; al_alloc := ms_alloc n m; al_clear := fun s => s |}.
