(** The arbiters of the NoC model: rad-sim/sim/noc/booksim/arbiters. *)
From Coq Require Import ZArith Arith Bool List.
From Verif Require Import Fupd.
Import ListNotations.

(** A request: input, id and priority. rad-sim/sim/noc/booksim/arbiters/arbiter.hpp:45-49. *)
Definition req := (nat * Z * Z)%type.

(** rad-sim/sim/noc/booksim/arbiters/arbiter.hpp:44-60 : the members of the base class.  [_request[i]] is [Some (id, pri)] when its
    valid bit is set; -1 is [None]. *)
Record base := { b_size : nat; b_req : nat -> option (Z * Z); b_num : nat; b_sel : option nat }.

(** rad-sim/sim/noc/booksim/arbiters/arbiter.cpp:44-52. *)
Definition base0 (n : nat) : base := {| b_size := n; b_req := fun _ => None; b_num := 0; b_sel := None |}.

(** rad-sim/sim/noc/booksim/arbiters/arbiter.cpp:54-63; [None] is a failed assert. *)
Definition base_add (i : nat) (id pri : Z) (b : base) : option base :=
  if Nat.ltb i (b_size b) then
    match b_req b i with
    | Some _ => None
    | None => Some {| b_size := b_size b; b_req := fupd (b_req b) i (Some (id, pri)); b_num := S (b_num b); b_sel := b_sel b |}
    end
  else None.

(** rad-sim/sim/noc/booksim/arbiters/arbiter.hpp:54 : an assignment to [_selected]. *)
Definition base_select (o : option nat) (b : base) : base :=
  {| b_size := b_size b; b_req := b_req b; b_num := b_num b; b_sel := o |}.

(** rad-sim/sim/noc/booksim/arbiters/arbiter.cpp:65-77 : the selected input with its id and priority; [None] is a failed assert or
    the read of an entry that was never written. *)
Definition base_result (b : base) : option (option req) :=
  match b_sel b with
  | None => if Nat.eqb (b_num b) 0 then Some None else None
  | Some w => match b_req b w with Some (id, pri) => Some (Some (w, id, pri)) | None => None end
  end.

(** rad-sim/sim/noc/booksim/arbiters/arbiter.cpp:79-89. *)
Definition base_clear (b : base) : base :=
  if Nat.ltb 0 (b_num b) then {| b_size := b_size b; b_req := fun _ => None; b_num := 0; b_sel := None |} else b.

(** rad-sim/sim/noc/booksim/arbiters/arbiter.hpp:61-85 : the virtual functions of an arbiter, LastWinner and [_num_reqs]. *)
Record arbiter := {
  ast : Type;
  a_init : ast;
  a_add : nat -> Z -> Z -> ast -> option ast;
  a_arb : ast -> option (ast * option req);
  a_upd : ast -> option ast;
  a_clear : ast -> ast;
  a_last : ast -> option nat;
  a_num : ast -> nat }.

(** rad-sim/sim/noc/booksim/arbiters/roundrobin_arb.hpp:39 and arbiter.hpp:56-57. *)
Record rr := { r_base : base; r_ptr : nat; r_best : option nat; r_high : Z }.
(** rad-sim/sim/noc/booksim/arbiters/roundrobin_arb.cpp:40-43; the least int is not modelled, it is never read. *)
Definition rr0 (n : nat) : rr := {| r_base := base0 n; r_ptr := 0; r_best := None; r_high := 0 |}.

(** rad-sim/sim/noc/booksim/arbiters/roundrobin_arb.hpp:63-71. *)
Definition supersedes (i1 : nat) (p1 : Z) (i2 : nat) (p2 : Z) (offset size : nat) : bool :=
  (p2 <? p1)%Z || ((p1 =? p2)%Z &&
  ((Z.of_nat i1 - Z.of_nat offset + Z.of_nat size) mod Z.of_nat size <? (Z.of_nat i2 - Z.of_nat offset + Z.of_nat size) mod Z.of_nat size)%Z).

(** rad-sim/sim/noc/booksim/arbiters/roundrobin_arb.cpp:56-66. *)
Definition rr_add (i : nat) (id pri : Z) (s : rr) : option rr :=
  let fresh := match b_req (r_base s) i with None => true | Some (_, p) => (p <? pri)%Z end in
  let take := fresh && (Nat.eqb (b_num (r_base s)) 0 ||
    match r_best s with Some j => supersedes i pri j (r_high s) (r_ptr s) (b_size (r_base s)) | None => false end) in
  match base_add i id pri (r_base s) with
  | None => None
  | Some b => Some {| r_base := b; r_ptr := r_ptr s; r_best := if take then Some i else r_best s; r_high := if take then pri else r_high s |}
  end.

(** rad-sim/sim/noc/booksim/arbiters/roundrobin_arb.cpp:68-73. *)
Definition rr_arb (s : rr) : option (rr * option req) :=
  let b := base_select (r_best s) (r_base s) in
  match base_result b with
  | Some o => Some ({| r_base := b; r_ptr := r_ptr s; r_best := r_best s; r_high := r_high s |}, o)
  | None => None
  end.

(** rad-sim/sim/noc/booksim/arbiters/roundrobin_arb.cpp:50-54. *)
Definition rr_upd (s : rr) : option rr :=
  match b_sel (r_base s) with
  | None => Some s
  | Some w => Some {| r_base := r_base s; r_ptr := (w + 1) mod b_size (r_base s); r_best := r_best s; r_high := r_high s |}
  end.

(** rad-sim/sim/noc/booksim/arbiters/roundrobin_arb.cpp:75-80. *)
Definition rr_clear (s : rr) : rr :=
  {| r_base := base_clear (r_base s); r_ptr := r_ptr s; r_best := None; r_high := 0 |}.

(** rad-sim/sim/noc/booksim/arbiters/roundrobin_arb.hpp:39-70 : the class. *)
Definition round_robin (n : nat) : arbiter :=
  {| ast := rr; a_init := rr0 n; a_add := rr_add; a_arb := rr_arb; a_upd := rr_upd; a_clear := rr_clear;
     a_last := fun s => b_sel (r_base s); a_num := fun s => b_num (r_base s) |}.

(** rad-sim/sim/noc/booksim/arbiters/matrix_arb.hpp:46-48. *)
Record mat := { m_base : base; m_mat : nat -> nat -> bool; m_last : option nat }.
(** rad-sim/sim/noc/booksim/arbiters/matrix_arb.cpp:38-47. *)
Definition mat0 (n : nat) : mat := {| m_base := base0 n; m_mat := fun i j => Nat.ltb j i; m_last := None |}.

(** rad-sim/sim/noc/booksim/arbiters/matrix_arb.cpp:72-76. *)
Definition mat_add (i : nat) (id pri : Z) (s : mat) : option mat :=
  match base_add i id pri (m_base s) with
  | None => None
  | Some b => Some {| m_base := b; m_mat := m_mat s; m_last := Some i |}
  end.

(** rad-sim/sim/noc/booksim/arbiters/matrix_arb.cpp:93-103 : [i] takes the grant away from [input]. *)
Definition mat_blocks (s : mat) (input : nat) (pri : Z) (i : nat) : bool :=
  match b_req (m_base s) i with
  | Some (_, p) => ((p =? pri)%Z && m_mat s i input) || (pri <? p)%Z
  | None => false
  end.
(** rad-sim/sim/noc/booksim/arbiters/matrix_arb.cpp:91-109. *)
Definition mat_grants (s : mat) (input : nat) : bool :=
  match b_req (m_base s) input with
  | Some (_, pri) => negb (existsb (mat_blocks s input pri) (seq 0 (b_size (m_base s))))
  | None => false
  end.
(** rad-sim/sim/noc/booksim/arbiters/matrix_arb.cpp:78-115. *)
Definition mat_arb (s : mat) : option (mat * option req) :=
  let o := if Nat.ltb (b_num (m_base s)) 2 then m_last s else find (mat_grants s) (seq 0 (b_size (m_base s))) in
  let b := base_select o (m_base s) in
  match base_result b with
  | Some r => Some ({| m_base := b; m_mat := m_mat s; m_last := m_last s |}, r)
  | None => None
  end.

(** rad-sim/sim/noc/booksim/arbiters/matrix_arb.cpp:60-70. *)
Definition mat_upd (s : mat) : option mat :=
  match b_sel (m_base s) with
  | None => Some s
  | Some w => Some {| m_base := m_base s;
      m_mat := fun i j => if Nat.eqb i j then m_mat s i j
                          else if Nat.eqb i w then false else if Nat.eqb j w then true else m_mat s i j;
      m_last := m_last s |}
  end.

(** rad-sim/sim/noc/booksim/arbiters/matrix_arb.cpp:117-121. *)
Definition mat_clear (s : mat) : mat := {| m_base := base_clear (m_base s); m_mat := m_mat s; m_last := None |}.

(** rad-sim/sim/noc/booksim/arbiters/matrix_arb.hpp:43-69 : the class. *)
Definition matrix (n : nat) : arbiter :=
  {| ast := mat; a_init := mat0 n; a_add := mat_add; a_arb := mat_arb; a_upd := mat_upd; a_clear := mat_clear;
     a_last := fun s => b_sel (m_base s); a_num := fun s => b_num (m_base s) |}.

(** rad-sim/sim/noc/booksim/arbiters/tree_arb.hpp:40-45 : group arbiters of type [sub], a global arbiter of type [glob]. *)
Record tree (sub glob : arbiter) := {
  t_base : base; t_gsize : nat; t_groups : nat; t_group : nat -> ast sub; t_global : ast glob; t_reqs : nat -> nat }.
Arguments t_base {_ _}. Arguments t_gsize {_ _}. Arguments t_groups {_ _}. Arguments t_group {_ _}. Arguments t_global {_ _}. Arguments t_reqs {_ _}.

(** rad-sim/sim/noc/booksim/arbiters/tree_arb.cpp:40-53. *)
Definition tree0 (sub glob : arbiter) (n groups : nat) : tree sub glob :=
  {| t_base := base0 n; t_gsize := n / groups; t_groups := groups; t_group := fun _ => a_init sub; t_global := a_init glob; t_reqs := fun _ => 0 |}.

(** rad-sim/sim/noc/booksim/arbiters/tree_arb.cpp:80-86. *)
Definition tree_add {sub glob} (i : nat) (id pri : Z) (s : tree sub glob) : option (tree sub glob) :=
  match base_add i id pri (t_base s) with
  | None => None
  | Some b =>
      let g := i / t_gsize s in
      match a_add sub (i mod t_gsize s) id pri (t_group s g) with
      | None => None
      | Some x => Some {| t_base := b; t_gsize := t_gsize s; t_groups := t_groups s; t_group := fupd (t_group s) g x;
                          t_global := t_global s; t_reqs := fupd (t_reqs s) g (S (t_reqs s g)) |}
      end
  end.

(** rad-sim/sim/noc/booksim/arbiters/tree_arb.cpp:92-98 : the loop over the groups [gs]; a group arbiter that has requests but no
    winner would leave the id and priority unset. *)
Fixpoint tree_collect {sub glob} (gs : list nat) (reqs : nat -> nat) (group : nat -> ast sub) (global : ast glob) : option ((nat -> ast sub) * ast glob) :=
  match gs with
  | [] => Some (group, global)
  | g :: r =>
      if Nat.eqb (reqs g) 0 then tree_collect r reqs group global
      else match a_arb sub (group g) with
           | Some (x, Some (_, id, pri)) =>
               match a_add glob g id pri global with
               | Some y => tree_collect r reqs (fupd group g x) y
               | None => None
               end
           | _ => None
           end
  end.

(** rad-sim/sim/noc/booksim/arbiters/tree_arb.cpp:88-106. *)
Definition tree_arb {sub glob} (s : tree sub glob) : option (tree sub glob * option req) :=
  if Nat.eqb (b_num (t_base s)) 0 then Some (s, None)
  else match tree_collect (seq 0 (t_groups s)) (t_reqs s) (t_group s) (t_global s) with
       | None => None
       | Some (group, global) =>
           match a_arb glob global with
           | Some (global', Some (g, _, _)) =>
               if Nat.ltb g (t_groups s) then
                 match a_last sub (group g) with
                 | Some w =>
                     if Nat.ltb w (t_gsize s) && Nat.ltb (g * t_gsize s + w) (b_size (t_base s)) then
                       let b := base_select (Some (g * t_gsize s + w)) (t_base s) in
                       match base_result b with
                       | Some r => Some ({| t_base := b; t_gsize := t_gsize s; t_groups := t_groups s; t_group := group;
                                            t_global := global'; t_reqs := t_reqs s |}, r)
                       | None => None
                       end
                     else None
                 | None => None
                 end
               else None
           | _ => None
           end
       end.

(** rad-sim/sim/noc/booksim/arbiters/tree_arb.cpp:71-78. *)
Definition tree_upd {sub glob} (s : tree sub glob) : option (tree sub glob) :=
  match b_sel (t_base s) with
  | None => Some s
  | Some _ =>
      match a_last glob (t_global s) with
      | Some g =>
          if Nat.ltb g (t_groups s) then
            match a_upd sub (t_group s g), a_upd glob (t_global s) with
            | Some x, Some y => Some {| t_base := t_base s; t_gsize := t_gsize s; t_groups := t_groups s;
                                        t_group := fupd (t_group s) g x; t_global := y; t_reqs := t_reqs s |}
            | _, _ => None
            end
          else None
      | None => None
      end
  end.

(** rad-sim/sim/noc/booksim/arbiters/tree_arb.cpp:108-119. *)
Definition tree_clear {sub glob} (s : tree sub glob) : tree sub glob :=
  if Nat.eqb (b_num (t_base s)) 0 then s
  else {| t_base := base_clear (t_base s); t_gsize := t_gsize s; t_groups := t_groups s;
          t_group := fun g => a_clear sub (t_group s g); t_global := a_clear glob (t_global s); t_reqs := fun _ => 0 |}.

(** rad-sim/sim/noc/booksim/arbiters/tree_arb.hpp:39-69 : the class. *)
Definition tree_arbiter (sub glob : arbiter) (n groups : nat) : arbiter :=
  {| ast := tree sub glob; a_init := tree0 sub glob n groups; a_add := tree_add; a_arb := tree_arb; a_upd := tree_upd;
     a_clear := tree_clear; a_last := fun s => b_sel (t_base s); a_num := fun s => b_num (t_base s) |}.

(** rad-sim/sim/noc/booksim/arbiters/arbiter.cpp:91-111 : the arbiter types.  Simplified: the type is given parsed. *)
Inductive akind := RoundRobin | Matrix | TreeOf (groups : nat) (k : akind).
(** [None] is a failed assert (tree_arb.cpp:43) or a division by zero. *)
Fixpoint new_arbiter (k : akind) (n : nat) : option arbiter :=
  match k with
  | RoundRobin => Some (round_robin n)
  | Matrix => Some (matrix n)
  | TreeOf g k' =>
      if Nat.eqb g 0 then None
      else if Nat.eqb (n mod g) 0 then
        match new_arbiter k' (n / g), new_arbiter k' g with
        | Some a, Some b => Some (tree_arbiter a b n g)
        | _, _ => None
        end
      else None
  end.

(** The calls a user of an arbiter makes, and what Arbitrate returns. rad-sim/sim/noc/booksim/arbiters/arbiter.hpp:66-76. *)
Inductive aop := Add (i : nat) (id pri : Z) | Arb | Upd | Clr.
(** rad-sim/sim/noc/booksim/arbiters/arbiter.hpp:66-76 : one call. *)
Definition astep (a : arbiter) (o : aop) (s : ast a) : option (ast a * list (option req)) :=
  match o with
  | Add i id pri => match a_add a i id pri s with Some s' => Some (s', []) | None => None end
  | Arb => match a_arb a s with Some (s', r) => Some (s', [r]) | None => None end
  | Upd => match a_upd a s with Some s' => Some (s', []) | None => None end
  | Clr => Some (a_clear a s, [])
  end.
(** rad-sim/sim/noc/booksim/arbiters/arbiter.hpp:66-76 : several calls. *)
Fixpoint arun (a : arbiter) (l : list aop) (s : ast a) : option (ast a * list (option req)) :=
  match l with
  | [] => Some (s, [])
  | o :: r =>
      match astep a o s with
      | None => None
      | Some (s1, r1) => match arun a r s1 with Some (s2, r2) => Some (s2, r1 ++ r2) | None => None end
      end
  end.
