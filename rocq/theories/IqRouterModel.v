(** The input-queued router: rad-sim/sim/noc/booksim/routers/iq_router.cpp with the settings that RAD-Sim writes
    (rad-sim/config.py:187-195 and the defaults in rad-sim/sim/noc/booksim/booksim_config.cpp:86-148): no speculation, no switch hold, no noq,
    no speedup, priority none, and the delays of the allocators and of the crossbar equal to one, so that whatever an
    Evaluate function stamps is taken from its queue by the Update function of the same step.  The routing delay is zero
    (lookahead) or one.  The credit delay and the output buffer size are arbitrary.  [None] is a failed assert or a
    call of Error.  Watching, power monitors and statistics are left out. *)
From Coq Require Import ZArith Arith Bool List.
From Verif Require Import Fupd ArbiterModel AllocModel BufferModel RouteModel.
Import ListNotations.
Open Scope nat_scope.

(** rad-sim/sim/noc/booksim/flit.hpp:48-88 : the fields the router reads or writes. *)
Record flit := { f_id : Z; f_pid : Z; f_head : bool; f_tail : bool; f_vc : nat; f_la : list oelem }.
(** rad-sim/sim/noc/booksim/vc.hpp:47-49. *)
Inductive vstate := Idle | Routing | VAlloc | Active.
(** rad-sim/sim/noc/booksim/vc.hpp:59-73 : [v_out] is the pair of _out_port and _out_vc, [v_exp] is _expected_pid.  With lookahead routing
    _route_set points into the flit at the front; here its elements are copied. *)
Record vcst := { v_buf : list flit; v_state : vstate; v_route : list oelem; v_out : option (nat * nat); v_exp : Z }.
(** rad-sim/sim/noc/booksim/vc.cpp:48-55. *)
Definition vcst0 : vcst := {| v_buf := []; v_state := Idle; v_route := []; v_out := None; v_exp := -1 |}.

(** rad-sim/sim/noc/booksim/routers/iq_router.cpp:50-180 : the settings.  [c_rdelay]: the routing delay is one.  [c_b]: number of virtual channels, size of
    a buffer (buffer.cpp:40-43 and buffer_state.cpp:542-546 compute the same) and wait_for_tail_credit. *)
Record iqcfg := { c_in : nat; c_outs : nat; c_b : bcfg; c_rdelay : bool; c_cdelay : Z; c_obuf : Z }.
(** rad-sim/sim/noc/booksim/routers/iq_router.cpp:54 : _vcs. *)
Definition c_vcs (c : iqcfg) : nat := bc_vcs (c_b c).

(** rad-sim/sim/noc/booksim/routers/iq_router.hpp:64-98 : the state between steps and between the functions of a step.  [r_occ]: the _occupancy of
    the input buffers.  [r_rq], [r_va], [r_sa]: _route_vcs, _vc_alloc_vcs and _sw_alloc_vcs, of which only unstamped entries are kept.
    [r_xb]: _crossbar_flits.  [r_oc]: _out_queue_credits, [] for an input without credit.  [r_rr]: _sw_rr_offset. *)
Record router (P : bpolicy) := mkR {
  r_vc : nat -> nat -> vcst; r_occ : nat -> Z;
  r_rq : list (nat * nat); r_va : list (nat * nat); r_sa : list (nat * nat);
  r_xb : list (flit * (nat * nat)); r_out : nat -> list flit;
  r_next : nat -> bufs P; r_proc : list (Z * (list nat * nat));
  r_oc : nat -> list nat; r_cb : nat -> list (list nat); r_rr : nat -> nat; r_act : bool }.
Arguments mkR {P}. Arguments r_vc {P}. Arguments r_occ {P}. Arguments r_rq {P}. Arguments r_va {P}. Arguments r_sa {P}. Arguments r_xb {P}.
Arguments r_out {P}. Arguments r_next {P}. Arguments r_proc {P}. Arguments r_oc {P}. Arguments r_cb {P}. Arguments r_rr {P}. Arguments r_act {P}.
(** rad-sim/sim/noc/booksim/routers/iq_router.cpp:50-180 : the constructor. *)
Definition router0 (P : bpolicy) : router P :=
  mkR (fun _ _ => vcst0) (fun _ => 0%Z) [] [] [] [] (fun _ => []) (fun _ => bufs0 P) [] (fun _ => []) (fun _ => []) (fun _ => 0) false.

(** What a step reads from its surroundings, rad-sim/sim/noc/booksim/routers/iq_router.cpp:299-340: the time, a flit per input and a credit per output
    (a set of virtual channels).  [i_va], [i_sa]: the matches the two allocators compute from their requests.  [i_rf]: what the routing
    function of this router gives for a flit at an input.  [i_la]: what that of the next router gives behind an output,
    [None] if there is no router. *)
Record rin := {
  i_now : Z; i_flit : nat -> option flit; i_cred : nat -> option (list nat);
  i_va : list ask -> match_; i_sa : list ask -> match_;
  i_rf : nat -> flit -> list oelem; i_la : nat -> flit -> option (list oelem) }.
(** What it writes, rad-sim/sim/noc/booksim/routers/iq_router.cpp:2244-2280: a flit per output and a credit per input. *)
Record rout := { x_flit : nat -> option flit; x_cred : nat -> option (list nat) }.

(** A loop whose body can fail, e.g. rad-sim/sim/noc/booksim/routers/iq_router.cpp:344-411. *)
Fixpoint fold_opt {S A} (f : A -> S -> option S) (l : list A) (s : S) : option S :=
  match l with [] => Some s | a :: r => match f a s with Some s1 => fold_opt f r s1 | None => None end end.
(** A loop that computes a result for each element, e.g. rad-sim/sim/noc/booksim/routers/iq_router.cpp:713-773. *)
Fixpoint map_opt {A B} (f : A -> option B) (l : list A) : option (list B) :=
  match l with
  | [] => Some []
  | a :: r => match f a, map_opt f r with Some b, Some q => Some (b :: q) | _, _ => None end
  end.
(** [_buf[i]] and its virtual channel [v], rad-sim/sim/noc/booksim/buffer.hpp:44. *)
Definition upd2 {A} (f : nat -> nat -> A) (i v : nat) (x : A) : nat -> nat -> A := fupd f i (fupd (f i) v x).

(** rad-sim/sim/noc/booksim/routers/iq_router.hpp:74-98 : assignments to single members. *)
Definition set_vc {P} (i v : nat) (x : vcst) (s : router P) : router P :=
  mkR (upd2 (r_vc s) i v x) (r_occ s) (r_rq s) (r_va s) (r_sa s) (r_xb s) (r_out s) (r_next s) (r_proc s) (r_oc s) (r_cb s) (r_rr s) (r_act s).
(** rad-sim/sim/noc/booksim/buffer.hpp:41. *)
Definition set_occ {P} (i : nat) (x : Z) (s : router P) : router P :=
  mkR (r_vc s) (fupd (r_occ s) i x) (r_rq s) (r_va s) (r_sa s) (r_xb s) (r_out s) (r_next s) (r_proc s) (r_oc s) (r_cb s) (r_rr s) (r_act s).
(** rad-sim/sim/noc/booksim/routers/iq_router.hpp:74-77. *)
Definition set_qs {P} (rq va sa : list (nat * nat)) (s : router P) : router P :=
  mkR (r_vc s) (r_occ s) rq va sa (r_xb s) (r_out s) (r_next s) (r_proc s) (r_oc s) (r_cb s) (r_rr s) (r_act s).
(** rad-sim/sim/noc/booksim/routers/iq_router.hpp:79, 96. *)
Definition set_xb {P} (xb : list (flit * (nat * nat))) (out : nat -> list flit) (s : router P) : router P :=
  mkR (r_vc s) (r_occ s) (r_rq s) (r_va s) (r_sa s) xb out (r_next s) (r_proc s) (r_oc s) (r_cb s) (r_rr s) (r_act s).
(** rad-sim/sim/noc/booksim/routers/iq_router.hpp:84. *)
Definition set_next {P} (o : nat) (b : bufs P) (s : router P) : router P :=
  mkR (r_vc s) (r_occ s) (r_rq s) (r_va s) (r_sa s) (r_xb s) (r_out s) (fupd (r_next s) o b) (r_proc s) (r_oc s) (r_cb s) (r_rr s) (r_act s).
(** rad-sim/sim/noc/booksim/routers/iq_router.hpp:72. *)
Definition set_proc {P} (p : list (Z * (list nat * nat))) (s : router P) : router P :=
  mkR (r_vc s) (r_occ s) (r_rq s) (r_va s) (r_sa s) (r_xb s) (r_out s) (r_next s) p (r_oc s) (r_cb s) (r_rr s) (r_act s).
(** rad-sim/sim/noc/booksim/routers/iq_router.hpp:81, 98. *)
Definition set_creds {P} (oc : nat -> list nat) (cb : nat -> list (list nat)) (s : router P) : router P :=
  mkR (r_vc s) (r_occ s) (r_rq s) (r_va s) (r_sa s) (r_xb s) (r_out s) (r_next s) (r_proc s) oc cb (r_rr s) (r_act s).
(** rad-sim/sim/noc/booksim/routers/iq_router.hpp:91. *)
Definition set_rr {P} (rr : nat -> nat) (s : router P) : router P :=
  mkR (r_vc s) (r_occ s) (r_rq s) (r_va s) (r_sa s) (r_xb s) (r_out s) (r_next s) (r_proc s) (r_oc s) (r_cb s) rr (r_act s).
(** rad-sim/sim/noc/booksim/routers/iq_router.hpp:64. *)
Definition set_act {P} (a : bool) (s : router P) : router P :=
  mkR (r_vc s) (r_occ s) (r_rq s) (r_va s) (r_sa s) (r_xb s) (r_out s) (r_next s) (r_proc s) (r_oc s) (r_cb s) (r_rr s) a.

(** rad-sim/sim/noc/booksim/vc.cpp:81-92 : the new _expected_pid. *)
Definition expect (e : Z) (f : flit) : option Z :=
  if (0 <=? e)%Z then
    if negb (f_pid f =? e)%Z then None else Some (if f_tail f then (-1)%Z else e)
  else Some (if f_tail f then e else f_pid f).

(** rad-sim/sim/noc/booksim/routers/iq_router.cpp:344-411, rad-sim/sim/noc/booksim/buffer.cpp:65-75 and rad-sim/sim/noc/booksim/vc.cpp:77-105 : a flit enters its buffer. *)
Definition in_queue {P} (c : iqcfg) (xf : nat * flit) (s : router P) : option (router P) :=
  let '(i, f) := xf in
  let v := f_vc f in
  if negb (Nat.ltb i (c_in c) && Nat.ltb v (c_vcs c)) then None
  else if (bc_size (c_b c) <=? r_occ s i)%Z then None
  else
    let b := r_vc s i v in
    match expect (v_exp b) f with
    | None => None
    | Some e =>
        let s1 := set_occ i (r_occ s i + 1)%Z s in
        let buf := v_buf b ++ [f] in
        let first := match v_buf b with [] => true | _ => false end in
        match v_state b with
        | Idle =>
            if negb (first && f_head f) then None
            else if c_rdelay c then
              Some (set_qs (r_rq s ++ [(i, v)]) (r_va s) (r_sa s)
                     (set_vc i v {| v_buf := buf; v_state := Routing; v_route := v_route b; v_out := v_out b; v_exp := e |} s1))
            else
              Some (set_qs (r_rq s) (r_va s ++ [(i, v)]) (r_sa s)
                     (set_vc i v {| v_buf := buf; v_state := VAlloc; v_route := f_la f; v_out := None; v_exp := e |} s1))
        | st =>
            let s2 := set_vc i v {| v_buf := buf; v_state := st; v_route := v_route b; v_out := v_out b; v_exp := e |} s1 in
            match st with
            | Active => Some (if first then set_qs (r_rq s) (r_va s) (r_sa s ++ [(i, v)]) s2 else s2)
            | _ => Some s2
            end
        end
    end.

(** rad-sim/sim/noc/booksim/routers/iq_router.cpp:413-456 : the credits whose delay is over. *)
Fixpoint proc_credits {P} (c : iqcfg) (now : Z) (q : list (Z * (list nat * nat))) (s : router P) : option (router P) :=
  match q with
  | [] => Some (set_proc [] s)
  | (t, (vs, o)) :: r =>
      if (now <? t)%Z then Some (set_proc q s)
      else if negb (Nat.ltb o (c_outs c)) then None
      else match bs_credit (c_b c) P now vs (r_next s o) with
           | Some b => proc_credits c now r (set_next o b s)
           | None => None
           end
  end.

(** Checks on the virtual channel of a queue entry, e.g. rad-sim/sim/noc/booksim/routers/iq_router.cpp:571-587: it is in the state given and its front flit is
    one of this channel. *)
Definition front {P} (c : iqcfg) (st : vstate) (i v : nat) (s : router P) : option flit :=
  let b := r_vc s i v in
  match v_buf b with
  | f :: _ =>
      if Nat.ltb i (c_in c) && Nat.ltb v (c_vcs c) && Nat.eqb (f_vc f) v &&
         match v_state b, st with Routing, Routing | VAlloc, VAlloc | Active, Active => true | _, _ => false end
      then Some f else None
  | [] => None
  end.

(** rad-sim/sim/noc/booksim/routers/iq_router.cpp:602-691 : the requests for the outputs in a route set. *)
Fixpoint elem_asks {P} (c : iqcfg) (nx : nat -> bufs P) (iv : nat) (es : list oelem) : option (list ask) :=
  match es with
  | [] => Some []
  | e :: r =>
      if ((0 <=? o_port e) && (o_port e <? Z.of_nat (c_outs c)) && (0 <=? o_lo e) && (o_hi e <? Z.of_nat (c_vcs c)) && (o_lo e <=? o_hi e))%Z
      then
        let o := Z.to_nat (o_port e) in
        let ws := filter (available_for (bs_b (nx o))) (seq (Z.to_nat (o_lo e)) (Z.to_nat (o_hi e - o_lo e) + 1)) in
        match elem_asks c nx iv r with
        | Some q => Some (map (fun w => (iv, o * c_vcs c + w, {| q_label := 0; q_ipri := o_pri e; q_opri := 0 |})) ws ++ q)
        | None => None
        end
      else None
  end.
(** rad-sim/sim/noc/booksim/routers/iq_router.cpp:562-697 : the requests of one virtual channel. *)
Definition va_asks {P} (c : iqcfg) (s : router P) (iv : nat * nat) : option (list ask) :=
  match front c VAlloc (fst iv) (snd iv) s with
  | Some f => if f_head f then elem_asks c (r_next s) (fst iv * c_vcs c + snd iv) (v_route (r_vc s (fst iv) (snd iv))) else None
  | None => None
  end.
(** rad-sim/sim/noc/booksim/allocators/allocator.cpp:160, 318 : no request is made twice. *)
Fixpoint once (l : list (nat * nat)) : bool :=
  match l with [] => true | a :: r => negb (existsb (fun b => Nat.eqb (fst a) (fst b) && Nat.eqb (snd a) (snd b)) r) && once r end.
(** rad-sim/sim/noc/booksim/routers/iq_router.cpp:713-773 : what a virtual channel was assigned; one without request is not looked up (:693-695, 727). *)
Definition va_read (c : iqcfg) (m : match_) (x : (nat * nat) * list ask) : option ((nat * nat) * option (nat * nat)) :=
  let '((i, v), q) := x in
  match q with
  | [] => Some ((i, v), None)
  | _ => match m_in m (i * c_vcs c + v) with
         | None => Some ((i, v), None)
         | Some ow => if Nat.ltb (ow / c_vcs c) (c_outs c) then Some ((i, v), Some (ow / c_vcs c, ow mod c_vcs c)) else None
         end
  end.
(** rad-sim/sim/noc/booksim/routers/iq_router.cpp:556-773. *)
Definition va_evaluate {P} (c : iqcfg) (x : rin) (s : router P) : option (list ((nat * nat) * option (nat * nat))) :=
  match map_opt (va_asks c s) (r_va s) with
  | None => None
  | Some qs => if once (map fst (concat qs)) then map_opt (va_read c (i_va x (concat qs))) (combine (r_va s) qs) else None
  end.

(** rad-sim/sim/noc/booksim/allocators/allocator.cpp:138-154 : ReadRequest. *)
Definition read_req (l : list ask) (i o : nat) : option areq :=
  match find (fun a => Nat.eqb (fst (fst a)) i && Nat.eqb (snd (fst a)) o) l with Some a => Some (snd a) | None => None end.
(** rad-sim/sim/noc/booksim/routers/iq_router.cpp:1227-1328 : _SWAllocAddReq; the priority is always 0. *)
Definition sa_add (c : iqcfg) (rr : nat -> nat) (i v o : nat) (l : list ask) : list ask :=
  let new := (i, o, {| q_label := Z.of_nat v; q_ipri := 0; q_opri := 0 |}) in
  match read_req l i o with
  | None => l ++ [new]
  | Some q => if supersedes v 0 (Z.to_nat (q_label q)) (q_ipri q) (rr i) (c_vcs c)
              then filter (fun a => negb (Nat.eqb (fst (fst a)) i && Nat.eqb (snd (fst a)) o)) l ++ [new]
              else l
  end.
(** rad-sim/sim/noc/booksim/routers/iq_router.cpp:1334-1397 : one entry of the queue; the channels that make no request (:1394) are listed. *)
Definition sa_ask {P} (c : iqcfg) (now : Z) (s : router P) (iv : nat * nat) (a : list ask * list (nat * nat)) : option (list ask * list (nat * nat)) :=
  let '(i, v) := iv in
  match front c Active i v s, v_out (r_vc s i v) with
  | Some _, Some (o, w) =>
      if Nat.ltb o (c_outs c) && Nat.ltb w (c_vcs c) then
        match po_full P now (bs_b (r_next s o)) w (bs_p (r_next s o)) with
        | None => None
        | Some full =>
            if full || ((0 <=? c_obuf c)%Z && (c_obuf c <=? Z.of_nat (length (r_out s o)))%Z) then Some (fst a, snd a ++ [iv])
            else Some (sa_add c (r_rr s) i v o (fst a), snd a)
        end
      else None
  | _, _ => None
  end.
(** rad-sim/sim/noc/booksim/routers/iq_router.cpp:1486-1537 : the grant for one entry, and the round-robin offsets. *)
Definition sa_read (c : iqcfg) (l : list ask) (m : match_) (stalled : list (nat * nat)) (iv : nat * nat)
    (a : (nat -> nat) * list ((nat * nat) * option nat)) : (nat -> nat) * list ((nat * nat) * option nat) :=
  let '(i, v) := iv in
  let no := (fst a, snd a ++ [(iv, None)]) in
  if existsb (fun b => Nat.eqb i (fst b) && Nat.eqb v (snd b)) stalled then no
  else match m_in m i with
       | None => no
       | Some o => match read_req l i o with
                   | Some q => if (q_label q =? Z.of_nat v)%Z then (fupd (fst a) i ((v + 1) mod c_vcs c), snd a ++ [(iv, Some o)]) else no
                   | None => no
                   end
       end.
(** rad-sim/sim/noc/booksim/routers/iq_router.cpp:1330-1615. *)
Definition sa_evaluate {P} (c : iqcfg) (x : rin) (s : router P) : option ((nat -> nat) * list ((nat * nat) * option nat)) :=
  match fold_opt (sa_ask c (i_now x) s) (r_sa s) ([], []) with
  | None => None
  | Some (l, stalled) => Some (fold_left (fun a iv => sa_read c l (i_sa x l) stalled iv a) (r_sa s) (r_rr s, []))
  end.

(** rad-sim/sim/noc/booksim/routers/iq_router.cpp:502-549 : one entry of _RouteUpdate; with delay one it also does the checks of _RouteEvaluate (:464-500). *)
Definition route_update {P} (c : iqcfg) (x : rin) (iv : nat * nat) (s : router P) : option (router P) :=
  let '(i, v) := iv in
  if negb (c_rdelay c) then None
  else match front c Routing i v s with
       | Some f =>
           if f_head f then
             let b := r_vc s i v in
             Some (set_qs (r_rq s) (r_va s ++ [iv]) (r_sa s)
                    (set_vc i v {| v_buf := v_buf b; v_state := VAlloc; v_route := i_rf x i f; v_out := None; v_exp := v_exp b |} s))
           else None
       | None => None
       end.

(** rad-sim/sim/noc/booksim/routers/iq_router.cpp:843-927 : one entry of _VCAllocUpdate. *)
Definition va_update {P} (c : iqcfg) (d : (nat * nat) * option (nat * nat)) (s : router P) : option (router P) :=
  let '((i, v), g) := d in
  match front c VAlloc i v s with
  | Some f =>
      if f_head f then
        match g with
        | None => Some (set_qs (r_rq s) (r_va s ++ [(i, v)]) (r_sa s) s)
        | Some (o, w) =>
            if Nat.ltb o (c_outs c) && Nat.ltb w (c_vcs c) && available_for (bs_b (r_next s o)) w then
              match bs_take (c_b c) P w (Z.of_nat (i * c_vcs c + v)) (r_next s o) with
              | Some b1 =>
                  let b := r_vc s i v in
                  Some (set_qs (r_rq s) (r_va s) (r_sa s ++ [(i, v)])
                         (set_vc i v {| v_buf := v_buf b; v_state := Active; v_route := v_route b; v_out := Some (o, w); v_exp := v_exp b |}
                           (set_next o b1 s)))
              | None => None
              end
            else None
        end
      else None
  | None => None
  end.

(** rad-sim/sim/noc/booksim/routers/iq_router.cpp:1991-2032 : the flit as it is sent on. *)
Definition forward (c : iqcfg) (x : rin) (o w : nat) (f : flit) : flit :=
  let f1 := {| f_id := f_id f; f_pid := f_pid f; f_head := f_head f; f_tail := f_tail f; f_vc := w; f_la := f_la f |} in
  if negb (c_rdelay c) && f_head f then
    {| f_id := f_id f; f_pid := f_pid f; f_head := f_head f; f_tail := f_tail f; f_vc := w;
       f_la := match i_la x o f1 with Some es => es | None => [] end |}
  else f1.
(** A set of channels, rad-sim/sim/noc/booksim/credit.hpp:40. *)
Fixpoint set_insert (v : nat) (l : list nat) : list nat :=
  match l with [] => [v] | a :: r => if Nat.ltb v a then v :: l else if Nat.eqb v a then l else a :: set_insert v r end.
(** rad-sim/sim/noc/booksim/routers/iq_router.cpp:2049-2094 : what becomes of the virtual channel after the flit [f] was removed from it. *)
Definition after_send {P} (c : iqcfg) (i v : nat) (f : flit) (rest : list flit) (s : router P) : option (router P) :=
  let b := r_vc s i v in
  match rest with
  | [] => Some (set_vc i v {| v_buf := []; v_state := if f_tail f then Idle else v_state b; v_route := v_route b; v_out := v_out b; v_exp := v_exp b |} s)
  | nf :: _ =>
      if negb (Nat.eqb (f_vc nf) v) then None
      else if f_tail f then
        if negb (f_head nf) then None
        else if c_rdelay c then
          Some (set_qs (r_rq s ++ [(i, v)]) (r_va s) (r_sa s)
                 (set_vc i v {| v_buf := rest; v_state := Routing; v_route := v_route b; v_out := v_out b; v_exp := v_exp b |} s))
        else
          Some (set_qs (r_rq s) (r_va s ++ [(i, v)]) (r_sa s)
                 (set_vc i v {| v_buf := rest; v_state := VAlloc; v_route := f_la nf; v_out := None; v_exp := v_exp b |} s))
      else
        Some (set_qs (r_rq s) (r_va s) (r_sa s ++ [(i, v)])
               (set_vc i v {| v_buf := rest; v_state := v_state b; v_route := v_route b; v_out := v_out b; v_exp := v_exp b |} s))
  end.
(** rad-sim/sim/noc/booksim/routers/iq_router.cpp:1841-2133 : one entry of _SWAllocUpdate. *)
Definition sa_update {P} (c : iqcfg) (x : rin) (d : (nat * nat) * option nat) (s : router P) : option (router P) :=
  let '((i, v), g) := d in
  match front c Active i v s, v_buf (r_vc s i v) with
  | Some f, _ :: rest =>
      match g with
      | None => Some (set_qs (r_rq s) (r_va s) (r_sa s ++ [(i, v)]) s)
      | Some o =>
          match v_out (r_vc s i v) with
          | Some (o1, w) =>
              if Nat.ltb o (c_outs c) && Nat.eqb o1 o && Nat.ltb w (c_vcs c) then
                match bs_send (c_b c) P (i_now x) w (f_tail f) (r_next s o) with
                | Some b1 =>
                    after_send c i v f rest
                      (set_creds (fupd (r_oc s) i (set_insert v (r_oc s i))) (r_cb s)
                        (set_xb (r_xb s ++ [(forward c x o w f, (i, o))]) (r_out s)
                          (set_next o b1 (set_occ i (r_occ s i - 1)%Z s))))
                | None => None
                end
              else None
          | None => None
          end
      end
  | _, _ => None
  end.

(** rad-sim/sim/noc/booksim/routers/iq_router.cpp:2170-2215 : one entry of _SwitchUpdate. *)
Definition xb_update {P} (c : iqcfg) (e : flit * (nat * nat)) (s : router P) : option (router P) :=
  let '(f, (i, o)) := e in
  let q := r_out s o ++ [f] in
  if Nat.ltb i (c_in c) && Nat.ltb o (c_outs c) && ((c_obuf c <? 0)%Z || (Z.of_nat (length q) <=? c_obuf c + 1)%Z)
  then Some (set_xb (r_xb s) (fupd (r_out s) o q) s) else None.

(** A list that is not empty, rad-sim/sim/noc/booksim/routers/iq_router.cpp:247-281. *)
Definition filled {A} (l : list A) : bool := match l with [] => false | _ => true end.

(** rad-sim/sim/noc/booksim/routers/iq_router.cpp:232-290 : _InternalStep, with _OutputQueuing (:2222-2238).  [fs]: _in_queue_flits. *)
Definition internal {P} (c : iqcfg) (x : rin) (fs : list (nat * flit)) (s : router P) : option (router P) :=
  match fold_opt (in_queue c) fs s with None => None | Some s1 =>
  match proc_credits c (i_now x) (r_proc s1) s1 with None => None | Some s2 =>
  match va_evaluate c x s2, sa_evaluate c x s2 with
  | Some va, Some (rr, sa) =>
      let xb := r_xb s2 in
      let s3 := set_rr rr (set_xb [] (r_out s2) (set_qs [] [] [] s2)) in
      match fold_opt (route_update c x) (r_rq s2) s3 with None => None | Some s4 =>
      match fold_opt (va_update c) va s4 with None => None | Some s5 =>
      match fold_opt (sa_update c x) sa s5 with None => None | Some s6 =>
      match fold_opt (xb_update c) xb s6 with None => None | Some s7 =>
        Some (set_creds (fun _ => []) (fun i => match r_oc s7 i with [] => r_cb s7 i | cr => r_cb s7 i ++ [cr] end)
               (set_act (filled (r_proc s2) || filled (r_va s5) || filled (r_sa s6) || filled (r_xb s7)) s7))
      end end end end
  | _, _ => None
  end end end.

(** rad-sim/sim/noc/booksim/routers/iq_router.cpp:301-321 : _in_queue_flits. *)
Definition arrivals (c : iqcfg) (x : rin) : list (nat * flit) :=
  flat_map (fun i => match i_flit x i with Some f => [(i, f)] | None => [] end) (seq 0 (c_in c)).
(** rad-sim/sim/noc/booksim/routers/iq_router.cpp:323-336. *)
Definition credits_in (c : iqcfg) (x : rin) : list (Z * (list nat * nat)) :=
  flat_map (fun o => match i_cred x o with Some vs => [((i_now x + c_cdelay c)%Z, (vs, o))] | None => [] end) (seq 0 (c_outs c)).
(** rad-sim/sim/noc/booksim/routers/iq_router.cpp:225-290 and 2244-2280 : ReadInputs, Evaluate (rad-sim/sim/noc/booksim/routers/router.cpp:105-112 with speedup one) and WriteOutputs. *)
Definition iq_step {P} (c : iqcfg) (x : rin) (s : router P) : option (router P * rout) :=
  let fs := arrivals c x in
  let cs := credits_in c x in
  let s1 := set_act (r_act s || filled fs || filled cs) (set_proc (r_proc s ++ cs) s) in
  match (if r_act s1 then internal c x fs s1 else Some s1) with
  | None => None
  | Some s2 =>
      Some (set_creds (r_oc s2) (fun i => tl (r_cb s2 i)) (set_xb (r_xb s2) (fun o => tl (r_out s2 o)) s2),
            {| x_flit := fun o => hd_error (r_out s2 o); x_cred := fun i => hd_error (r_cb s2 i) |})
  end.
(** Several steps, rad-sim/sim/noc/radsim_noc.cpp:301-321. *)
Fixpoint iq_run {P} (c : iqcfg) (xs : list rin) (s : router P) : option (router P * list rout) :=
  match xs with
  | [] => Some (s, [])
  | x :: r => match iq_step c x s with
              | Some (s1, y) => match iq_run c r s1 with Some (s2, ys) => Some (s2, y :: ys) | None => None end
              | None => None
              end
  end.
