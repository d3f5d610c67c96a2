(** What the properties of the router speak about: the flits and credits that crossed its ports. *)
From Coq Require Import ZArith Arith Bool List.
From Verif Require Import Fupd AllocModel AllocSpec BufferModel RouteModel IqRouterModel.
Import ListNotations.
Open Scope nat_scope.

(** ** Sequences of flits *)
Definition on_vc (v : nat) (l : list flit) : list flit := filter (fun f => Nat.eqb (f_vc f) v) l.
(** A sequence of packets, the last possibly unfinished: a head, then flits of the same packet, the last of them the tail.
    The state is the packet under way; the result is [None] if the sequence is none of packets. *)
Definition pstep (a : option (option Z)) (f : flit) : option (option Z) :=
  match a with
  | None => None
  | Some None => if f_head f then Some (if f_tail f then None else Some (f_pid f)) else None
  | Some (Some p) => if negb (f_head f) && (f_pid f =? p)%Z then Some (if f_tail f then None else Some p) else None
  end.
Definition parse (l : list flit) : option (option Z) := fold_left pstep l (Some None).
Definition well_formed (l : list flit) : Prop := parse l <> None.

(** What crossed the ports in a sequence of steps. *)
Definition rx (xs : list rin) (i : nat) : list flit := flat_map (fun x => match i_flit x i with Some f => [f] | None => [] end) xs.
Definition tx (ys : list rout) (o : nat) : list flit := flat_map (fun y => match x_flit y o with Some f => [f] | None => [] end) ys.
Definition crx (xs : list rin) (o : nat) : list nat := flat_map (fun x => match i_cred x o with Some vs => vs | None => [] end) xs.
Definition ctx (ys : list rout) (i : nat) : list nat := flat_map (fun y => match x_cred y i with Some vs => vs | None => [] end) ys.

(** ** Routes *)
Definition elem_pairs (e : oelem) : list (nat * nat) :=
  map (fun w => (Z.to_nat (o_port e), w)) (seq (Z.to_nat (o_lo e)) (Z.to_nat (o_hi e - o_lo e) + 1)).
(** The channels in a route set. *)
Definition channels_of (es : list oelem) : list (nat * nat) := flat_map elem_pairs es.
(** It names existing channels, none twice. *)
Definition good_route (c : iqcfg) (es : list oelem) : Prop :=
  Forall (fun e => (0 <= o_port e < Z.of_nat (c_outs c) /\ 0 <= o_lo e /\ o_lo e <= o_hi e /\ o_hi e < Z.of_nat (c_vcs c))%Z) es /\ NoDup (channels_of es).

(** ** What the surroundings of the router keep to *)
(** After the steps [hx] with results [hy]: the allocators match requests; flits arrive as packets, only when there is room according to the
    credits given, and with a good route when it is computed in advance; credits come for flits sent; the routing function gives good
    routes for the heads that arrived. *)
Record decent (c : iqcfg) (hx : list rin) (hy : list rout) (x : rin) : Prop := {
  de_va : forall l, legal_asks (c_in c * c_vcs c) (c_outs c * c_vcs c) l -> matching l (i_va x l);
  de_sa : forall l, legal_asks (c_in c) (c_outs c) l -> matching l (i_sa x l);
  de_flit : forall i f, i < c_in c -> i_flit x i = Some f ->
    f_vc f < c_vcs c /\ well_formed (on_vc (f_vc f) (rx hx i ++ [f])) /\
    (Z.of_nat (length (rx hx i)) - Z.of_nat (length (ctx hy i)) < bc_size (c_b c))%Z /\
    (c_rdelay c = false -> f_head f = true -> good_route c (f_la f));
  de_cred : forall o vs, o < c_outs c -> i_cred x o = Some vs ->
    NoDup vs /\ forall v, In v vs -> v < c_vcs c /\ count_occ Nat.eq_dec (crx hx o) v < length (on_vc v (tx hy o));
  de_rf : c_rdelay c = true -> forall i f, i < c_in c -> In f (rx (hx ++ [x]) i) -> f_head f = true -> good_route c (i_rf x i f) }.
Fixpoint decent_from {P} (c : iqcfg) (hx : list rin) (hy : list rout) (xs : list rin) (s : router P) : Prop :=
  match xs with
  | [] => True
  | x :: r => decent c hx hy x /\ forall s' y, iq_step c x s = Some (s', y) -> decent_from c (hx ++ [x]) (hy ++ [y]) r s'
  end.
Definition decent_run (P : bpolicy) (c : iqcfg) (xs : list rin) : Prop := decent_from c [] [] xs (router0 P).

(** ** What the router does with its flits *)
(** A flit that left an input buffer, the port it was sent to, and the flit as it was sent. *)
Notation trip := (flit * (nat * flit))%type.
Definition way (t : trip) : nat * nat := (fst (snd t), f_vc (snd (snd t))).
(** A flit moved to a channel. *)
Definition on_channel (w : nat) (f : flit) : flit := {| f_id := f_id f; f_pid := f_pid f; f_head := f_head f; f_tail := f_tail f; f_vc := w; f_la := f_la f |}.
(** The same flit but for the channel and the route computed in advance, to an existing channel, which for a head is one of its route set: that
    which came with it or the result of the routing function in some step.  A head that gets its next route in advance gets that of the router
    behind the output in some step. *)
Definition trip_ok (c : iqcfg) (xs : list rin) (i : nat) (t : trip) : Prop :=
  let '(f, (o, g)) := t in
  f_id g = f_id f /\ f_pid g = f_pid f /\ f_head g = f_head f /\ f_tail g = f_tail f /\ o < c_outs c /\ f_vc g < c_vcs c /\
  (f_head f = true -> if c_rdelay c then exists x, In x xs /\ In (o, f_vc g) (channels_of (i_rf x i f)) else In (o, f_vc g) (channels_of (f_la f))) /\
  (if c_rdelay c || negb (f_head f) then f_la g = f_la f
   else exists x, In x xs /\ f_la g = match i_la x o (on_channel (f_vc g) f) with Some es => es | None => [] end).
(** A flit that is no tail is followed on the same way. *)
Definition same_way (l : list trip) : Prop :=
  forall l1 a b l2, l = l1 ++ a :: b :: l2 -> f_tail (fst a) = false -> way b = way a.
(** The flits that left for an output. *)
Definition left_for (o : nat) (l : list trip) : list flit := map (fun t => snd (snd t)) (filter (fun t => Nat.eqb (fst (snd t)) o) l).
(** The flits of a sequence that bear a label. *)
Definition from (i v : nat) (l : list ((nat * nat) * flit)) : list flit :=
  map snd (filter (fun a => Nat.eqb (fst (fst a)) i && Nat.eqb (snd (fst a)) v) l).

(** The flits received on an input channel are those that left, in this order, and those that wait.  What an output sent, and what is still in the
    crossbar for it, interleaves what left the input channels for it; on a channel a flit that is no tail is followed by one from the same
    input channel.  [waits] and [transit]: what is still in the router. *)
Record relayed (c : iqcfg) (xs : list rin) (ys : list rout) (waits : nat -> nat -> list flit) (transit : nat -> list flit)
    (trips : nat -> nat -> list trip) (outs : nat -> list ((nat * nat) * flit)) : Prop := {
  re_in : forall i v, i < c_in c -> v < c_vcs c -> on_vc v (rx xs i) = map fst (trips i v) ++ waits i v;
  re_trip : forall i v, i < c_in c -> v < c_vcs c -> Forall (trip_ok c xs i) (trips i v) /\ same_way (trips i v);
  re_out : forall o, o < c_outs c -> map snd (outs o) = tx ys o ++ transit o /\ length (transit o) <= 1;
  re_label : forall o a, In a (outs o) -> fst (fst a) < c_in c /\ snd (fst a) < c_vcs c;
  re_from : forall i v o, i < c_in c -> v < c_vcs c -> o < c_outs c -> from i v (outs o) = left_for o (trips i v);
  re_whole : forall o w l1 a b l2, o < c_outs c -> w < c_vcs c ->
    filter (fun e => Nat.eqb (f_vc (snd e)) w) (outs o) = l1 ++ a :: b :: l2 -> f_tail (snd a) = false -> fst b = fst a }.

(** The policies for downstream buffers, constructed with settings for which they do not fail by themselves (C33, C63). *)
Inductive some_policy (c : bcfg) : bpolicy -> Prop :=
| po_private : forall buf_size vc_buf_size P, buf_size <> 0%Z -> 0 < bc_vcs c -> new_private (bc_vcs c) buf_size vc_buf_size (bc_wait c) = Some (c, P) -> some_policy c P
| po_shared : forall psizes starts ends sc, new_shared (bc_vcs c) (bc_size c) psizes starts ends = Some sc -> Forall (fun p => 0 <= p)%Z psizes -> some_policy c (shared_policy sc)
| po_limited : forall psizes starts ends sc k, new_shared (bc_vcs c) (bc_size c) psizes starts ends = Some sc -> Forall (fun p => 0 <= p)%Z psizes -> (0 < bc_size c)%Z ->
    (match k with Fixed _ => True | Dynamic => Z.of_nat (bc_vcs c) <= bc_size c | Shifting => 2 ^ Z.log2_up (Z.of_nat (bc_vcs c)) <= bc_size c end)%Z ->
    some_policy c (limited_policy sc (bc_vcs c) k)
| po_feedback : forall psizes starts ends sc f, new_shared (bc_vcs c) (bc_size c) psizes starts ends = Some sc -> Forall (fun p => 0 <= p)%Z psizes -> (0 <= fc_minlat f)%Z ->
    some_policy c (feedback_policy sc f)
| po_simple_feedback : forall psizes starts ends sc f, new_shared (bc_vcs c) (bc_size c) psizes starts ends = Some sc -> Forall (fun p => 0 <= p)%Z psizes -> (0 <= fc_minlat f)%Z ->
    some_policy c (simple_feedback_policy sc f).
