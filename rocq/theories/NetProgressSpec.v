(** What the property that the network drains speaks about. *)
From Coq Require Import ZArith Arith Bool List.
From Verif Require Import Fupd AllocModel AllocSpec BufferModel RouteModel RouteSpec ChannelModel IqRouterModel IqRouterSpec NetModel NetSpec NetMeshModel NetMeshSpec.
Import ListNotations.
Open Scope nat_scope.

(** The channels of the network and their virtual channels have ranks, and a head that goes from one to another goes to a lower rank. *)
Definition descends (w : netcfg) (ok : cid -> flit -> Prop) (dist : cid -> nat -> nat) : Prop :=
  forall c c' r i o f g, w_snk w c = Some (r, i) -> w_src w c' = Some (r, o) -> f_head f = true -> same f g -> ok c f -> ok c' g ->
    dist c' (f_vc g) < dist c (f_vc f).
(** The buffers of a virtual channel are its own and hold [slots] flits. *)
Definition own_buffers (b : bcfg) (P : bpolicy) (slots : Z) : Prop :=
  exists buf_size vc_buf_size, buf_size <> 0%Z /\ 0 < bc_vcs b /\ new_private (bc_vcs b) buf_size vc_buf_size (bc_wait b) = Some (b, P) /\
    slots = (if buf_size <? 0 then vc_buf_size else buf_size / Z.of_nat (bc_vcs b))%Z.

(** Time goes on. *)
Definition rising (ts : list tick) : Prop := forall l1 a b l2, ts = l1 ++ a :: b :: l2 -> (t_now a < t_now b)%Z.
(** The routing functions give some output. *)
Definition leads (w : netcfg) (ok : cid -> flit -> Prop) (t : tick) : Prop :=
  forall r i f, r < w_n w -> i < c_in (w_cfg w r) -> f_head f = true -> ok (w_in w r i) f -> t_rf t r i f <> [].
(** So does the route that comes with a head, if it is computed in advance. *)
Definition set_out (w : netcfg) (t : tick) : Prop :=
  forall n f, n < w_nodes w -> t_inj t n = Some f -> f_head f = true -> w_rd w = false -> f_la f <> [].
(** A node gives no credit for nothing. *)
Definition honest (w : netcfg) (t : tick) : Prop := forall d, d < w_nodes w -> t_cred t d <> Some [].
(** No node injects. *)
Definition quiet (w : netcfg) (t : tick) : Prop := forall n, n < w_nodes w -> t_inj t n = None.
(** The allocators of the routers give something when they are asked for something. *)
Definition gives (n m : nat) (a : list ask -> match_) : Prop := forall l, legal_asks n m l -> l <> [] -> exists i o, m_in (a l) i = Some o.
Definition giving (w : netcfg) (t : tick) : Prop :=
  forall r, r < w_n w -> gives (c_in (w_cfg w r) * c_vcs (w_cfg w r)) (c_outs (w_cfg w r) * c_vcs (w_cfg w r)) (t_va t r) /\ gives (c_in (w_cfg w r)) (c_outs (w_cfg w r)) (t_sa t r).
(** The flits that a node got on a virtual channel and gave no credit for. *)
Definition hoard (ts : list tick) (zs : list nout) (d v : nat) : nat := length (on_vc v (ejected zs d)) - count_occ Nat.eq_dec (credited ts d) v.
(** Some node holds as many flits of a virtual channel as its buffer has slots; or, if the next packet has to wait for the credit of the last tail, some node holds flits of a virtual channel on which all
    packets have come whole. *)
Definition clogged (w : netcfg) (slots : Z) (ts : list tick) (zs : list nout) : Prop :=
  exists d v, d < w_nodes w /\ v < bc_vcs (w_b w) /\
    ((slots <= Z.of_nat (hoard ts zs d v))%Z \/ (bc_wait (w_b w) = true /\ 0 < hoard ts zs d v /\ parse (on_vc v (ejected zs d)) = Some None)).
(** Then some node gives a credit in the cycles [l]. *)
Definition eager (w : netcfg) (slots : Z) (ts : list tick) (zs : list nout) (l : list tick) : Prop :=
  clogged w slots ts zs -> exists t d, In t l /\ d < w_nodes w /\ t_cred t d <> None.
(** The nodes injected whole packets. *)
Definition whole (w : netcfg) (ts : list tick) : Prop := forall n v, n < w_nodes w -> parse (on_vc v (injected ts n)) = Some None.
(** Some node has to send more of a packet and got all credits of its virtual channel back. *)
Definition starved (w : netcfg) (ts : list tick) (zs : list nout) : Prop :=
  exists n v q, n < w_nodes w /\ v < bc_vcs (w_b w) /\ parse (on_vc v (injected ts n)) = Some (Some q) /\ count_occ Nat.eq_dec (returned zs n) v = length (on_vc v (injected ts n)).
(** The number of flits injected. *)
Definition amount (w : netcfg) (ts : list tick) : nat := length (flat_map (injected ts) (seq 0 (w_nodes w))).

(** Dimension-order routing, and its variants in which the virtual channel depends on the destination, if there are enough of them. *)
Inductive by_dimension (k : Z) (n : nat) (T : traffic) (vcs : nat) : rfun unit -> Prop :=
| bd_dor : by_dimension k n T vcs (rf_dor k n)
| bd_ni : (forall id, y_b T id <= y_e T id < vcs -> (k ^ Z.of_nat n <= Z.of_nat (y_e T id) - Z.of_nat (y_b T id) + 1)%Z) -> by_dimension k n T vcs (rf_ni k n)
| bd_pni : (forall id, y_b T id <= y_e T id < vcs -> (k <= Z.of_nat (y_e T id) - Z.of_nat (y_b T id) + 1)%Z) -> by_dimension k n T vcs (rf_pni k n).
(** What an allocator answers to the requests [l] after the rounds of requests [ls]. *)
Definition answer (A : allocator) (n m : nat) (start : alloc A) (ls : list (list ask)) (l : list ask) : match_ :=
  match alloc_rounds A n m (ls ++ [l]) start with Some (_, ms) => last ms no_match | None => no_match end.
