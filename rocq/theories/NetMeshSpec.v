(** Where the head of a packet may be in a mesh or torus, given its source, destination and the virtual channels of its type. *)
From Coq Require Import ZArith Arith Bool List.
From Verif Require Import Fupd AllocModel AllocSpec BufferModel RouteModel RouteSpec ChannelModel IqRouterModel IqRouterSpec NetModel NetSpec NetMeshModel.
Import ListNotations.
Open Scope nat_scope.

(** What a flit carries besides what the routers look at: where it comes from, where it goes, the first and last virtual channel of its type. *)
Record traffic := { y_src : Z -> nat; y_dest : Z -> nat; y_b : Z -> nat; y_e : Z -> nat }.

Section Rf.
  Context (rf : rfun unit) (k : Z) (n : nat) (T : traffic).
  (** What the routing function is asked for a flit at an input. *)
  Definition asked (r i : nat) (f : flit) : RouteModel.rin :=
    at_router (Z.of_nat (y_b T (f_id f))) (Z.of_nat (y_e T (f_id f))) (Z.of_nat (y_src T (f_id f))) (Z.of_nat (y_dest T (f_id f))) (Z.of_nat r) i (Z.of_nat (f_vc f)).
  (** The routers use this routing function. *)
  Definition routes_by (t : tick) : Prop := forall r i f, f_head f = true ->
    exists res, rf tt (asked r i f) res /\ t_rf t r i f = match res with Some (es, _) => es | None => [] end.
  (** The head [g] has crossed the channels [l] and is now on its way to input [i] of router [r]. *)
  Definition under_way (g : flit) (l : list RouteSpec.chan) (r i : nat) : Prop :=
    gone rf k n (Z.of_nat (y_b T (f_id g))) (Z.of_nat (y_e T (f_id g))) (Z.of_nat (y_src T (f_id g))) (Z.of_nat (y_dest T (f_id g))) l (Z.of_nat r) i (Z.of_nat (f_vc g)) tt.
  (** A head may be where the routing function has led it from its source; it may leave at its destination. *)
  Definition head_ok (vcs : nat) (c : cid) (g : flit) : Prop :=
    on_grid k n (Z.of_nat (y_src T (f_id g))) /\ on_grid k n (Z.of_nat (y_dest T (f_id g))) /\ y_b T (f_id g) <= y_e T (f_id g) < vcs /\
    y_b T (f_id g) <= f_vc g <= y_e T (f_id g) /\
    match c with
    | Inj m => m = y_src T (f_id g)
    | Ej d => d = y_dest T (f_id g)
    | Ch c => exists l u p r i, under_way g (l ++ [(Z.of_nat u, p, Z.of_nat (f_vc g))]) r i /\ linked k n (Z.of_nat u) p (Z.of_nat r) i /\ c = 2 * n * u + p
    end.
  (** A routing function that offers at most one output. *)
  Definition one_output : Prop := forall s x es s', rf s x (Some (es, s')) -> length es <= 1.
End Rf.

(** What the nodes and the allocators keep to, after the cycles [ts] with results [zs]: as [ndecent] in NetSpec.v, with what a flit has to satisfy spelled out. *)
Record mdecent (rf : rfun unit) (k : Z) (n : nat) (T : traffic) (w : netcfg) (ts : list tick) (zs : list nout) (t : tick) : Prop := {
  md_va : forall r l, r < w_n w -> legal_asks (c_in (w_cfg w r) * c_vcs (w_cfg w r)) (c_outs (w_cfg w r) * c_vcs (w_cfg w r)) l -> matching l (t_va t r l);
  md_sa : forall r l, r < w_n w -> legal_asks (c_in (w_cfg w r)) (c_outs (w_cfg w r)) l -> matching l (t_sa t r l);
  md_rf : routes_by rf T t;
  md_inj : forall m f, m < w_nodes w -> t_inj t m = Some f ->
    well_formed (on_vc (f_vc f) (injected ts m ++ [f])) /\
    (Z.of_nat (length (injected ts m)) - Z.of_nat (length (returned zs m)) < bc_size (w_b w))%Z /\ f_vc f < bc_vcs (w_b w) /\
    (f_head f = true -> m = y_src T (f_id f) /\ y_dest T (f_id f) < w_nodes w /\ y_b T (f_id f) <= f_vc f <= y_e T (f_id f) /\ y_e T (f_id f) < bc_vcs (w_b w) /\
      (w_rd w = false -> exists s', rf tt (asked T m (2 * n) f) (Some (f_la f, s'))));
  md_cred : forall d vs, t_cred t d = Some vs ->
    NoDup vs /\ forall v, In v vs -> v < bc_vcs (w_b w) /\ count_occ Nat.eq_dec (credited ts d) v < length (on_vc v (ejected zs d)) }.
Fixpoint mdecent_from {P} (rf : rfun unit) (k : Z) (n : nat) (T : traffic) (w : netcfg) (hts : list tick) (hzs : list nout) (ts : list tick) (s : net P) : Prop :=
  match ts with
  | [] => True
  | t :: r => mdecent rf k n T w hts hzs t /\ forall s' z, net_step w t s = Some (s', z) -> mdecent_from rf k n T w (hts ++ [t]) (hzs ++ [z]) r s'
  end.
Definition mdecent_run (P : bpolicy) (rf : rfun unit) (k : Z) (n : nat) (T : traffic) (w : netcfg) (ts : list tick) : Prop := mdecent_from rf k n T w [] [] ts (net0 P w).
