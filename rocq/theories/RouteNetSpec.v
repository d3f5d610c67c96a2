(** What the properties of networks speak about whose routing function looks at the router, the input and the flit, and perhaps at random numbers. *)
From Coq Require Import ZArith Arith Bool List Permutation.
From Verif Require Import Fupd AllocModel AllocSpec BufferModel RouteModel ChannelModel IqRouterModel IqRouterSpec NetModel NetSpec NetMeshSpec NetProgressSpec.
Import ListNotations.
Open Scope nat_scope.

(** What the nodes and the allocators keep to, after the cycles [ts] with results [zs]; [R r i f es] means that the routing function may
    give [es] for the head [f] at input [i] of router [r]. *)
Record rdecent (R : nat -> nat -> flit -> list oelem -> Prop) (T : traffic) (w : netcfg) (ts : list tick) (zs : list nout) (t : tick) : Prop := {
  rn_va : forall r l, r < w_n w -> legal_asks (c_in (w_cfg w r) * c_vcs (w_cfg w r)) (c_outs (w_cfg w r) * c_vcs (w_cfg w r)) l -> matching l (t_va t r l);
  rn_sa : forall r l, r < w_n w -> legal_asks (c_in (w_cfg w r)) (c_outs (w_cfg w r)) l -> matching l (t_sa t r l);
  rn_rf : forall r i f, r < w_n w -> i < c_in (w_cfg w r) -> f_head f = true -> R r i f (t_rf t r i f);
  rn_inj : forall m f, m < w_nodes w -> t_inj t m = Some f ->
    well_formed (on_vc (f_vc f) (injected ts m ++ [f])) /\
    (Z.of_nat (length (injected ts m)) - Z.of_nat (length (returned zs m)) < bc_size (w_b w))%Z /\ f_vc f < bc_vcs (w_b w) /\
    (f_head f = true -> m = y_src T (f_id f) /\ y_dest T (f_id f) < w_nodes w /\ y_b T (f_id f) <= f_vc f <= y_e T (f_id f) /\ y_e T (f_id f) < bc_vcs (w_b w) /\
      (w_rd w = false -> forall r i, w_snk w (Inj m) = Some (r, i) -> R r i f (f_la f)));
  rn_cred : forall d vs, t_cred t d = Some vs ->
    NoDup vs /\ forall v, In v vs -> v < bc_vcs (w_b w) /\ count_occ Nat.eq_dec (credited ts d) v < length (on_vc v (ejected zs d)) }.
Fixpoint rdecent_from {P} (R : nat -> nat -> flit -> list oelem -> Prop) (T : traffic) (w : netcfg) (hts : list tick) (hzs : list nout) (ts : list tick) (s : net P) : Prop :=
  match ts with
  | [] => True
  | t :: r => rdecent R T w hts hzs t /\ forall s' z, net_step w t s = Some (s', z) -> rdecent_from R T w (hts ++ [t]) (hzs ++ [z]) r s'
  end.
Definition rdecent_run (P : bpolicy) (R : nat -> nat -> flit -> list oelem -> Prop) (T : traffic) (w : netcfg) (ts : list tick) : Prop := rdecent_from R T w [] [] ts (net0 P w).

(** The network runs, its routers read from the channels what entered them, [Q r i f] holds for each head [f] that router [r] reads at input [i], every flit is accounted for, packets come out whole,
    and only at their destination. *)
Definition works (P : bpolicy) (T : traffic) (w : netcfg) (Q : nat -> nat -> flit -> Prop) (ts : list tick) : Prop :=
  exists s zs xs ys, net_run w ts (net0 P w) = Some (s, zs) /\ carried w ts zs s xs ys /\
    (forall r, r < w_n w -> Forall2 (reads w r) ts (xs r) /\ iq_run (w_cfg w r) (xs r) (router0 P) = Some (rt s r, ys r)) /\
    (forall r i f, r < w_n w -> i < c_in (w_cfg w r) -> In f (rx (xs r) i) -> f_head f = true -> Q r i f) /\
    Permutation (map tag (flat_map (injected ts) (seq 0 (w_nodes w)))) (map tag (flat_map (ejected zs) (seq 0 (w_nodes w)) ++ inside w s)) /\
    (forall d v, d < w_nodes w -> v < bc_vcs (w_b w) -> well_formed (on_vc v (ejected zs d))) /\
    (forall d f, d < w_nodes w -> In f (ejected zs d) -> y_dest T (f_id f) = d).

(** However the nodes and allocators behave, if they keep to the rules: once the nodes stop injecting and give credits for what they get, all that was sent is at its destination after a number of
    cycles that depends on the network and the number of flits only. *)
Definition all_arrive (P : bpolicy) (R : nat -> nat -> flit -> list oelem -> Prop) (w : netcfg) (T : traffic) (slots : Z) : Prop :=
  exists B, forall D ts1 ts2, 0 < D -> rdecent_run P R T w (ts1 ++ ts2) -> (forall m v, together (y_dest T) (on_vc v (injected (ts1 ++ ts2) m))) -> rising (ts1 ++ ts2) ->
    (forall t, In t (ts1 ++ ts2) -> honest w t) -> whole w ts1 -> (forall t, In t ts2 -> quiet w t /\ giving w t) ->
    (forall l1 l2 l3 s zs, ts2 = l1 ++ l2 ++ l3 -> length l2 = D -> net_run w (ts1 ++ l1) (net0 P w) = Some (s, zs) -> eager w slots (ts1 ++ l1) zs l2) ->
    B * (1 + amount w ts1) * D <= length ts2 ->
    exists s zs, net_run w (ts1 ++ ts2) (net0 P w) = Some (s, zs) /\ inside w s = [] /\
      forall d, d < w_nodes w -> Permutation (map tag (filter (fun f => Nat.eqb (y_dest T (f_id f)) d) (flat_map (injected ts1) (seq 0 (w_nodes w))))) (map tag (ejected zs d)).
