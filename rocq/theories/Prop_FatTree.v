(** C108-C109: the fat tree (topology "fattree") with the routing functions "nca" and "anca". *)
From Coq Require Import ZArith Arith Bool List Lia Permutation.
From Verif Require Import Prop_IqRouter Fupd ArbiterModel AllocModel AllocSpec BufferModel BufferSpec RouteModel ChannelModel IqRouterModel IqRouterSpec IqRouterProofs NetModel NetSpec NetProofs NetSum NetOrder NetMeshModel NetMeshSpec
  NetMeshProofs Prop_Net NetProgressSpec NetStuck NetProgress NetMore Prop_NetProgress RouteNetSpec RouteNetProofs FlyProofs Prop_Fly FatTreeModel FatTreeSpec FatTreeProofs.
Import ListNotations.
Open Scope nat_scope.

(** ** C108: the channels connect neighbouring levels, each port to one port, and all latencies are 1; routers at the top have [k] ports each way, the others twice as many. *)
Theorem C108_wired : forall k n b rd cd ob, 0 < k -> 0 < n -> let w := fat_tree k n b rd cd ob in
  wired w /\ w_n w = n * k ^ (n - 1) /\ w_nodes w = k ^ n /\ w_chans w = 2 * k ^ n * (n - 1) /\
  (forall r, r < w_n w -> c_in (w_cfg w r) = (if r <? k ^ (n - 1) then k else 2 * k) /\ c_outs (w_cfg w r) = (if r <? k ^ (n - 1) then k else 2 * k)) /\ (forall c, w_fd w c = 1%Z /\ w_cd w c = 1%Z) /\
  (forall c r o r' i, w_src w (Ch c) = Some (r, o) -> w_snk w (Ch c) = Some (r', i) ->
    (o < k /\ k <= i /\ r' / k ^ (n - 1) = S (r / k ^ (n - 1))) \/ (k <= o /\ i < k /\ r / k ^ (n - 1) = S (r' / k ^ (n - 1)))).
Proof.
  intros k n b rd cd ob Hk Hn w. pose proof (ft_wired k n b rd cd ob Hk Hn) as W. split; auto. do 2 (split; [reflexivity|]). split; [cbn [w fat_tree w_chans]; rewrite (N_per k n Hk Hn); lia|]. split; [|split; [auto|]].
  - assert (HP : 0 < k ^ (n - 1)) by (apply pow_pos; auto). intros r _. cbn [w fat_tree w_cfg c_in c_outs]. unfold ft_radix. destruct (Nat.ltb_spec r (k ^ (n - 1))) as [L|G]; [rewrite Nat.div_small by auto; auto|].
    destruct (Nat.eqb_spec (r / k ^ (n - 1)) 0) as [E|]; auto. apply Nat.div_small_iff in E; lia.
  - intros c r o r' i E1 E2. destruct (wi_ch w W c) as [_ C]. assert (Hc : c < w_chans w) by (apply C; congruence). assert (DL : forall x, x mod k < k) by (apply (dig_lt k n Hk Hn)).
    destruct (chan_view k n b rd cd ob Hk Hn c Hc) as [l [a [p [Hl [Ha [Hp [E|E]]]]]]]; rewrite E in E1, E2; unfold w in E1, E2.
    + rewrite down_from in E1 by auto. rewrite down_to in E2 by auto. injection E1 as <- <-. injection E2 as <- <-. left. split; auto. split; [lia|]. rewrite (proj1 (rt_at k n l a Ha)). change (k ^ (n - 1) + l * k ^ (n - 1)) with (S l * k ^ (n - 1)). apply (rt_at k n). apply sh_put; auto.
    + rewrite up_from in E1 by auto. rewrite up_to in E2 by auto. injection E1 as <- <-. injection E2 as <- <-. right. split; [lia|]. split; auto. rewrite (proj1 (rt_at k n l _ (sh_put k n Hk Hn l a p Hl Ha Hp))). change (k ^ (n - 1) + l * k ^ (n - 1)) with (S l * k ^ (n - 1)). apply (rt_at k n). auto.
Qed.
Print Assumptions C108_wired.
(** Whatever the random numbers are, a packet goes up to the first level at which source and destination have a router in common, then down to its destination, and no way over the wires is shorter. *)
Theorem C108_way : forall k n b rd cd ob a d, 0 < k -> 0 < n -> a < k ^ n -> d < k ^ n -> let w := fat_tree k n b rd cd ob in
  exists h, h < n /\ meet k a d h /\ led k n d w (Inj a) (2 * h + 1) /\ (forall m, led k n d w (Inj a) m -> m = 2 * h + 1) /\ (forall m, hops w (Inj a) m (Ej d) -> 2 * h + 1 <= m).
Proof.
  intros k n b rd cd ob a d Hk Hn Ha Hd w. destruct (meet_ex k n Hk Hn a d Ha Hd) as [h M]. exists h. split; [exact (meet_lt k n Hk Hn a d h Ha Hd M)|]. split; auto. pose proof (inj_led k n b rd cd ob Hk Hn a d h Ha Hd M) as L. split; [exact L|]. split.
  - intros m Lm. apply (led_one k n b rd cd ob Hk Hn d (Inj a) _ L m Lm).
  - intros m Hm. apply (ft_least k n b rd cd ob Hk Hn a d h m Ha M Hm).
Qed.
Print Assumptions C108_way.
(** The network runs with either routing function and any random numbers, their assertion holds for every head that a router reads, every flit is accounted for and leaves the network only at its destination. *)
Theorem C108_network : forall P k n b rd cd ob T ts, 0 < k -> 0 < n -> some_policy b P -> let w := fat_tree k n b rd cd ob in
  rdecent_run P (ft_may k n T) T w ts -> (forall m v, together (y_dest T) (on_vc v (injected ts m))) -> works P T w (ft_sure k n T) ts.
Proof.
  intros P k n b rd cd ob T ts Hk Hn SP w M Tg. apply (r_works w (ft_may k n T) T (ft_ok k n T (bc_vcs b)) (ft_wired k n b rd cd ob Hk Hn)); auto.
  - apply (ft_start k n b rd cd ob T Hk Hn).
  - apply (ft_lawful k n b rd cd ob T Hk Hn).
  - apply (ft_end k n b T).
  - apply (ft_safe k n b rd cd ob T Hk Hn).
Qed.
Print Assumptions C108_network.

(** ** C109: every packet arrives. *)
Theorem C109_delivers : forall P k n b rd cd ob T slots, 0 < k -> 0 < n -> own_buffers b P slots -> ob <> 0%Z -> all_arrive P (ft_may k n T) (fat_tree k n b rd cd ob) T slots.
Proof.
  intros P k n b rd cd ob T slots Hk Hn HB HO. apply (r_arrive (fat_tree k n b rd cd ob) (ft_may k n T) T (ft_ok k n T (bc_vcs b)) (ft_wired k n b rd cd ob Hk Hn)) with (dist := ft_rank k n); auto.
  - apply (ft_start k n b rd cd ob T Hk Hn).
  - apply (ft_lawful k n b rd cd ob T Hk Hn).
  - apply (ft_end k n b T).
  - apply (ft_descends k n b rd cd ob T Hk Hn).
Qed.
Print Assumptions C109_delivers.

(** ** Examples *)
Example C108_wired_ex : 0 < 2 /\ 0 < 3 /\ map (fun c => (w_src (fat_tree 2 3 ex_b true 1 (-1)) (Ch c), w_snk (fat_tree 2 3 ex_b true 1 (-1)) (Ch c))) [0; 1; 8; 9; 17; 31] =
  [(Some (0, 0), Some (4, 2)); (Some (0, 1), Some (6, 2)); (Some (4, 2), Some (0, 0)); (Some (4, 3), Some (2, 0)); (Some (4, 1), Some (9, 2)); (Some (11, 3), Some (7, 1))].
Proof. split; [lia|]. split; [lia|]. vm_compute. reflexivity. Qed.
Example C108_way_ex : 1 < 2 ^ 3 /\ 2 < 2 ^ 3 /\ meet 2 1 2 1 /\ hops (fat_tree 2 3 ex_b true 1 (-1)) (Inj 1) 3 (Ej 2).
Proof.
  split; [cbn; lia|]. split; [cbn; lia|]. split; [split; [reflexivity|intros [|j] Hj; [cbn; discriminate|lia]]|]. eapply (hops_S _ _ 8 1 3); [vm_compute; reflexivity|vm_compute; lia|]. eapply (hops_S _ _ 5 0 1); [vm_compute; reflexivity|vm_compute; lia|].
  eapply (hops_S _ _ 9 3 0); [vm_compute; reflexivity|vm_compute; lia|]. vm_compute. apply hops_0.
Qed.
(** Four nodes, two levels; the random numbers depend on the flit. *)
Definition tx_w (rd : bool) : netcfg := fat_tree 2 2 ex_b rd 1 (-1).
Definition tx_R (r i : nat) (f : flit) : list oelem := match fattree_nca 2 2 r i (y_dest (ex_T one one) (f_id f)) (Z.to_nat (f_id f mod 2)) (Z.of_nat (y_b (ex_T one one) (f_id f))) (Z.of_nat (y_e (ex_T one one) (f_id f))) with Some l => l | None => [] end.
Definition tx_M := ft_may 2 2 (ex_T one one).
Lemma tx_id : forall rd r i f f', r < w_n (tx_w rd) -> i < c_in (w_cfg (tx_w rd) r) -> f_id f = f_id f' -> tx_M r i f (tx_R r i f').
Proof. intros rd r i f f' _ _ E. left. exists (Z.to_nat (f_id f' mod 2)). split; [pose proof (Z.mod_pos_bound (f_id f') 2); lia|]. unfold tx_R. rewrite E. reflexivity. Qed.
Lemma tx_wired : forall rd, wired (tx_w rd).
Proof. intros rd. apply ft_wired; lia. Qed.
Definition tx_ts (rd : bool) : list tick := map (rx_tick (tx_w rd) tx_R (ex_T one one)) ex_cs.
Lemma tx_decent : forall rd, rdecent_run (private_policy 2) tx_M (ex_T one one) (tx_w rd) (tx_ts rd).
Proof. intros rd. apply (rdecentb_ok _ tx_M tx_R); [apply tx_id|apply tx_wired|]. destruct rd; vm_compute; reflexivity. Qed.
Lemma tx_together : forall rd m v, together ex_flow (on_vc v (injected (tx_ts rd) m)) /\ together (y_dest (ex_T one one)) (on_vc v (injected (tx_ts rd) m)).
Proof. intros [|] [|[|[|m]]] [|[|v]]; split; apply togetherb_ok; vm_compute; reflexivity. Qed.
Example C108_network_ex : forall rd, some_policy ex_b (private_policy 2) /\ rdecent_run (private_policy 2) tx_M (ex_T one one) (tx_w rd) (tx_ts rd) /\ (forall m v, together (y_dest (ex_T one one)) (on_vc v (injected (tx_ts rd) m))) /\
  match net_run (tx_w rd) (tx_ts rd) (net0 (private_policy 2) (tx_w rd)) with Some (s, zs) => map (fun d => map f_id (ejected zs d)) [0; 1; 2; 3] = [[2010]; []; [200; 201; 210; 1200; 1201] ++ (if rd then [] else [202]); []]%Z /\ map f_id (inside (tx_w rd) s) = (if rd then [202] else [])%Z | None => False end.
Proof. intros rd. split; [apply ex_pol|]. split; [apply tx_decent|]. split; [apply tx_together|]. destruct rd; vm_compute; auto. Qed.
(** With random ways, packets of one flow on one virtual channel may arrive in another order: 201 after 200 from node 0 to node 2, while a packet from node 1 to node 3 waits for credits. *)
Definition to_cs : list ex_cycle :=
  [(0%Z, ([(1, ex_fl 1300 true false 0)], [])); (1%Z, ([(1, ex_fl 1301 false false 0)], [])); (2%Z, ([(0, ex_fl 200 true true 0); (1, ex_fl 1302 false false 0)], [])); (3%Z, ([(0, ex_fl 201 true true 0); (1, ex_fl 1303 false true 0)], []))] ++
  map (fun t => (Z.of_nat t, ([], []))) (seq 4 26).
Definition to_ts (rd : bool) : list tick := map (rx_tick (tx_w rd) tx_R (ex_T one one)) to_cs.
Theorem C108_order_refuted : exists (T : traffic) (flow : Z -> nat) (q : nat) (ts : list tick) (s : net (private_policy 2)) (zs : list nout), let w := tx_w false in
  rdecent_run (private_policy 2) (ft_may 2 2 T) T w ts /\ (forall m v, together flow (on_vc v (injected ts m))) /\ (forall id, flow id = q -> y_src T id = 0 /\ y_dest T id = 2 /\ y_b T id = 0 /\ y_e T id = 0) /\
  net_run w ts (net0 (private_policy 2) w) = Some (s, zs) /\ map f_id (fl flow q (injected ts 0)) = [200; 201]%Z /\ map f_id (fl flow q (ejected zs 2)) = [201]%Z.
Proof.
  destruct (net_run (tx_w false) (to_ts false) (net0 (private_policy 2) (tx_w false))) as [[s zs]|] eqn:E; [|exfalso; assert (X : match net_run (tx_w false) (to_ts false) (net0 (private_policy 2) (tx_w false)) with Some _ => true | None => false end = true) by (vm_compute; reflexivity); rewrite E in X; discriminate].
  exists (ex_T one one), ex_flow, 20, (to_ts false), s, zs. cbv zeta. split; [apply (rdecentb_ok _ tx_M tx_R); [apply (tx_id false)|apply tx_wired|vm_compute; reflexivity]|]. split; [intros [|[|[|m]]] [|[|v]]; apply togetherb_ok; vm_compute; reflexivity|]. split; [exact C106_in_order_ex|].
  split; [exact E|]. split; [vm_compute; reflexivity|].
  assert (X : match net_run (tx_w false) (to_ts false) (net0 (private_policy 2) (tx_w false)) with Some (_, zs) => map f_id (fl ex_flow 20 (ejected zs 2)) | None => [] end = [201]%Z) by (vm_compute; reflexivity). rewrite E in X. exact X.
Qed.
Print Assumptions C108_order_refuted.
(** The packets of the first five cycles, then as many cycles as one likes in which nodes give credits only. *)
Definition tx_ts1 (rd : bool) : list tick := map (rx_tick (tx_w rd) tx_R (ex_T one one)) (firstn 5 ex_cs).
Lemma tx_decent1 : forall rd, rdecent_run (private_policy 2) tx_M (ex_T one one) (tx_w rd) (tx_ts1 rd).
Proof. intros rd. apply (rdecentb_ok _ tx_M tx_R); [apply tx_id|apply tx_wired|]. destruct rd; vm_compute; reflexivity. Qed.
Lemma tx_together1 : forall rd m v, together (y_dest (ex_T one one)) (on_vc v (injected (tx_ts1 rd) m)).
Proof. intros [|] [|[|[|m]]] [|[|v]]; apply togetherb_ok; vm_compute; reflexivity. Qed.
Lemma tx_honest1 : forall rd t, In t (tx_ts1 rd) -> honest (tx_w rd) t.
Proof.
  intros rd t H d. unfold tx_ts1 in H. apply in_map_iff in H. destruct H as [a [<- Ha]]. assert (E : snd (snd a) = []) by (cbn [firstn ex_cs map app] in Ha; destruct Ha as [<-|[<-|[<-|[<-|[<-|[]]]]]]; reflexivity).
  cbn [rx_tick t_cred]. rewrite E. cbn [find option_map]. discriminate.
Qed.
Example C109_delivers_ex : forall rd m, own_buffers ex_b (private_policy 2) 2 /\ amount (tx_w rd) (tx_ts1 rd) = 7 /\ whole (tx_w rd) (tx_ts1 rd) /\
  exists ts2, m <= length ts2 /\ rdecent_run (private_policy 2) tx_M (ex_T one one) (tx_w rd) (tx_ts1 rd ++ ts2) /\ rising (tx_ts1 rd ++ ts2) /\ (forall m v, together (y_dest (ex_T one one)) (on_vc v (injected (tx_ts1 rd ++ ts2) m))) /\
    (forall t, In t (tx_ts1 rd ++ ts2) -> honest (tx_w rd) t) /\ (forall t, In t ts2 -> quiet (tx_w rd) t /\ giving (tx_w rd) t) /\
    (forall l1 l2 l3 s zs, ts2 = l1 ++ l2 ++ l3 -> length l2 = 1 -> net_run (tx_w rd) (tx_ts1 rd ++ l1) (net0 (private_policy 2) (tx_w rd)) = Some (s, zs) -> eager (tx_w rd) 2 (tx_ts1 rd ++ l1) zs l2).
Proof.
  intros rd m. split; [exact dr_own|]. split; [destruct rd; vm_compute; reflexivity|]. split; [intros [|[|[|[|x]]]] [|[|v]] H; try (destruct rd; vm_compute; reflexivity); destruct rd; vm_compute in H; lia|].
  assert (H2 : 0 < 2) by lia. set (T := ex_T one one). set (ok := ft_ok 2 2 T (bc_vcs ex_b)). pose proof (ft_wired 2 2 ex_b rd 1 (-1) H2 H2) as W. fold (tx_w rd) in W.
  assert (ND : ndecent_run (private_policy 2) (tx_w rd) ok (tx_ts1 rd)).
  { apply (r_decent_from (tx_w rd) tx_M T ok W); [apply (ft_start 2 2 ex_b rd 1 (-1) T H2 H2)|apply (ft_lawful 2 2 ex_b rd 1 (-1) T H2 H2)|apply tx_decent1]. }
  set (t0 := rx_tick (tx_w rd) tx_R T (0%Z, ([], []))). assert (Ri : rising (tx_ts1 rd)) by (apply (chain_rising _ (-1)%Z); vm_compute; intuition discriminate).
  destruct (C96_continues (private_policy 2) (tx_w rd) ok (tx_ts1 rd) t0 m W ex_pol ND Ri) as [ts2 [A1 [A2 [A3 [A4 A5]]]]].
  - intros. apply greedy_ok.
  - intros. apply greedy_ok.
  - intros r i f Hr Hi Hh O. apply (ft_lawful 2 2 ex_b rd 1 (-1) T H2 H2 r i f (tx_R r i f) Hr Hi O). apply (tx_id rd); auto.
  - exists ts2. split; [lia|]. split; [|split; [exact A3|split; [|split; [|split]]]].
    + apply rdecent_append; [apply tx_decent1|]. intros s1 z1 E. apply ndecent_app in A2. apply (quiet_rdecent _ _ _ _ ok); [|apply A2; exact E].
      intros t Ht. destruct (A4 t Ht) as [_ [_ [B3 [B4 _]]]]. split; [intros r i f Hr Hi; rewrite B3; apply (tx_id rd); auto|intros x _; apply B4].
    + intros m' v. replace (injected (tx_ts1 rd ++ ts2) m') with (injected (tx_ts1 rd) m'); [apply tx_together1|].
      unfold injected. rewrite flat_map_app. replace (flat_map (fun t => opt (t_inj t m')) ts2) with (@nil flit); [rewrite app_nil_r; reflexivity|]. symmetry. clear - A4. induction ts2 as [|t l IH]; [reflexivity|].
      cbn [flat_map]. rewrite (proj1 (proj2 (proj2 (proj2 (A4 t (or_introl eq_refl))))) m'). apply IH. intros. apply A4. right. auto.
    + intros t Ht. apply in_app_iff in Ht. destruct Ht as [Ht|Ht]; [apply tx_honest1; exact Ht|apply (A4 t Ht)].
    + intros t Ht. destruct (A4 t Ht) as [B1 [B2 [B3 [B4 _]]]]. split; [intros x _; apply B4|]. intros r _. rewrite B1, B2. split; apply greedy_gives.
    + intros l1 [|t [|? ?]] l3 s zs El Ll Er; try discriminate. exact (A5 l1 t l3 s zs El Er 2%Z ltac:(lia)).
Qed.
