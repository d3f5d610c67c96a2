(** C96, C97: the network drains. *)
From Coq Require Import ZArith Arith Bool List Lia Permutation.
From Verif Require Import Fupd ArbiterModel AllocModel AllocSpec Prop_Alloc BufferModel BufferSpec RouteModel RouteSpec RouteProofs RouteMeshProofs Prop_Route ChannelModel
  IqRouterModel IqRouterSpec IqRouterProofs Prop_IqRouter NetModel NetSpec NetProofs NetSum NetOrder NetMeshModel NetMeshSpec NetMeshProofs Prop_Net NetProgressSpec NetStuck NetProgress NetMore NetMeshProgress.
Import ListNotations.
Open Scope nat_scope.

(** ** C96: in a network whose channels have ranks, so that heads only go to lower ranks, every flit comes out: once the nodes stop injecting and give
    credits for what they get, the network is empty after a number of cycles that depends on the network and the number of flits only. *)
Theorem C96_drains : forall P w ok dist slots, wired w -> own_buffers (w_b w) P slots -> descends w ok dist -> (forall r, r < w_n w -> c_obuf (w_cfg w r) <> 0%Z) ->
  exists B, forall D ts1 ts2, 0 < D -> ndecent_run P w ok (ts1 ++ ts2) -> rising (ts1 ++ ts2) -> (forall t, In t (ts1 ++ ts2) -> leads w ok t /\ set_out w t /\ honest w t) -> whole w ts1 ->
    (forall t, In t ts2 -> quiet w t /\ giving w t) ->
    (forall l1 l2 l3 s zs, ts2 = l1 ++ l2 ++ l3 -> length l2 = D -> net_run w (ts1 ++ l1) (net0 P w) = Some (s, zs) -> eager w slots (ts1 ++ l1) zs l2) ->
    B * (1 + amount w ts1) * D <= length ts2 ->
    exists s zs, net_run w (ts1 ++ ts2) (net0 P w) = Some (s, zs) /\ inside w s = [] /\
      Permutation (map tag (flat_map (injected ts1) (seq 0 (w_nodes w)))) (map tag (flat_map (ejected zs) (seq 0 (w_nodes w)))).
Proof. intros P w ok dist slots W HB HD HO. exists (bound P w dist). exact (drains P w ok dist slots W HB HD HO). Qed.
Print Assumptions C96_drains.

(** Whatever a network did, it can go on in this way, with a credit in each cycle in which some node owes one. *)
Theorem C96_continues : forall P w ok ts1 t0 m, wired w -> some_policy (w_b w) P -> ndecent_run P w ok ts1 -> rising ts1 ->
  (forall r l, r < w_n w -> legal_asks (c_in (w_cfg w r) * c_vcs (w_cfg w r)) (c_outs (w_cfg w r) * c_vcs (w_cfg w r)) l -> matching l (t_va t0 r l)) ->
  (forall r l, r < w_n w -> legal_asks (c_in (w_cfg w r)) (c_outs (w_cfg w r)) l -> matching l (t_sa t0 r l)) ->
  (forall r i f, r < w_n w -> i < c_in (w_cfg w r) -> f_head f = true -> ok (w_in w r i) f -> lawful w ok r f (t_rf t0 r i f)) ->
  exists ts2, length ts2 = m /\ ndecent_run P w ok (ts1 ++ ts2) /\ rising (ts1 ++ ts2) /\
    (forall t, In t ts2 -> t_va t = t_va t0 /\ t_sa t = t_sa t0 /\ t_rf t = t_rf t0 /\ (forall n, t_inj t n = None) /\ honest w t) /\
    (forall l1 t l2 s zs, ts2 = l1 ++ t :: l2 -> net_run w (ts1 ++ l1) (net0 P w) = Some (s, zs) -> forall slots, (1 <= slots)%Z -> eager w slots (ts1 ++ l1) zs [t]).
Proof.
  intros P w ok ts1 t0 m W SP D Ri VA SA RF. destruct (net_all P w ok W SP ts1 D) as [s [zs [xs [ys [E N]]]]]. destruct (rising_start _ Ri) as [old Ch].
  destruct (replies_ok P w ok t0 W SP VA SA RF m (lastt old ts1 + 1)%Z ts1 zs s xs ys N) as [A1 [A2 [A3 [A4 A5]]]]. set (ts2 := replies P w t0 m (lastt old ts1 + 1)%Z ts1 zs s) in *.
  exists ts2. split; auto. split; [apply decent_append; [exact D|]; intros s1 z1 E1; rewrite E in E1; injection E1 as <- <-; exact A2|]. split; [|split].
  - replace (lastt old ts1 + 1 - 1)%Z with (lastt old ts1) in A3 by lia. apply (chain_rising _ old). apply chain_append; auto.
  - intros t Ht. destruct (A4 t Ht) as [now [us [vs ->]]]. cbn [reply t_va t_sa t_rf]. split; auto. split; auto. split; auto. split; [reflexivity|].
    intros d _. cbn [reply t_cred]. destruct (due w us vs d); discriminate.
  - intros l1 t l2 s1 z1 E2 E1. destruct (net_run_split P w ts1 l1 (net0 P w) s s1 zs z1 E E1) as [z2 [-> E3]]. apply (A5 l1 t l2 s1 z2); auto.
Qed.
Print Assumptions C96_continues.

(** The allocators give something in each round in which they are asked for something, and match requests, whatever rounds went before. *)
Lemma answer_of : forall A n m start (Q : list ask -> match_ -> Prop), (forall ls, Forall (legal_asks n m) ls -> exists s ms, alloc_rounds A n m ls start = Some (s, ms) /\ Forall2 Q ls ms) ->
  forall ls l, Forall (legal_asks n m) ls -> legal_asks n m l -> Q l (answer A n m start ls l).
Proof.
  intros A n m start Q H ls l Hls Hl. unfold answer. destruct (H (ls ++ [l])) as [s [ms [-> F]]]; [apply Forall_app; auto|].
  apply Forall2_app_inv_l in F. destruct F as [m1 [m2 [_ [F ->]]]]. inversion F as [|? y ? ? X Y]; subst. inversion Y; subst. rewrite last_last. exact X.
Qed.
Definition sound (n m : nat) (A : allocator) (start : alloc A) : Prop :=
  forall ls, Forall (legal_asks n m) ls -> (forall l, legal_asks n m l -> matching l (answer A n m start ls l)) /\ gives n m (answer A n m start ls).
Lemma sound_of : forall n m A start (Q : list ask -> match_ -> Prop), (forall ls, Forall (legal_asks n m) ls -> exists s ms, alloc_rounds A n m ls start = Some (s, ms) /\ Forall2 Q ls ms) ->
  (forall l mt, legal_asks n m l -> Q l mt -> matching l mt /\ (l <> [] -> exists i o, m_in mt i = Some o)) -> sound n m A start.
Proof.
  intros n m A start Q H HQ ls Hls. split; [intros l Hl|intros l Hl]; destruct (HQ l _ Hl (answer_of A n m start Q H ls l Hls Hl)); auto.
Qed.
Lemma maximal_some : forall l mt, matching l mt -> maximal l mt -> l <> [] -> exists i o, m_in mt i = Some o.
Proof.
  intros l mt [M _] H N. destruct l as [|[[i o] q] l]; [congruence|]. destruct (H i o) as [X|X]; [exists q; left; auto| |].
  - destruct (m_in mt i) as [o'|] eqn:E; [eauto|congruence].
  - destruct (m_out mt o) as [i'|] eqn:E; [apply M in E; eauto|congruence].
Qed.
Theorem C96_allocators : forall n m,
  (forall k p, 0 < k -> sound n m (islip n m k) (alloc_from (islip n m k) p)) /\
  (forall k rnd c, 0 < k -> sound n m (pim n m k rnd) (alloc_from (pim n m k rnd) c)) /\
  (forall skip, sound n m (wavefront n m skip) (alloc0 (wavefront n m skip))) /\
  (forall k A, new_sep_input_first k n m = Some A \/ new_sep_output_first k n m = Some A -> sound n m A (alloc0 A)) /\
  (forall p, sound n m (loa n m) (alloc_from (loa n m) p)) /\
  (forall p, sound n m (selalloc n m 1 (fun _ => false)) (alloc_from (selalloc n m 1 (fun _ => false)) p)) /\
  (forall p, 0 < n -> m <= n -> sound n m (max_size n m) (alloc_from (max_size n m) p)).
Proof.
  intros n m. split; [|split; [|split; [|split; [|split; [|split]]]]].
  - intros k p Hk. apply sound_of with (1 := C27_matching n m k p). intros l mt _ Q. split; [apply Q|]. exact (iterated_progress n k l mt Hk Q).
  - intros k rnd c Hk. apply sound_of with (1 := C28_matching n m k rnd c). intros l mt _ Q. split; [apply Q|]. exact (iterated_progress n k l mt Hk Q).
  - intros skip. apply sound_of with (1 := C29_maximal n m skip). intros l mt _ [Q1 Q2]. split; auto. apply maximal_some; auto.
  - intros k A [E|E].
    + apply sound_of with (1 := fun ls => C30_input_first k n m A ls E). intros l mt _ Q. split; [apply Q|]. exact (input_choice_progress l mt Q).
    + apply sound_of with (1 := fun ls => C30_output_first k n m A ls E). intros l mt _ Q. split; [apply Q|]. exact (output_choice_progress l mt Q).
  - intros p. apply sound_of with (1 := C31_loa n m p). intros l mt _ [[M1 M2] Q]. split; [split; auto|]. intros N. destruct l as [|[[i o] q] l]; [congruence|].
    destruct (Q i o ltac:(exists q; left; auto)) as [o' [_ [_ X]]]. destruct (m_out mt o') as [i'|] eqn:E; [apply M1 in E; eauto|congruence].
  - intros p. apply sound_of with (1 := C31_selalloc n m (fun _ => false) p). intros l mt _ [M [_ Q]]. split; auto. intros N. destruct l as [|[[i o] q] l]; [congruence|].
    destruct (Q i o q ltac:(left; auto) eq_refl) as [i1 [q1 [o2 [q2 [_ [_ [_ [X _]]]]]]]]. eauto.
  - intros p Hn Hm. apply sound_of with (1 := fun ls => C32_maximum n m p ls Hn Hm). intros l mt L [M Q]. split; auto. intros N. destruct l as [|[[i o] q] l]; [congruence|].
    destruct L as [_ L]. inversion L as [|? ? [L1 _] _]; subst. cbn [fst snd] in L1.
    assert (M1 : matching ((i, o, q) :: l) (pair_up i o no_match)).
    { split; cbn [pair_up m_in m_out no_match]; unfold fupd.
      - intros a c. destruct (Nat.eqb_spec a i), (Nat.eqb_spec c o); split; intros X; try discriminate; congruence.
      - intros a c. destruct (Nat.eqb_spec a i) as [->|]; intros X; [|discriminate]. injection X as <-. exists q. left. auto. }
    specialize (Q _ M1). assert (S1 : 0 < match_size n (pair_up i o no_match)).
    { unfold match_size. assert (I : In i (filter (fun i0 => match m_in (pair_up i o no_match) i0 with Some _ => true | None => false end) (seq 0 n))).
      { apply filter_In. split; [apply in_seq; lia|]. cbn [pair_up m_in no_match]. unfold fupd. rewrite Nat.eqb_refl. reflexivity. }
      destruct (filter _ _); [destruct I|cbn; lia]. }
    unfold match_size in Q, S1. destruct (filter (fun i0 => match m_in mt i0 with Some _ => true | None => false end) (seq 0 n)) as [|a F] eqn:E; [cbn [length] in Q; lia|].
    assert (I : In a (a :: F)) by (left; auto). rewrite <- E in I. apply filter_In in I. destruct I as [_ I]. destruct (m_in mt a) as [c|] eqn:Ea; [eauto|discriminate].
Qed.
Print Assumptions C96_allocators.

(** ** C97: meshes with dimension-order routing drain, and every packet arrives at its destination. *)
Lemma by_dimension_ok : forall k n T vcs rf, (1 <= k)%Z -> by_dimension k n T vcs rf ->
  (forall id, y_b T id <= y_e T id < vcs -> delivers rf k n (Z.of_nat (y_b T id)) (Z.of_nat (y_e T id)) (mesh_dist k n) (in_box k n) (mesh_link k n)) /\ one_output rf /\ (forall b e, dor_only rf k n b e).
Proof.
  intros k n T vcs rf K [|H|H].
  - split; [intros; apply C80_routing; auto|]. split; [apply dor_one|]. intros; apply dor_dor_only.
  - split; [intros; apply C80_routing; auto|]. split; [apply ni_one|]. intros; apply ni_dor_only.
  - split; [intros; apply C80_routing; auto|]. split; [apply pni_one|]. intros; apply pni_dor_only.
Qed.
Lemma perm_filter : forall A (p : A -> bool) l1 l2, Permutation l1 l2 -> Permutation (filter p l1) (filter p l2).
Proof.
  intros A p l1 l2 H. induction H; cbn [filter]; auto.
  - destruct (p x); auto.
  - destruct (p x), (p y); auto. constructor.
  - etransitivity; eauto.
Qed.
Lemma filter_tag : forall T d l, map tag (filter (fun f => Nat.eqb (y_dest T (f_id f)) d) l) = filter (fun t => Nat.eqb (y_dest T (fst (fst (fst t)))) d) (map tag l).
Proof. intros T d l. induction l as [|f l IH]; [reflexivity|]. cbn [map filter]. unfold tag at 2. cbn [fst]. destruct (Nat.eqb _ _); cbn [map]; rewrite IH; reflexivity. Qed.
Lemma filter_own : forall (T : traffic) (g : nat -> list flit) m d, (forall x f, x < m -> In f (g x) -> y_dest T (f_id f) = x) -> d < m ->
  filter (fun f => Nat.eqb (y_dest T (f_id f)) d) (flat_map g (seq 0 m)) = g d.
Proof.
  intros T g m d H Hd.
  assert (A : forall x, x < m -> filter (fun f => Nat.eqb (y_dest T (f_id f)) d) (g x) = if Nat.eqb x d then g d else []).
  { intros x Hx. destruct (Nat.eqb_spec x d) as [->|N].
    - specialize (H d). induction (g d) as [|f l IH]; [reflexivity|]. cbn [filter]. rewrite (H f Hd (or_introl eq_refl)), Nat.eqb_refl. f_equal. apply IH. intros f' _ Hf'. apply H; auto. right. auto.
    - specialize (H x). induction (g x) as [|f l IH]; [reflexivity|]. cbn [filter]. rewrite (H f Hx (or_introl eq_refl)). destruct (Nat.eqb_spec x d); [congruence|]. apply IH. intros f' _ Hf'. apply H; auto. right. auto. }
  assert (B : forall k a, a + k <= m -> filter (fun f => Nat.eqb (y_dest T (f_id f)) d) (flat_map g (seq a k)) = if (Nat.leb a d && Nat.ltb d (a + k))%bool then g d else []).
  { intros k. induction k as [|k IH]; intros a Ha; cbn [seq flat_map].
    - destruct (Nat.leb_spec a d), (Nat.ltb_spec d (a + 0)); cbn; auto; lia.
    - rewrite filter_app, A, IH by lia. destruct (Nat.eqb_spec a d), (Nat.leb_spec a d), (Nat.ltb_spec d (a + S k)), (Nat.leb_spec (S a) d), (Nat.ltb_spec d (S a + k)); cbn; try lia; rewrite ?app_nil_r; auto. }
  rewrite B by lia. destruct (Nat.leb_spec 0 d), (Nat.ltb_spec d (0 + m)); cbn; auto; lia.
Qed.
Lemma mdecent_in : forall P w ok rf k n T, wired w -> some_policy (w_b w) P -> (forall hts hzs t, mdecent rf k n T w hts hzs t -> ndecent w ok hts hzs t) ->
  forall ts hts hzs s xs ys, NI P w ok hts hzs s xs ys -> mdecent_from rf k n T w hts hzs ts s -> forall t, In t ts -> exists us vs, mdecent rf k n T w us vs t.
Proof.
  intros P w ok rf k n T W SP H ts. induction ts as [|t ts IH]; intros hts hzs s xs ys N M u Hu; [destruct Hu|]. destruct M as [M1 M2]. destruct Hu as [<-|Hu]; [eauto|].
  destruct (net_step_ok P w ok W SP _ _ _ _ _ _ N (H _ _ _ M1)) as [s1 [z [xs1 [ys1 [E1 [N1 _]]]]]]. eapply IH; eauto.
Qed.
Theorem C97_mesh_drains : forall P mesh nl k n b rd cd ob rf T slots, (1 <= k)%Z -> let w := cube mesh nl k n b rd cd ob in own_buffers b P slots -> ob <> 0%Z -> by_dimension k n T (bc_vcs b) rf ->
  exists B, forall D ts1 ts2, 0 < D -> mdecent_run P rf k n T w (ts1 ++ ts2) -> (forall m v, together (y_dest T) (on_vc v (injected (ts1 ++ ts2) m))) -> rising (ts1 ++ ts2) -> (forall t, In t (ts1 ++ ts2) -> honest w t) -> whole w ts1 ->
    (forall t, In t ts2 -> quiet w t /\ giving w t) ->
    (forall l1 l2 l3 s zs, ts2 = l1 ++ l2 ++ l3 -> length l2 = D -> net_run w (ts1 ++ l1) (net0 P w) = Some (s, zs) -> eager w slots (ts1 ++ l1) zs l2) ->
    B * (1 + amount w ts1) * D <= length ts2 ->
    exists s zs, net_run w (ts1 ++ ts2) (net0 P w) = Some (s, zs) /\ inside w s = [] /\
      forall d, d < w_nodes w -> Permutation (map tag (filter (fun f => Nat.eqb (y_dest T (f_id f)) d) (flat_map (injected ts1) (seq 0 (w_nodes w))))) (map tag (ejected zs d)).
Proof.
  intros P mesh nl k n b rd cd ob rf T slots K w HB HO BD. destruct (by_dimension_ok k n T (bc_vcs b) rf K BD) as [DV [ONE DO]]. pose proof (cube_wired k n K mesh nl b rd cd ob) as W. fold w in W. pose proof (own_some _ _ _ HB) as SP.
  pose proof (cube_descends k n mesh nl b rd cd ob rf T _ _ _ K DV DO) as HD. fold w in HD.
  destruct (C96_drains P w (NetMeshSpec.head_ok rf k n T (bc_vcs b)) (cube_rank k n) slots W HB HD) as [B HBd]; [intros; exact HO|]. exists B. intros D0 ts1 ts2 Dp M Tg Ri Ho Wh Q Ea L.
  assert (D : ndecent_run P w (NetMeshSpec.head_ok rf k n T (bc_vcs b)) (ts1 ++ ts2)) by (apply (cube_decent_from k n K mesh nl b rd cd ob rf T _ _ _ DV ONE); exact M).
  destruct (HBd D0 ts1 ts2) as [s [zs [E [Em Pm]]]]; auto.
  - intros t Ht. destruct (mdecent_in P w _ rf k n T W SP (fun hts hzs t => cube_decent k n K mesh nl b rd cd ob rf T _ _ _ DV ONE hts hzs t) (ts1 ++ ts2) [] [] _ _ _ (ni0 P w _ SP) M t Ht) as [us [vs Mt]].
    split; [eapply cube_leads; eauto; apply Mt|]. split; [eapply cube_set_out; eauto|auto].
  - exists s, zs. split; auto. split; auto. intros d Hd. rewrite filter_tag, (perm_filter _ _ _ _ Pm), <- filter_tag. rewrite (filter_own T (ejected zs) (w_nodes w) d); auto.
    destruct (C80_cube P mesh nl k n b rd cd ob rf T _ _ _ (ts1 ++ ts2) K DV ONE SP M Tg) as [s' [zs' [xs [ys [E' [_ [_ [_ [_ [_ X]]]]]]]]]]. fold w in E', X. rewrite E in E'. injection E' as <- <-. exact X.
Qed.
Print Assumptions C97_mesh_drains.

(** ** Examples *)
Lemma greedy_gives : forall n m, gives n m greedy.
Proof.
  intros n m l _ H. destruct l as [|[[i o] q] l]; [congruence|]. unfold greedy. cbn [fold_left fst snd no_match m_in m_out].
  assert (A : forall k mt, (exists i o, m_in mt i = Some o) -> exists i o, m_in (fold_left (fun m (a : ask) => match m_in m (fst (fst a)), m_out m (snd (fst a)) with None, None => pair_up (fst (fst a)) (snd (fst a)) m | _, _ => m end) k mt) i = Some o).
  { intros k. induction k as [|[[i' o'] q'] k IH]; intros mt E; cbn [fold_left fst snd]; auto. apply IH. destruct (m_in mt i') eqn:E1; auto. destruct (m_out mt o'); auto. destruct E as [a [c E]]. exists a, c. cbn [pair_up m_in].
    unfold fupd. destruct (Nat.eqb_spec a i'); [congruence|exact E]. }
  apply A. exists i, o. cbn [pair_up m_in]. unfold fupd. rewrite Nat.eqb_refl. reflexivity.
Qed.
(** The row of three nodes of the examples before: the first five cycles, in which all packets are injected, then as many as one likes with none. *)
Definition dr_ts : list tick := firstn 5 ex_ts.
Lemma dr_own : own_buffers ex_b (private_policy 2) 2.
Proof. exists (-1)%Z, 2%Z. split; [lia|]. split; [cbn; lia|split; reflexivity]. Qed.
Lemma dr_split : ex_ts = dr_ts ++ skipn 5 ex_ts.
Proof. symmetry. apply firstn_skipn. Qed.
Lemma dr_ndecent : forall rd, ndecent_run (private_policy 2) (ex_w rd) (NetMeshSpec.head_ok (rf_dor 3 1) 3 1 (ex_T one one) 2) dr_ts.
Proof. intros rd. pose proof (ex_ndecent rd) as D. rewrite dr_split in D. apply ndecent_app in D. apply D. Qed.
Lemma dr_rising : rising dr_ts.
Proof. apply (chain_rising _ (-1)%Z). vm_compute. intuition discriminate. Qed.
Lemma dr_whole : forall rd, whole (ex_w rd) dr_ts.
Proof. intros rd [|[|[|m]]] [|[|v]] H; try (vm_compute; reflexivity); vm_compute in H; lia. Qed.
Definition dr_ok := NetMeshSpec.head_ok (rf_dor 3 1) 3 1 (ex_T one one) 2.
Lemma dr_dim : forall T vcs, by_dimension 3 1 T vcs (rf_dor 3 1).
Proof. intros. constructor. Qed.
Lemma dr_routes : forall t, t_rf t = ex_dor 3 1 (ex_T one one) -> routes_by (rf_dor 3 1) (ex_T one one) t.
Proof.
  intros t E r i f _. rewrite E. exists (match dim_order_mesh 3 1 (3 ^ Z.of_nat 1) (NetMeshSpec.asked (ex_T one one) r i f) with Some es => Some (es, tt) | None => None end). split; [reflexivity|].
  unfold ex_dor. destruct (dim_order_mesh _ _ _ _); reflexivity.
Qed.
Lemma dr_tick : forall t, In t dr_ts -> t_va t = (fun _ => greedy) /\ t_sa t = (fun _ => greedy) /\ t_rf t = ex_dor 3 1 (ex_T one one) /\ (forall d, t_cred t d = None).
Proof. intros t H. unfold dr_ts, ex_ts, ex_cs in H. cbn [map firstn app] in H. destruct H as [<-|[<-|[<-|[<-|[<-|[]]]]]]; cbn [ex_tick t_va t_sa t_rf t_cred fst snd find option_map]; auto. Qed.
Lemma dr_more : forall rd m, exists ts2, length ts2 = m /\ ndecent_run (private_policy 2) (ex_w rd) dr_ok (dr_ts ++ ts2) /\ rising (dr_ts ++ ts2) /\
  (forall t, In t (dr_ts ++ ts2) -> leads (ex_w rd) dr_ok t /\ set_out (ex_w rd) t /\ honest (ex_w rd) t) /\ (forall t, In t ts2 -> quiet (ex_w rd) t /\ giving (ex_w rd) t) /\
  (forall l1 l2 l3 s zs, ts2 = l1 ++ l2 ++ l3 -> length l2 = 1 -> net_run (ex_w rd) (dr_ts ++ l1) (net0 (private_policy 2) (ex_w rd)) = Some (s, zs) -> eager (ex_w rd) 2 (dr_ts ++ l1) zs l2) /\
  (forall t, In t ts2 -> t_rf t = ex_dor 3 1 (ex_T one one)) /\ (forall t, In t ts2 -> forall n, t_inj t n = None).
Proof.
  intros rd m. destruct (by_dimension_ok 3 1 (ex_T one one) 2 _ ltac:(lia) (dr_dim _ _)) as [DV [ONE _]]. set (t0 := ex_tick 3 1 (ex_T one one) (0%Z, ([], []))).
  pose proof (cube_wired 3 1 ltac:(lia) true true ex_b rd 1 (-1)) as W. fold (ex_w rd) in W.
  destruct (C96_continues (private_policy 2) (ex_w rd) dr_ok dr_ts t0 m W ex_pol (dr_ndecent rd) dr_rising) as [ts2 [A1 [A2 [A3 [A4 A5]]]]].
  - intros. apply greedy_ok.
  - intros. apply greedy_ok.
  - apply (cube_lawful 3 1 ltac:(lia) true true ex_b rd 1 (-1) (rf_dor 3 1) (ex_T one one) _ _ _ DV ONE). apply dr_routes. reflexivity.
  - exists ts2. split; auto. split; auto. split; auto. split; [|split; [|split; [intros l1 [|t [|? ?]] l3 s zs El Ll Er; try discriminate; exact (A5 l1 t l3 s zs El Er 2%Z ltac:(lia))|split; [intros t Ht; apply (A4 t Ht)|intros t Ht; apply (A4 t Ht)]]]].
    + intros t Ht. assert (R : t_rf t = ex_dor 3 1 (ex_T one one)) by (apply in_app_iff in Ht; destruct Ht as [Ht|Ht]; [apply (dr_tick t Ht)|rewrite (proj1 (proj2 (proj2 (A4 t Ht)))); reflexivity]).
      split; [apply (cube_leads 3 1 true true ex_b rd 1 (-1) (rf_dor 3 1) (ex_T one one) _ _ _ ltac:(lia) DV ONE); apply dr_routes; exact R|].
      apply in_app_iff in Ht. destruct Ht as [Ht|Ht]; [|split; [intros x f _ X; rewrite (proj1 (proj2 (proj2 (proj2 (A4 t Ht))))) in X; discriminate|apply (A4 t Ht)]]. split; [|intros d _; rewrite (proj2 (proj2 (proj2 (dr_tick t Ht)))); discriminate].
      destruct (mdecent_in (private_policy 2) (ex_w rd) _ (rf_dor 3 1) 3 1 (ex_T one one) W ex_pol (fun hts hzs t => cube_decent 3 1 ltac:(lia) true true ex_b rd 1 (-1) (rf_dor 3 1) (ex_T one one) _ _ _ DV ONE hts hzs t) ex_ts [] [] _ _ _
        (ni0 (private_policy 2) (ex_w rd) _ ex_pol) (ex_decent rd) t) as [us [vs Mt]]; [rewrite dr_split; apply in_app_iff; auto|].
      apply (cube_set_out 3 1 true true ex_b rd 1 (-1) (rf_dor 3 1) (ex_T one one) _ _ _ ltac:(lia) DV ONE us vs t Mt).
    + intros t Ht. destruct (A4 t Ht) as [B1 [B2 [B3 [B4 _]]]]. split; [intros x _; apply B4|]. intros r _. rewrite B1, B2. split; apply greedy_gives.
Qed.
Example C96_drains_ex : forall rd m, wired (ex_w rd) /\ own_buffers (w_b (ex_w rd)) (private_policy 2) 2 /\ descends (ex_w rd) dr_ok (cube_rank 3 1) /\ (forall r, r < w_n (ex_w rd) -> c_obuf (w_cfg (ex_w rd) r) <> 0%Z) /\
  amount (ex_w rd) dr_ts = 7 /\ whole (ex_w rd) dr_ts /\
  exists ts2, m <= length ts2 /\ ndecent_run (private_policy 2) (ex_w rd) dr_ok (dr_ts ++ ts2) /\ rising (dr_ts ++ ts2) /\
    (forall t, In t (dr_ts ++ ts2) -> leads (ex_w rd) dr_ok t /\ set_out (ex_w rd) t /\ honest (ex_w rd) t) /\ (forall t, In t ts2 -> quiet (ex_w rd) t /\ giving (ex_w rd) t) /\
    (forall l1 l2 l3 s zs, ts2 = l1 ++ l2 ++ l3 -> length l2 = 1 -> net_run (ex_w rd) (dr_ts ++ l1) (net0 (private_policy 2) (ex_w rd)) = Some (s, zs) -> eager (ex_w rd) 2 (dr_ts ++ l1) zs l2).
Proof.
  intros rd m. split; [apply cube_wired; lia|]. split; [apply dr_own|]. split.
  { destruct (by_dimension_ok 3 1 (ex_T one one) 2 _ ltac:(lia) (dr_dim _ _)) as [DV [_ DO]]. apply (cube_descends 3 1 true true ex_b rd 1 (-1) (rf_dor 3 1) (ex_T one one) _ _ _ ltac:(lia) DV DO). }
  split; [intros r _; discriminate|]. split; [destruct rd; vm_compute; reflexivity|]. split; [apply dr_whole|]. destruct (dr_more rd m) as [ts2 [<- [X1 [X2 [X3 [X4 [X5 _]]]]]]]. exists ts2. auto 10.
Qed.
(** After the five cycles five flits are inside and none has come out. *)
Example C96_continues_ex : forall rd, ndecent_run (private_policy 2) (ex_w rd) dr_ok dr_ts /\ rising dr_ts /\
  match net_run (ex_w rd) dr_ts (net0 (private_policy 2) (ex_w rd)) with Some (s, zs) => length (inside (ex_w rd) s) = 7 /\ flat_map (ejected zs) [0; 1; 2] = [] | None => False end.
Proof. intros rd. split; [apply dr_ndecent|]. split; [apply dr_rising|]. destruct rd; vm_compute; auto. Qed.
Example C96_allocators_ex : legal_asks 3 2 [(0, 0, rqst 0); (1, 0, rqst 0); (2, 1, rqst 0)] /\
  m_in (answer (islip 3 2 1) 3 2 (alloc_from (islip 3 2 1) ptrs0) [[(0, 0, rqst 0); (1, 0, rqst 0); (2, 1, rqst 0)]] [(0, 0, rqst 0); (1, 0, rqst 0); (2, 1, rqst 0)]) 1 = Some 0.
Proof. split; [legal_tac|vm_compute; reflexivity]. Qed.
(** Cycles without injection that fit the network fit the mesh. *)
Lemma quiet_mdecent : forall P w ok rf k n T ts hts hzs (s : net P), (forall t, In t ts -> routes_by rf T t /\ quiet w t) -> ndecent_from w ok hts hzs ts s -> mdecent_from rf k n T w hts hzs ts s.
Proof.
  intros P w ok rf k n T ts. induction ts as [|t ts IH]; intros hts hzs s H D; [exact Logic.I|]. destruct D as [D1 D2], (H t (or_introl eq_refl)) as [R Q]. split.
  - destruct D1. constructor; auto. intros m f Hm E. rewrite (Q m Hm) in E. discriminate.
  - intros s' z E. apply IH; auto. intros u Hu. apply H. right. auto.
Qed.
Lemma mdecent_append : forall P w rf k n T a b hts hzs (s : net P), mdecent_from rf k n T w hts hzs a s -> (forall s1 z1, net_run w a s = Some (s1, z1) -> mdecent_from rf k n T w (hts ++ a) (hzs ++ z1) b s1) ->
  mdecent_from rf k n T w hts hzs (a ++ b) s.
Proof.
  intros P w rf k n T a. induction a as [|t a IH]; intros b hts hzs s Da Db; cbn [app mdecent_from net_run] in *.
  - specialize (Db s [] eq_refl). rewrite !app_nil_r in Db. exact Db.
  - destruct Da as [D1 D2]. split; auto. intros s' z E. apply IH; auto. intros s1 z1 E1. rewrite E, E1 in Db. specialize (Db _ _ eq_refl). rewrite <- !app_assoc. exact Db.
Qed.
Lemma mdecent_pre : forall P w rf k n T a b hts hzs (s : net P), mdecent_from rf k n T w hts hzs (a ++ b) s -> mdecent_from rf k n T w hts hzs a s.
Proof. intros P w rf k n T a. induction a as [|t a IH]; intros b hts hzs s D; cbn [app mdecent_from] in *; auto. destruct D as [D1 D2]. split; auto. intros s' z E. apply (IH b). auto. Qed.
Example C97_mesh_drains_ex : forall rd m, own_buffers ex_b (private_policy 2) 2 /\ by_dimension 3 1 (ex_T one one) 2 (rf_dor 3 1) /\ whole (ex_w rd) dr_ts /\
  map f_id (filter (fun f => Nat.eqb (y_dest (ex_T one one) (f_id f)) 2) (flat_map (injected dr_ts) (seq 0 (w_nodes (ex_w rd))))) = [200; 201; 202; 210; 1200; 1201]%Z /\
  exists ts2, m <= length ts2 /\ mdecent_run (private_policy 2) (rf_dor 3 1) 3 1 (ex_T one one) (ex_w rd) (dr_ts ++ ts2) /\ rising (dr_ts ++ ts2) /\
    (forall m v, together (y_dest (ex_T one one)) (on_vc v (injected (dr_ts ++ ts2) m))) /\
    (forall t, In t (dr_ts ++ ts2) -> honest (ex_w rd) t) /\ (forall t, In t ts2 -> quiet (ex_w rd) t /\ giving (ex_w rd) t) /\
    (forall l1 l2 l3 s zs, ts2 = l1 ++ l2 ++ l3 -> length l2 = 1 -> net_run (ex_w rd) (dr_ts ++ l1) (net0 (private_policy 2) (ex_w rd)) = Some (s, zs) -> eager (ex_w rd) 2 (dr_ts ++ l1) zs l2).
Proof.
  intros rd m. split; [apply dr_own|]. split; [constructor|]. split; [apply dr_whole|]. split; [destruct rd; vm_compute; reflexivity|].
  destruct (dr_more rd m) as [ts2 [A1 [A2 [A3 [A4 [A5 [A6 [A7 A8]]]]]]]]. exists ts2. split; [lia|]. split.
  { apply mdecent_append; [apply (mdecent_pre _ _ _ _ _ _ _ (skipn 5 ex_ts)); rewrite <- dr_split; apply ex_decent|]. intros s1 z1 E. apply ndecent_app in A2. apply (quiet_mdecent _ _ dr_ok); [|apply A2; exact E].
    intros t Ht. split; [apply dr_routes; apply A7; exact Ht|apply (A5 t Ht)]. }
  split; auto. split.
  { intros m' v. replace (injected (dr_ts ++ ts2) m') with (injected dr_ts m'); [clear; destruct m' as [|[|[|m']]], v as [|[|v]]; apply togetherb_ok; vm_compute; reflexivity|].
    unfold injected. rewrite flat_map_app. replace (flat_map (fun t => opt (t_inj t m')) ts2) with (@nil flit); [rewrite app_nil_r; reflexivity|]. symmetry. clear - A8. induction ts2 as [|t l IH]; [reflexivity|].
    cbn [flat_map]. rewrite (A8 t (or_introl eq_refl)). apply IH. intros. apply A8. right. auto. }
  split; [intros t Ht; apply (A4 t Ht)|]. split; auto.
Qed.
