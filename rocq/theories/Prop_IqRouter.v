(** The input-queued router (C39-C41). *)
From Coq Require Import ZArith Arith Bool List Lia.
From Verif Require Import Fupd AllocModel AllocSpec BufferModel BufferSpec BufferProofs RouteModel IqRouterModel IqRouterSpec IqRouterProofs IqRouterInv IqRouterRun.
Import ListNotations.
Open Scope nat_scope.

(** ** The policies *)
Definition steady (P : bpolicy) : Prop := forall t b p v w tag p', v <> w -> po_take P v p = Some p' -> po_full P t (take_b v tag b) w p' = po_full P t b w p.
Definition not_full (P : bpolicy) (t : Z) (b : bst) (v : nat) (p : po_st P) : Prop := po_full P t b v p = Some false.
Lemma steady_room : forall c P I, policy_ok c P I -> steady P -> room_ok c P I (not_full P).
Proof.
  intros c P I HP HT. constructor; unfold not_full; auto.
  - intros t b p v w tag p' N T H. rewrite (HT t b p v w tag p' N T). auto.
  - apply (pk_send _ _ _ HP).
Qed.
Lemma some_policy_ok : forall c P, some_policy c P -> exists I R, policy_ok c P I /\ room_ok c P I R /\ forall b p, base_ok c b -> I b p -> (b_occ b <= bc_size c)%Z.
Proof.
  intros c P [bz vz Q Hb Hv E|ps st en sc E F|ps st en sc k E F Hb Hk|ps st en sc f E F Hf|ps st en sc f E F Hf].
  - unfold new_private in E. set (z := if (bz <=? 0)%Z then vz else (bz / Z.of_nat (bc_vcs c))%Z) in *. destruct (Z.ltb_spec 0 z) as [Hz|]; [|discriminate]. injection E as E <-.
    assert (S : (bc_size c >= Z.of_nat (bc_vcs c) * z)%Z).
    { rewrite <- E. cbn [bc_vcs bc_size]. subst z. destruct (Z.ltb_spec bz 0), (Z.leb_spec bz 0); try lia. pose proof (Z.mul_div_le bz (Z.of_nat (bc_vcs c)) ltac:(lia)). lia. }
    pose proof (private_ok c z S) as HP. eexists _, _. split; [exact HP|]. split; [apply (steady_room _ _ _ HP); unfold steady; cbn [private_policy po_take po_full take_b b_vocc]; congruence|].
    intros b _ B HI. rewrite (bo_sum c _ B). assert (X : (total (b_vocc b) (bc_vcs c) <= total (fun _ => z) (bc_vcs c))%Z) by (apply total_le; intros v Hv'; specialize (HI v Hv'); lia).
    assert (Y : forall n, total (fun _ => z) n = (Z.of_nat n * z)%Z) by (induction n; [reflexivity|rewrite total_S, IHn; lia]). rewrite Y in X. lia.
  - destruct (new_shared_ok _ _ _ _ _ _ E) as [A1 [A2 [A3 [A4 A5]]]]. pose proof (shared_ok c sc A1 (A5 F) A2 A3 (eq_sym A4)) as HP. eexists _, _. split; [exact HP|].
    split; [apply (steady_room _ _ _ HP); unfold steady; cbn [shared_policy po_take po_full]; congruence|].
    intros b p B H. pose proof (sh_bound c sc A1 A2 _ _ H) as X. pose proof (res_nonneg c sc _ _ H). rewrite (bo_sum c _ B). lia.
  - destruct (new_shared_ok _ _ _ _ _ _ E) as [A1 [A2 [A3 [A4 A5]]]]. assert (Hr : roomy c sc k) by (unfold roomy; rewrite A4; exact Hk).
    exists (lim_inv c sc k), (fun _ _ v p => sh_full sc v (li_sh p) = false). split; [exact (limited_ok c sc A1 (A5 F) A2 A3 (eq_sym A4) k Hr ltac:(lia))|]. split.
    + constructor; cbn [limited_policy po_take po_full po_st].
      * intros t b p v H. injection H as H. apply orb_false_iff in H. tauto.
      * intros t b p v w tag p' _ T H. unfold lim_take in T. destruct (_ <? _)%Z in T; [discriminate|]. destruct k as [m| |]; [|destruct (_ || _) in T; [discriminate|]|destruct (_ || _) in T; [discriminate|]]; injection T as <-; exact H.
      * intros t b p v tail B HI Hv A H. exact (lim_send_ok c sc A1 A2 (eq_sym A4) k t b p v tail Hr B HI Hv A H).
    + intros b p B [H _]. pose proof (sh_bound c sc A1 A2 _ _ H) as X. pose proof (res_nonneg c sc _ _ H). rewrite (bo_sum c _ B). lia.
  - destruct (new_shared_ok _ _ _ _ _ _ E) as [A1 [A2 [A3 [A4 A5]]]]. pose proof (feedback_ok c sc A1 (A5 F) A2 A3 (eq_sym A4) f Hf) as HP. eexists _, _. split; [exact HP|]. split.
    + apply (steady_room _ _ _ HP). unfold steady. cbn [feedback_policy po_take po_full]. intros t b p v w tag p' _ T. injection T as <-. reflexivity.
    + intros b p B [H _]. pose proof (sh_bound c sc A1 A2 _ _ H) as X. pose proof (res_nonneg c sc _ _ H). rewrite (bo_sum c _ B). lia.
  - destruct (new_shared_ok _ _ _ _ _ _ E) as [A1 [A2 [A3 [A4 A5]]]]. pose proof (simple_feedback_ok c sc A1 (A5 F) A2 A3 (eq_sym A4) f Hf) as HP. eexists _, _. split; [exact HP|]. split.
    + apply (steady_room _ _ _ HP). unfold steady. cbn [simple_feedback_policy po_take po_full]. intros t b p v w tag p' _ T. injection T as <-. reflexivity.
    + intros b p B [H _]. pose proof (sh_bound c sc A1 A2 _ _ H) as X. pose proof (res_nonneg c sc _ _ H). rewrite (bo_sum c _ B). lia.
Qed.

(** ** C39 *)
Lemma own_parse : forall c f gone L h, I_own c f gone L h -> forall o w, o < c_outs c -> w < c_vcs c -> gparse (on_lab w (L o)) <> None.
Proof. intros c f gone L h [O1 [_ O3]] o w Ho Hw. destruct (O3 o w Ho Hw) as [[i [v X]]|[X _]]; [|congruence]. destruct (O1 _ _ _ _ X) as [_ [gs [_ Y]]]. congruence. Qed.
Lemma on_lab_fst : forall w l, map fst (on_lab w l) = on_vc w (map snd l).
Proof. intros w l. unfold on_lab, on_vc. rewrite map_map. induction l as [|a l IH]; [reflexivity|]. cbn [filter map snd]. destruct (Nat.eqb (f_vc (snd a)) w); cbn [map]; [f_equal|]; exact IH. Qed.
Definition in_crossbar {P} (s : router P) (o : nat) : list flit := sel o (r_xb s).
Lemma rest_relayed : forall c P I xs s g ys, Rest c P I xs s g -> link c xs ys g ->
  relayed c xs ys (fun i v => v_buf (r_vc s i v)) (in_crossbar s) (g_gone g) (g_L g).
Proof.
  intros c P I xs s g ys [[K1 K2 K3 K4 K5 K6 K7 K8] Ro Rc Rq Ra] [L1 L2 L3 L4]. constructor.
  - intros i v Hi Hv. rewrite <- (L1 i v Hi Hv). apply (vk_rx _ _ _ _ _ _ _ (K1 i v Hi Hv)).
  - intros i v Hi Hv. split; [apply (vk_gone _ _ _ _ _ _ _ (K1 i v Hi Hv))|]. apply gparse_way. destruct (vk_st _ _ _ _ _ _ _ (K1 i v Hi Hv)) as [gs [G _]]. congruence.
  - intros o Ho. rewrite (io_out _ _ _ _ _ _ _ _ K5 o Ho), (L2 o Ho), (Ro o Ho). split; [reflexivity|]. apply (io_one _ _ _ _ _ _ _ _ K5 o Ho).
  - apply (io_label _ _ _ _ _ _ _ _ K5).
  - apply (io_from _ _ _ _ _ _ _ _ K5).
  - intros o w l1 a b l2 Ho Hw E T. pose proof (own_parse _ _ _ _ _ K3 o w Ho Hw) as N. apply gparse_way in N. unfold on_lab in N. rewrite E, map_app in N. cbn [map] in N.
    specialize (N _ _ _ _ eq_refl T). destruct a as [[i v] f], b as [[i' v'] f']. unfold way, lab in N. cbn in N. cbn [fst]. exact N.
Qed.
Theorem C39_router : forall c P xs, some_policy (c_b c) P -> decent_run P c xs ->
  exists s ys trips outs, iq_run c xs (router0 P) = Some (s, ys) /\
    relayed c xs ys (fun i v => v_buf (r_vc s i v)) (in_crossbar s) trips outs /\
    (r_act s = false -> forall i v o, i < c_in c -> v < c_vcs c -> v_buf (r_vc s i v) = [] /\ in_crossbar s o = []).
Proof.
  intros c P xs SP D. destruct (some_policy_ok _ _ SP) as [I [R0 [HP [HR _]]]]. destruct (run_all c P I HP R0 HR xs D) as [s [ys [g [E [R L]]]]].
  exists s, ys, (g_gone g), (g_L g). split; auto. split; [apply (rest_relayed _ _ _ _ _ _ _ R L)|].
  intros A i v o Hi Hv. destruct (rt_act _ _ _ _ _ _ R A) as [_ [Q1 [Q2 [Q3 Q4]]]]. split; [|unfold in_crossbar; rewrite Q4; reflexivity].
  pose proof (rt_inv _ _ _ _ _ _ R) as H. destruct (iv_q _ _ _ _ _ _ _ _ _ _ H) as [[_ B1] [[_ B2] [_ B3]]]. rewrite Q1, Q2, Q3 in *. cbn [app] in *.
  destruct (vk_st _ _ _ _ _ _ _ (iv_vc _ _ _ _ _ _ _ _ _ _ H i v Hi Hv)) as [gs [_ S]]. unfold stok in S.
  destruct (v_state (r_vc s i v)) eqn:Ev; [tauto| | |].
  - exfalso. apply (proj2 (B1 i v)). split; auto.
  - exfalso. apply (proj2 (B2 i v)). split; auto.
  - destruct (v_buf (r_vc s i v)) eqn:Eb; auto. exfalso. apply (proj2 (B3 i v)). split; auto. split; auto. unfold waits_sa. rewrite Eb. split; [auto|discriminate].
Qed.
Print Assumptions C39_router.

(** ** C40 *)
Theorem C40_packets : forall c P xs, some_policy (c_b c) P -> decent_run P c xs ->
  exists s ys, iq_run c xs (router0 P) = Some (s, ys) /\ forall o w, o < c_outs c -> w < c_vcs c -> well_formed (on_vc w (tx ys o)).
Proof.
  intros c P xs SP D. destruct (some_policy_ok _ _ SP) as [I [R0 [HP [HR _]]]]. destruct (run_all c P I HP R0 HR xs D) as [s [ys [g [E [R L]]]]].
  exists s, ys. split; auto. intros o w Ho Hw. pose proof (rt_inv _ _ _ _ _ _ R) as H.
  assert (W : parse (on_vc w (map snd (g_L g o))) <> None).
  { pose proof (own_parse _ _ _ _ _ (iv_own _ _ _ _ _ _ _ _ _ _ H) o w Ho Hw) as N. destruct (gparse (on_lab w (g_L g o))) as [gs|] eqn:Eg; [|congruence]. rewrite <- on_lab_fst, (gparse_fst _ _ Eg). discriminate. }
  rewrite (io_out _ _ _ _ _ _ _ _ (iv_out _ _ _ _ _ _ _ _ _ _ H) o Ho), (ln_tx _ _ _ _ L o Ho), on_vc_app in W. exact (parse_pre _ _ W).
Qed.
Print Assumptions C40_packets.

(** ** C41 *)
Lemma L_vcs : forall c P I xs s g o, Rest c P I xs s g -> o < c_outs c -> Forall (fun f => f_vc f < c_vcs c) (map snd (g_L g o)).
Proof.
  intros c P I xs s g o R Ho. apply Forall_forall. intros f Hf. apply in_map_iff in Hf. destruct Hf as [[[i v] h] [E A]]. cbn in E. subst h.
  pose proof (rt_inv _ _ _ _ _ _ R) as H. pose proof (iv_out _ _ _ _ _ _ _ _ _ _ H) as O. destruct (io_label _ _ _ _ _ _ _ _ O o _ A) as [Hi Hv]. cbn in Hi, Hv.
  assert (B : In f (from i v (g_L g o))). { unfold from. apply in_map_iff. exists (i, v, f). split; auto. apply filter_In. split; auto. cbn. rewrite !Nat.eqb_refl. reflexivity. }
  rewrite (io_from _ _ _ _ _ _ _ _ O i v o Hi Hv Ho) in B. unfold left_for in B. apply in_map_iff in B. destruct B as [[f1 [o1 g1]] [B1 B2]]. cbn in B1. subst g1. apply filter_In in B2. destruct B2 as [B2 _].
  pose proof (vk_gone _ _ _ _ _ _ _ (iv_vc _ _ _ _ _ _ _ _ _ _ H i v Hi Hv)) as F. rewrite Forall_forall in F. specialize (F _ B2). unfold trip_ok in F. tauto.
Qed.
Lemma total_on_vc_all : forall l n, Forall (fun f => f_vc f < n) l -> total (fun v => Z.of_nat (length (on_vc v l))) n = Z.of_nat (length l).
Proof.
  intros l n F. induction F as [|f l Hf F IH]; [cbn; apply total_zero|].
  rewrite (total_ext _ (fun v => (Z.of_nat (length (on_vc v l)) + (if Nat.eqb (f_vc f) v then 1 else 0))%Z)); [rewrite total_add, IH, total_one by auto; cbn [length]; lia|].
  intros v Hv. cbn [on_vc filter]. destruct (Nat.eqb (f_vc f) v); cbn [length]; fold (on_vc v l); lia.
Qed.
Lemma total_count_le : forall l n, (total (fun v => Z.of_nat (count_occ Nat.eq_dec l v)) n <= Z.of_nat (length l))%Z.
Proof.
  intros l n. induction l as [|a l IH]; [cbn; rewrite total_zero; lia|].
  destruct (Nat.lt_ge_cases a n) as [Ha|Ha].
  - rewrite (total_ext _ (fun v => (Z.of_nat (count_occ Nat.eq_dec l v) + (if Nat.eqb a v then 1 else 0))%Z)).
    + rewrite total_add, total_one by auto. cbn [length]. lia.
    + intros v Hv. cbn [count_occ]. destruct (Nat.eq_dec a v) as [->|N]; [rewrite Nat.eqb_refl|rewrite (proj2 (Nat.eqb_neq a v)) by auto]; lia.
  - rewrite (total_ext _ (fun v => Z.of_nat (count_occ Nat.eq_dec l v))); [cbn [length]; lia|]. intros v Hv. cbn [count_occ]. destruct (Nat.eq_dec a v); [lia|auto].
Qed.
(** The flits on a channel of an output, less the credits that came back, are no more than the occupancy the router counts. *)
Lemma out_le : forall c P I xs s g ys o w, Rest c P I xs s g -> link c xs ys g -> o < c_outs c -> w < c_vcs c ->
  (Z.of_nat (length (on_vc w (tx ys o))) - Z.of_nat (count_occ Nat.eq_dec (crx xs o) w) <= b_vocc (bs_b (r_next s o)) w)%Z.
Proof.
  intros c P I xs s g ys o w R L Ho Hw. pose proof (rt_inv _ _ _ _ _ _ R) as H. pose proof (iv_out _ _ _ _ _ _ _ _ _ _ H) as O.
  rewrite (so_occ _ _ _ _ _ (iv_next _ _ _ _ _ _ _ _ _ _ H o Ho) w Hw), (io_sent _ _ _ _ _ _ _ _ O o w Ho), (io_out _ _ _ _ _ _ _ _ O o Ho), (ln_tx _ _ _ _ L o Ho), on_vc_len.
  pose proof (ic_sum _ _ _ _ _ (iv_cr _ _ _ _ _ _ _ _ _ _ H) o w Ho) as X. rewrite (ln_cr _ _ _ _ L o Ho) in X. lia.
Qed.
(** C41. Never more flits under way to a buffer and in it than it has room for. *)
Theorem C41_room : forall c P xs, some_policy (c_b c) P -> decent_run P c xs ->
  exists s ys, iq_run c xs (router0 P) = Some (s, ys) /\
    forall o, o < c_outs c -> (Z.of_nat (length (tx ys o)) <= Z.of_nat (length (crx xs o)) + bc_size (c_b c))%Z.
Proof.
  intros c P xs SP D. destruct (some_policy_ok _ _ SP) as [I [R0 [HP [HR HO]]]]. destruct (run_all c P I HP R0 HR xs D) as [s [ys [g [E [R L]]]]].
  exists s, ys. split; auto. intros o Ho. pose proof (rt_inv _ _ _ _ _ _ R) as H.
  pose proof (iv_next _ _ _ _ _ _ _ _ _ _ H o Ho) as N. pose proof (HO _ _ (so_base _ _ _ _ _ N) (so_pol _ _ _ _ _ N)) as B. rewrite (bo_sum _ _ (so_base _ _ _ _ _ N)) in B.
  assert (F : Forall (fun f => f_vc f < c_vcs c) (tx ys o)).
  { pose proof (L_vcs _ _ _ _ _ _ o R Ho) as F. rewrite (io_out _ _ _ _ _ _ _ _ (iv_out _ _ _ _ _ _ _ _ _ _ H) o Ho), (ln_tx _ _ _ _ L o Ho) in F. apply Forall_app in F. tauto. }
  pose proof (total_on_vc_all _ _ F) as X. pose proof (total_count_le (crx xs o) (c_vcs c)) as Y.
  assert (Z1 : (total (fun v => Z.of_nat (length (on_vc v (tx ys o)))) (c_vcs c) <= total (fun v => (Z.of_nat (count_occ Nat.eq_dec (crx xs o) v) + b_vocc (bs_b (r_next s o)) v)%Z) (c_vcs c))%Z).
  { apply total_le. intros v Hv. pose proof (out_le _ _ _ _ _ _ _ o v R L Ho Hv). lia. }
  rewrite total_add in Z1. unfold c_vcs in *. lia.
Qed.
Print Assumptions C41_room.

(** C41. With private buffers (the setting RAD-Sim uses) this holds for each virtual channel. *)
Theorem C41_private : forall c P xs buf_size vc_buf_size, buf_size <> 0%Z -> 0 < c_vcs c -> new_private (c_vcs c) buf_size vc_buf_size (bc_wait (c_b c)) = Some (c_b c, P) -> decent_run P c xs ->
  exists s ys, iq_run c xs (router0 P) = Some (s, ys) /\
    forall o w, o < c_outs c -> w < c_vcs c ->
      (Z.of_nat (length (on_vc w (tx ys o))) <= Z.of_nat (count_occ Nat.eq_dec (crx xs o) w) + (if buf_size <? 0 then vc_buf_size else buf_size / Z.of_nat (c_vcs c)))%Z.
Proof.
  intros c P xs bz vz Hb Hv E D. unfold c_vcs in *. unfold new_private in E. set (z := if (bz <=? 0)%Z then vz else (bz / Z.of_nat (bc_vcs (c_b c)))%Z) in *.
  destruct (Z.ltb_spec 0 z) as [Hz|]; [|discriminate]. injection E as E <-.
  assert (S : (bc_size (c_b c) >= Z.of_nat (bc_vcs (c_b c)) * z)%Z).
  { rewrite <- E. cbn [bc_vcs bc_size]. subst z. destruct (Z.ltb_spec bz 0), (Z.leb_spec bz 0); try lia. pose proof (Z.mul_div_le bz (Z.of_nat (bc_vcs (c_b c))) ltac:(lia)). lia. }
  pose proof (private_ok (c_b c) z S) as HP. assert (HT : steady (private_policy z)) by (unfold steady; cbn [private_policy po_take po_full take_b b_vocc]; congruence).
  destruct (run_all c _ _ HP _ (steady_room _ _ _ HP HT) xs D) as [s [ys [g [E' [R L]]]]]. exists s, ys. split; auto. intros o w Ho Hw.
  pose proof (out_le _ _ _ _ _ _ _ o w R L Ho Hw) as X. pose proof (so_pol _ _ _ _ _ (iv_next _ _ _ _ _ _ _ _ _ _ (rt_inv _ _ _ _ _ _ R) o Ho) w Hw) as Y. cbn beta in Y.
  replace (if (bz <? 0)%Z then vz else (bz / Z.of_nat (bc_vcs (c_b c)))%Z) with z; [lia|]. subst z. destruct (Z.ltb_spec bz 0), (Z.leb_spec bz 0); auto; lia.
Qed.
Print Assumptions C41_private.

(** A run never holds more flits of an input than its buffer has slots. *)
Lemma occ_bound : forall P c xs hx hy (s : router P) s' ys i, decent_from c hx hy xs s -> iq_run c xs s = Some (s', ys) -> i < c_in c ->
  (Z.of_nat (length (rx hx i)) - Z.of_nat (length (ctx hy i)) <= bc_size (c_b c))%Z ->
  (Z.of_nat (length (rx (hx ++ xs) i)) - Z.of_nat (length (ctx (hy ++ ys) i)) <= bc_size (c_b c))%Z.
Proof.
  intros P c xs. induction xs as [|x xs IH]; intros hx hy s s' ys i D E Hi B; cbn [iq_run] in E.
  - injection E as _ <-. rewrite !app_nil_r. auto.
  - destruct D as [D1 D2]. destruct (iq_step c x s) as [[s1 y]|] eqn:E1; [|discriminate]. destruct (iq_run c xs s1) as [[s2 zs]|] eqn:E2; [|discriminate]. injection E as -> <-.
    replace (hx ++ x :: xs) with ((hx ++ [x]) ++ xs) by (rewrite <- app_assoc; reflexivity). replace (hy ++ y :: zs) with ((hy ++ [y]) ++ zs) by (rewrite <- app_assoc; reflexivity).
    apply (IH _ _ _ _ _ _ (D2 _ _ eq_refl) E2 Hi). rewrite rx_snoc, ctx_snoc, !app_length.
    destruct (i_flit x i) as [f|] eqn:Ef; [|cbn [length]; lia]. destruct (de_flit _ _ _ _ D1 i f Hi Ef) as [_ [_ [X _]]]. cbn [length]. lia.
Qed.
(** C41. One credit per flit that left, on its channel; hence what the upstream router counts is what waits here, and the input buffer
    never overflows. *)
Theorem C41_credits : forall c P xs, some_policy (c_b c) P -> decent_run P c xs ->
  exists s ys, iq_run c xs (router0 P) = Some (s, ys) /\
    forall i, i < c_in c -> Forall (fun v => v < c_vcs c) (ctx ys i) /\
      (forall v, v < c_vcs c -> count_occ Nat.eq_dec (ctx ys i) v + length (v_buf (r_vc s i v)) = length (on_vc v (rx xs i))) /\
      (total (fun v => Z.of_nat (length (v_buf (r_vc s i v)))) (c_vcs c) <= bc_size (c_b c))%Z.
Proof.
  intros c P xs SP D. destruct (some_policy_ok _ _ SP) as [I [R0 [HP [HR HO]]]]. destruct (run_all c P I HP R0 HR xs D) as [s [ys [g [E [R L]]]]].
  exists s, ys. split; auto. intros i Hi. pose proof (rt_inv _ _ _ _ _ _ R) as H. destruct (iv_ct _ _ _ _ _ _ _ _ _ _ H i Hi) as [F [_ C]].
  rewrite (rt_cb _ _ _ _ _ _ R i Hi), (rt_oc _ _ _ _ _ _ R i), (ln_ct _ _ _ _ L i Hi) in F, C. cbn [concat app] in F, C. rewrite app_nil_r in F, C. split; auto. split.
  - intros v Hv. rewrite (C v Hv), <- (ln_rx _ _ _ _ L i v Hi Hv), (vk_rx _ _ _ _ _ _ _ (iv_vc _ _ _ _ _ _ _ _ _ _ H i v Hi Hv)), app_length, map_length. reflexivity.
  - rewrite <- (iv_occ _ _ _ _ _ _ _ _ _ _ H i Hi). pose proof (occ_room _ _ _ _ _ _ _ _ i R L Hi) as X.
    pose proof (st_ok0 _ _ _ HP) as Z0. pose proof (HO _ _ (so_base _ _ _ _ _ Z0) (so_pol _ _ _ _ _ Z0)) as Y. cbn in Y.
    pose proof (occ_bound _ _ _ _ _ _ _ _ i D E Hi ltac:(cbn; lia)) as B. cbn [app] in B. lia.
Qed.
Print Assumptions C41_credits.

(** ** Examples *)
(** An allocator that goes through the requests in order. *)
Definition greedy (l : list ask) : match_ :=
  fold_left (fun m a => match m_in m (fst (fst a)), m_out m (snd (fst a)) with None, None => pair_up (fst (fst a)) (snd (fst a)) m | _, _ => m end) l no_match.
Lemma greedy_ok : forall l, matching l (greedy l).
Proof.
  intros l. unfold greedy. assert (G : forall k m, matching l m -> (forall a, In a k -> In a l) ->
    matching l (fold_left (fun m a => match m_in m (fst (fst a)), m_out m (snd (fst a)) with None, None => pair_up (fst (fst a)) (snd (fst a)) m | _, _ => m end) k m)).
  { intros k. induction k as [|[[i o] q] k IH]; intros m M K; [exact M|]. cbn [fold_left fst snd]. apply IH; [|intros; apply K; right; auto].
    destruct (m_in m i) eqn:Ei; auto. destruct (m_out m o) eqn:Eo; auto. destruct M as [M1 M2]. split; cbn [pair_up m_in m_out].
    - intros i' o'. unfold fupd. destruct (Nat.eqb_spec i' i) as [->|Hi], (Nat.eqb_spec o' o) as [->|Ho]; try tauto.
      + split; intros X; [congruence|]. apply M1 in X. congruence.
      + split; intros X; [apply M1 in X; congruence|congruence].
      + apply M1.
    - intros i' o'. unfold fupd. destruct (Nat.eqb_spec i' i) as [->|Hi]; [|apply M2]. intros X. injection X as <-. exists q. apply K. left. auto. }
  apply G; auto. split; cbn; [split; discriminate|discriminate].
Qed.
(** Packets with an even number go to output 0, others to output 1, on either channel. *)
Definition ex_route (p : Z) : list oelem := [{| o_port := (p mod 2)%Z; o_lo := 0; o_hi := 1; o_pri := 0 |}].
Definition ex_in (t : Z) (fs : list (nat * flit)) (cs : list (nat * list nat)) : rin :=
  {| i_now := t; i_flit := fun i => option_map snd (find (fun a => Nat.eqb (fst a) i) fs);
     i_cred := fun o => option_map snd (find (fun a => Nat.eqb (fst a) o) cs);
     i_va := greedy; i_sa := greedy; i_rf := fun _ f => ex_route (f_pid f); i_la := fun _ _ => None |}.
Lemma ex_route_ok : forall c p, c_outs c = 2 -> c_vcs c = 2 -> good_route c (ex_route p).
Proof.
  intros c p H1 H2. pose proof (Z.mod_pos_bound p 2 ltac:(lia)). unfold good_route, ex_route. rewrite H1, H2. cbn [o_port o_lo o_hi]. split; [repeat constructor; cbn; lia|].
  cbn. repeat constructor; cbn; [|tauto]. intros [E|[]]. discriminate.
Qed.
(** A decision procedure for [decent_run], for these steps. *)
Definition okflit (c : iqcfg) (hx : list rin) (hy : list rout) (x : rin) (i : nat) : bool :=
  match i_flit x i with
  | None => true
  | Some f => Nat.ltb (f_vc f) (c_vcs c) && match parse (on_vc (f_vc f) (rx hx i ++ [f])) with Some _ => true | None => false end &&
              (Z.of_nat (length (rx hx i)) - Z.of_nat (length (ctx hy i)) <? bc_size (c_b c))%Z &&
              (c_rdelay c || negb (f_head f) || match f_la f with [e] => (o_port e =? 1)%Z && (o_lo e =? 0)%Z && (o_hi e =? 1)%Z | _ => false end)
  end.
Definition okcred (c : iqcfg) (hx : list rin) (hy : list rout) (x : rin) (o : nat) : bool :=
  match i_cred x o with
  | None => true
  | Some vs => forallb (fun v => Nat.eqb (count_occ Nat.eq_dec vs v) 1 && Nat.ltb v (c_vcs c) && Nat.ltb (count_occ Nat.eq_dec (crx hx o) v) (length (on_vc v (tx hy o)))) vs
  end.
Fixpoint decentb {P} (c : iqcfg) (hx : list rin) (hy : list rout) (xs : list (Z * (list (nat * flit) * list (nat * list nat)))) (s : router P) : bool :=
  match xs with
  | [] => true
  | (t, (fs, cs)) :: r =>
      let x := ex_in t fs cs in
      forallb (okflit c hx hy x) (seq 0 (c_in c)) && forallb (okcred c hx hy x) (seq 0 (c_outs c)) &&
      match iq_step c x s with Some (s', y) => decentb c (hx ++ [x]) (hy ++ [y]) r s' | None => true end
  end.
Definition ex_ins (xs : list (Z * (list (nat * flit) * list (nat * list nat)))) : list rin := map (fun a => ex_in (fst a) (fst (snd a)) (snd (snd a))) xs.
Lemma decentb_ok : forall P c, c_outs c = 2 -> c_vcs c = 2 -> forall xs hx hy (s : router P), decentb c hx hy xs s = true -> decent_from c hx hy (ex_ins xs) s.
Proof.
  intros P c H1 H2 xs. induction xs as [|[t [fs cs]] xs IH]; intros hx hy s D; [exact Logic.I|]. cbn [decentb] in D.
  apply andb_true_iff in D. destruct D as [D D3]. apply andb_true_iff in D. destruct D as [Df Dc]. rewrite forallb_forall in Df, Dc.
  change (ex_ins ((t, (fs, cs)) :: xs)) with (ex_in t fs cs :: ex_ins xs). cbn [decent_from]. set (x := ex_in t fs cs) in *. split.
  - constructor.
    + intros. apply greedy_ok.
    + intros. apply greedy_ok.
    + intros i f Hi Ef. specialize (Df i ltac:(apply in_seq; lia)). unfold okflit in Df. rewrite Ef in Df.
      apply andb_true_iff in Df. destruct Df as [Df D4]. apply andb_true_iff in Df. destruct Df as [Df D2]. apply andb_true_iff in Df. destruct Df as [Df D1].
      apply Nat.ltb_lt in Df. apply Z.ltb_lt in D2. split; auto. split; [unfold well_formed; destruct (parse _); congruence|]. split; auto.
      intros Hr Hh. rewrite Hr, Hh in D4. cbn in D4. destruct (f_la f) as [|[op lo hi pr] [|]]; try discriminate. cbn [o_port o_lo o_hi] in D4.
      apply andb_true_iff in D4. destruct D4 as [D4 D6]. apply andb_true_iff in D4. destruct D4 as [D4 D5]. apply Z.eqb_eq in D4, D5, D6. subst.
      split; [rewrite H1, H2; repeat constructor; cbn; lia|]. cbn. repeat constructor; cbn; [|tauto]. intros [E|[]]. discriminate.
    + intros o vs Ho Ec. specialize (Dc o ltac:(apply in_seq; lia)). unfold okcred in Dc. rewrite Ec in Dc. rewrite forallb_forall in Dc. split.
      * apply (NoDup_count_occ Nat.eq_dec). intros v. destruct (in_dec Nat.eq_dec v vs) as [Hin|Hin]; [|rewrite (proj1 (count_occ_not_In Nat.eq_dec vs v) Hin); lia].
        specialize (Dc v Hin). apply andb_true_iff in Dc. destruct Dc as [Dc _]. apply andb_true_iff in Dc. destruct Dc as [Dc _]. apply Nat.eqb_eq in Dc. lia.
      * intros v Hin. specialize (Dc v Hin). apply andb_true_iff in Dc. destruct Dc as [Dc D2]. apply andb_true_iff in Dc. destruct Dc as [_ D1]. apply Nat.ltb_lt in D1, D2. auto.
    + intros _ i f _ _ _. apply ex_route_ok; auto.
  - intros s' y E. rewrite E in D3. apply IH; auto.
Qed.
Definition fl (p : Z) (h t : bool) (v : nat) (la : list oelem) : flit := {| f_id := (10 * p + if h then 0 else 1)%Z; f_pid := p; f_head := h; f_tail := t; f_vc := v; f_la := la |}.
(** Packets 0, 2 and 4 (two flits each) meet at output 0, packet 1 crosses them. *)
Definition ex_xs (la : list oelem) (o : nat) : list (Z * (list (nat * flit) * list (nat * list nat))) :=
  [(0%Z, ([(0, fl 0 true false 0 la); (1, fl 2 true false 0 la)], []));
   (1%Z, ([(0, fl 1 true true 1 la); (1, fl 2 false true 0 la)], []));
   (2%Z, ([(0, fl 0 false true 0 la); (1, fl 4 true false 0 la)], []));
   (3%Z, ([(1, fl 4 false true 0 la)], []));
   (4%Z, ([], [])); (5%Z, ([], [])); (6%Z, ([], [(o, [1; 0])])); (7%Z, ([], [])); (8%Z, ([], [])); (9%Z, ([], [])); (10%Z, ([], []))].
Definition ex_c (rd : bool) : iqcfg := {| c_in := 2; c_outs := 2; c_b := {| bc_vcs := 2; bc_size := 4; bc_wait := false |}; c_rdelay := rd; c_cdelay := 1; c_obuf := -1 |}.
Definition la1 : list oelem := [{| o_port := 1; o_lo := 0; o_hi := 1; o_pri := 0 |}].
Definition ids {P} (r : option (router P * list rout)) (o : nat) : option (bool * (list (Z * nat) * list nat)) :=
  match r with Some (s, ys) => Some (r_act s, (map (fun f => (f_id f, f_vc f)) (tx ys o), ctx ys o)) | None => None end.
Lemma ex_private : forall rd, some_policy (c_b (ex_c rd)) (private_policy 2).
Proof. intros rd. apply (po_private _ (-1) 2); [lia|cbn; lia|reflexivity]. Qed.
Example C39_router_ex : decent_run (private_policy 2) (ex_c true) (ex_ins (ex_xs [] 0)) /\ decent_run (private_policy 2) (ex_c false) (ex_ins (ex_xs la1 1)).
Proof. split; apply decentb_ok; try reflexivity; vm_compute; reflexivity. Qed.
(** The packets interleave on the link, not on a channel; the last flit waits for a credit. *)
Example C40_packets_ex : ids (iq_run (ex_c true) (ex_ins (ex_xs [] 0)) (router0 (private_policy 2))) 0 =
    Some (true, ([(0%Z, 0); (20%Z, 1); (1%Z, 0); (21%Z, 1); (40%Z, 0)], [0; 1; 0])) /\
  ids (iq_run (ex_c false) (ex_ins (ex_xs la1 1)) (router0 (private_policy 2))) 1 =
    Some (true, ([(0%Z, 0); (20%Z, 1); (21%Z, 1); (1%Z, 0); (40%Z, 0); (10%Z, 1)], [0; 0; 0])) /\
  some_policy (c_b (ex_c true)) (private_policy 2).
Proof. split; [vm_compute; reflexivity|]. split; [vm_compute; reflexivity|apply ex_private]. Qed.
(** The bound is reached: five flits sent and two credits received leave no room on channel 0. *)
Example C41_private_ex : new_private 2 (-1) 2 false = Some (c_b (ex_c true), private_policy 2) /\
      match iq_run (ex_c true) (ex_ins (ex_xs [] 0)) (router0 (private_policy 2)) with
  | Some (s, ys) => length (on_vc 0 (tx ys 0)) = 3 /\ count_occ Nat.eq_dec (crx (ex_ins (ex_xs [] 0)) 0) 0 = 1 /\ length (v_buf (r_vc s 1 0)) = 1
  | None => False end.
Proof. split; [reflexivity|]. vm_compute. auto. Qed.
(** A shared buffer of four slots, half of them reserved. *)
Example C41_room_ex : match default_shared 2 4 8 (-1) 1 with
  | Some sc => some_policy (c_b (ex_c true)) (shared_policy sc) /\ decent_run (shared_policy sc) (ex_c true) (ex_ins (ex_xs [] 0)) /\
      match iq_run (ex_c true) (ex_ins (ex_xs [] 0)) (router0 (shared_policy sc)) with
      | Some (s, ys) => length (tx ys 0) = 6 /\ length (crx (ex_ins (ex_xs [] 0)) 0) = 2
      | None => False end
  | None => False end.
Proof.
  destruct (default_shared 2 4 8 (-1) 1) as [sc|] eqn:E; [|discriminate]. split.
  - apply (po_shared (c_b (ex_c true)) [1; 1]%Z [0; 1] [0; 1] sc E). repeat constructor; vm_compute; discriminate.
  - vm_compute in E. injection E as <-. split; [apply decentb_ok; try reflexivity; vm_compute; reflexivity|]. vm_compute. auto.
Qed.
(** All four policies with a shared buffer, and an input buffer that fills. *)
Example C41_credits_ex : match default_shared 2 4 8 (-1) 1 with
  | Some sc => decent_run (limited_policy sc 2 (Fixed 2)) (ex_c true) (ex_ins (ex_xs [] 0)) /\ decent_run (limited_policy sc 2 Dynamic) (ex_c true) (ex_ins (ex_xs [] 0)) /\
      decent_run (feedback_policy sc {| fc_scale := 1; fc_offset := 0; fc_minlat := 3 |}) (ex_c true) (ex_ins (ex_xs [] 0)) /\
      match iq_run (ex_c true) (ex_ins (firstn 4 (ex_xs [] 0))) (router0 (limited_policy sc 2 (Fixed 2))) with
      | Some (s, ys) => length (v_buf (r_vc s 1 0)) = 3 /\ ctx ys 1 = [0]
      | None => False end
  | None => False end.
Proof. vm_compute default_shared. cbv match. split; [|split; [|split]]; [apply decentb_ok; try reflexivity; vm_compute; reflexivity|apply decentb_ok; try reflexivity; vm_compute; reflexivity|apply decentb_ok; try reflexivity; vm_compute; reflexivity|]. vm_compute. auto. Qed.
