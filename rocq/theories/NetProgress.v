(** The network drains: the proof. *)
From Coq Require Import ZArith Arith Bool List Lia Permutation.
From Verif Require Import Fupd ArbiterModel AllocModel AllocSpec BufferModel BufferSpec BufferProofs RouteModel ChannelModel IqRouterModel IqRouterSpec IqRouterProofs IqRouterInv IqRouterRun Prop_IqRouter IqPotential NetModel NetSpec NetProgressSpec IqProgress NetProofs NetSum NetPotential NetStuck.
Import ListNotations.
Open Scope nat_scope.

Fixpoint chain (old : Z) (ts : list tick) : Prop := match ts with [] => True | t :: r => (old < t_now t)%Z /\ chain (t_now t) r end.
Fixpoint lastt (old : Z) (ts : list tick) : Z := match ts with [] => old | t :: r => lastt (t_now t) r end.
Lemma chain_app : forall a b old, chain old (a ++ b) -> chain old a /\ chain (lastt old a) b.
Proof. intros a. induction a as [|t a IH]; intros b old H; cbn [app chain lastt] in *; [auto|]. destruct H as [H1 H2]. destruct (IH _ _ H2). auto. Qed.
Lemma rising_chain : forall ts t, rising (t :: ts) -> chain (t_now t) ts.
Proof.
  intros ts. induction ts as [|b ts IH]; intros t H; cbn [chain]; [exact I|]. split; [apply (H [] t b ts eq_refl)|]. apply IH. intros l1 x y l2 E. apply (H (t :: l1) x y l2). rewrite E. reflexivity.
Qed.
Lemma rising_start : forall ts, rising ts -> exists old, chain old ts.
Proof. intros [|t ts] H; [exists 0%Z; exact I|]. exists (t_now t - 1)%Z. cbn [chain]. split; [lia|]. apply rising_chain. exact H. Qed.
Lemma net_run_app : forall P w a b (s s1 s2 : net P) z1 z2, net_run w a s = Some (s1, z1) -> net_run w b s1 = Some (s2, z2) -> net_run w (a ++ b) s = Some (s2, z1 ++ z2).
Proof.
  intros P w a. induction a as [|t a IH]; intros b s s1 s2 z1 z2 E1 E2; cbn [net_run app] in *; [injection E1 as <- <-; exact E2|].
  destruct (net_step w t s) as [[s' z]|]; [|discriminate]. destruct (net_run w a s') as [[s3 z3]|] eqn:E3; [|discriminate]. injection E1 as <- <-. rewrite (IH _ _ _ _ _ _ E3 E2). reflexivity.
Qed.
Lemma ndecent_app : forall P w ok a b hts hzs (s : net P), ndecent_from w ok hts hzs (a ++ b) s -> ndecent_from w ok hts hzs a s /\ forall s1 z1, net_run w a s = Some (s1, z1) -> ndecent_from w ok (hts ++ a) (hzs ++ z1) b s1.
Proof.
  intros P w ok a. induction a as [|t a IH]; intros b hts hzs s H; cbn [app ndecent_from net_run] in *.
  - split; [exact I|]. intros s1 z1 E. injection E as <- <-. rewrite !app_nil_r. exact H.
  - destruct H as [H1 H2]. split; [split; auto; intros s' z E; apply (IH b _ _ _ (H2 s' z E))|]. intros s1 z1 E. destruct (net_step w t s) as [[s' z]|] eqn:E1; [|discriminate]. destruct (net_run w a s') as [[s3 z3]|] eqn:E3; [|discriminate]. injection E as <- <-.
    destruct (IH b _ _ _ (H2 s' z eq_refl)) as [_ X]. specialize (X _ _ E3). rewrite <- !app_assoc in X. exact X.
Qed.
Lemma amount_total : forall w ts, Z.of_nat (amount w ts) = total (fun n => Z.of_nat (length (injected ts n))) (w_nodes w).
Proof.
  intros w ts. unfold amount. rewrite total_lsum. induction (seq 0 (w_nodes w)) as [|a l IH]; [reflexivity|]. cbn [flat_map lsum fold_right]. rewrite app_length. fold (lsum (fun n => Z.of_nat (length (injected ts n))) l). lia.
Qed.
Lemma quiet_inj : forall w ts t n, n < w_nodes w -> quiet w t -> injected (ts ++ [t]) n = injected ts n.
Proof. intros w ts t n Hn Q. rewrite injected_snoc, (Q n Hn). apply app_nil_r. Qed.

Section Net.
Variables (P : bpolicy) (w : netcfg) (ok : cid -> flit -> Prop) (dist : cid -> nat -> nat) (slots : Z).
Hypothesis W : wired w.
Hypothesis HB : own_buffers (w_b w) P slots.
Hypothesis HD : descends w ok dist.
Hypothesis HO : forall r, r < w_n w -> c_obuf (w_cfg w r) <> 0%Z.
Let SP := own_some _ _ _ HB.
Let np := npot P w dist.
(** What an injected flit is worth at most. *)
Definition per_flit : Z := total (fun n => K w * total (fun v => Z.of_nat (dist (Inj n) v)) (bc_vcs (w_b w)) + 3 + Z.max 0 (w_fd w (Inj n)))%Z (w_nodes w).
Definition dmax : nat := Z.to_nat (over w (fun c => total (fun v => Z.of_nat (dist c v)) (bc_vcs (w_b w)))).
Lemma dmax_ok : forall c v, used w c -> v < bc_vcs (w_b w) -> dist c v <= dmax.
Proof.
  intros c v Hc Hv. unfold dmax. assert (Q : forall c, used w c -> (0 <= total (fun v => Z.of_nat (dist c v)) (bc_vcs (w_b w)))%Z) by (intros c' _; apply total_pos; intros; lia).
  pose proof (over_part w (fun c => total (fun v => Z.of_nat (dist c v)) (bc_vcs (w_b w))) c Q Hc) as A. cbn beta in A.
  pose proof (total_part (fun v => Z.of_nat (dist c v)) (bc_vcs (w_b w)) v ltac:(intros; cbn beta; lia) Hv) as B. cbn beta in B. lia.
Qed.
Lemma per_flit_pos : forall n, n < w_nodes w -> (0 <= K w * total (fun v => Z.of_nat (dist (Inj n) v)) (bc_vcs (w_b w)) + 3 + Z.max 0 (w_fd w (Inj n)))%Z.
Proof. intros n _. pose proof (K_pos w). assert (0 <= total (fun v => Z.of_nat (dist (Inj n) v)) (bc_vcs (w_b w)))%Z by (apply total_pos; intros; lia). nia. Qed.
Lemma per_flit_ok : forall ts zs t, ndecent w ok ts zs t -> (w_inj w dist t <= per_flit * (Z.of_nat (amount w (ts ++ [t])) - Z.of_nat (amount w ts)))%Z.
Proof.
  intros ts zs t D. rewrite !amount_total. assert (E : total (fun n => Z.of_nat (length (injected (ts ++ [t]) n))) (w_nodes w) = (total (fun n => Z.of_nat (length (injected ts n))) (w_nodes w) + total (fun n => Z.of_nat (length (opt (t_inj t n)))) (w_nodes w))%Z).
  { rewrite <- total_add. apply total_ext. intros n _. rewrite injected_snoc, app_length. lia. }
  rewrite E. replace (_ + _ - _)%Z with (total (fun n => Z.of_nat (length (opt (t_inj t n)))) (w_nodes w)) by lia. unfold w_inj.
  assert (Mu : forall a f n, (a * total f n)%Z = total (fun i => (a * f i)%Z) n) by (intros a f n; induction n as [|n IH]; [cbn; lia|]; rewrite !total_S, <- IH; lia). rewrite Mu. apply total_le. intros n Hn. cbn beta.
  destruct (t_inj t n) as [f|] eqn:Ef; cbn [osum opt length]; [|lia]. destruct (w_snk w (Inj n)) as [[r i]|] eqn:Es; [|exfalso; apply (proj2 (wi_inj w W n)) in Hn; congruence].
  destruct (nd_inj _ _ _ _ _ D n f r i Ef Es) as [Hv _]. unfold w_enter, kd. cbn [tw].
  pose proof (total_part (fun v => Z.of_nat (dist (Inj n) v)) (bc_vcs (w_b w)) (f_vc f) ltac:(intros; cbn beta; lia) Hv) as B. cbn beta in B.
  pose proof (total_part _ (w_nodes w) n per_flit_pos Hn) as C. cbn beta in C. fold per_flit in C. pose proof (K_pos w). nia.
Qed.
(** The worth of the network does not grow but for what is injected, and it falls if something happens in some cycle. *)
Lemma run_from : forall ts hts hzs s xs ys old, NI P w ok hts hzs s xs ys -> ndecent_from w ok hts hzs ts s -> chain old ts -> (forall t, In t ts -> honest w t) ->
  exists s' zs xs' ys' G, net_run w ts s = Some (s', zs) /\ NI P w ok (hts ++ ts) (hzs ++ zs) s' xs' ys' /\ (0 <= G)%Z /\
    (np (hts ++ ts) (hzs ++ zs) (lastt old ts) s' + G <= np hts hzs old s + per_flit * (Z.of_nat (amount w (hts ++ ts)) - Z.of_nat (amount w hts)))%Z /\
    ((0 < G)%Z \/ forall l1 t l2 s1 z1, ts = l1 ++ t :: l2 -> net_run w l1 s = Some (s1, z1) -> ~ lively P w t s1).
Proof.
  intros ts. induction ts as [|t ts IH]; intros hts hzs s xs ys old N Dd Ch Hh; cbn [net_run ndecent_from chain lastt] in *.
  - exists s, [], xs, ys, 0%Z. rewrite !app_nil_r. split; auto. split; auto. split; [lia|]. split; [lia|]. right. intros [|x l1]; discriminate.
  - destruct Dd as [D1 D2], Ch as [C1 C2]. destruct (net_step_ok P w ok W SP _ _ _ _ _ _ N D1) as [s1 [z [xs1 [ys1 [E1 [N1 _]]]]]]. rewrite E1.
    destruct (tick_pot P w ok dist W SP HD old _ _ _ _ _ _ _ _ N D1 C1 (Hh t (or_introl eq_refl)) E1) as [G [G1 [G2 G3]]].
    destruct (IH _ _ _ _ _ (t_now t) N1 (D2 _ _ E1) C2 ltac:(intros; apply Hh; right; auto)) as [s2 [zs [xs2 [ys2 [G' [E2 [N2 [G0' [Q L]]]]]]]]]. rewrite E2. rewrite <- !app_assoc in N2, Q. cbn [app] in N2, Q.
    exists s2, (z :: zs), xs2, ys2, (G + G')%Z. split; auto. split; auto. split; [lia|]. pose proof (per_flit_ok _ _ _ D1) as Pf. split; [unfold np in *; lia|].
    destruct (Z.lt_ge_cases 0 G) as [X|X]; [left; lia|]. destruct L as [L|L]; [left; lia|]. right. intros [|x l1] u l2 s3 z3 El Er.
    + injection El as <- _. cbn [net_run] in Er. injection Er as <- _. intros Y. specialize (G3 Y). lia.
    + injection El as <- El. cbn [net_run] in Er. rewrite E1 in Er. destruct (net_run w l1 s1) as [[s4 z4]|] eqn:E4; [|discriminate]. injection Er as <- _. apply (L l1 u l2 s4 z4 El E4).
Qed.
(** A network in which nothing happens is empty, or waits for a node. *)
Lemma rests : forall hts hzs s xs ys t, NI P w ok hts hzs s xs ys -> ndecent w ok hts hzs t -> (forall u, In u hts -> leads w ok u /\ set_out w u) -> giving w t -> ~ lively P w t s ->
  inside w s = [] \/ clogged w slots hts hzs \/ starved w hts hzs.
Proof.
  intros hts hzs s xs ys t N Dt Le Gi Nl. destruct (inside w s) as [|f0 l0] eqn:Ei; [left; reflexivity|right].
  destruct (stuck_empty P w ok dist slots W HB HD HO hts hzs s xs ys t) with (Dm := dmax) as [[r [Hr Gr]]|X]; auto.
  - intros c Hc. destruct (stirs _ (n_f s c)) eqn:Es; auto. exfalso. apply Nl. left. exists c. auto.
  - intros c Hc. destruct (stirs _ (n_c s c)) eqn:Es; auto. exfalso. apply Nl. left. exists c. auto.
  - intros r Hr. destruct (r_xb (rt s r)) eqn:X1; [|exfalso; apply Nl; right; left; exists r; split; auto; left; congruence]. destruct (r_proc (rt s r)) eqn:X2; [|exfalso; apply Nl; right; left; exists r; split; auto; right; left; congruence].
    destruct (r_rq (rt s r)) eqn:X3; [auto|exfalso; apply Nl; right; left; exists r; split; auto; right; right; congruence].
  - apply dmax_ok.
  - rewrite Ei. discriminate.
  - exfalso. apply Nl. right. right. right. exists r. auto.
Qed.
Lemma quiet_amount : forall ts hts, (forall t, In t ts -> quiet w t) -> forall n, n < w_nodes w -> injected (hts ++ ts) n = injected hts n.
Proof.
  intros ts hts Q n Hn. induction ts as [|t ts IH] using rev_ind; [rewrite app_nil_r; reflexivity|]. rewrite app_assoc, (quiet_inj w (hts ++ ts) t n Hn); [|apply Q; apply in_app_iff; right; left; auto]. apply IH. intros; apply Q. apply in_app_iff. auto.
Qed.
(** An empty network stays empty. *)
Lemma stays_empty : forall ts hts hzs s xs ys s' zs xs' ys', NI P w ok hts hzs s xs ys -> NI P w ok (hts ++ ts) (hzs ++ zs) s' xs' ys' -> (forall t, In t ts -> quiet w t) -> inside w s = [] -> inside w s' = [].
Proof.
  intros ts hts hzs s xs ys s' zs xs' ys' N N' Q E. pose proof (net_balance P w ok W SP _ _ _ _ _ N) as B. pose proof (net_balance P w ok W SP _ _ _ _ _ N') as B'. rewrite E, app_nil_r in B.
  apply Permutation_length in B, B'. rewrite !map_length in B, B'. rewrite app_length in B'.
  assert (I1 : flat_map (injected (hts ++ ts)) (seq 0 (w_nodes w)) = flat_map (injected hts) (seq 0 (w_nodes w))).
  { apply flat_ext. intros n Hn. apply in_seq in Hn. clear N' B'. induction ts as [|t ts IH] using rev_ind; [rewrite app_nil_r; reflexivity|]. rewrite app_assoc, (quiet_inj w (hts ++ ts) t n); [|lia|apply Q; apply in_app_iff; right; left; auto]. apply IH. intros; apply Q. apply in_app_iff. auto. }
  assert (I2 : length (flat_map (ejected hzs) (seq 0 (w_nodes w))) <= length (flat_map (ejected (hzs ++ zs)) (seq 0 (w_nodes w)))).
  { clear. induction (seq 0 (w_nodes w)) as [|d l IH]; [cbn; lia|]. cbn [flat_map]. assert (X : ejected (hzs ++ zs) d = ejected hzs d ++ ejected zs d) by (unfold ejected; apply flat_map_app). rewrite X, !app_length. lia. }
  rewrite I1 in B'. destruct (inside w s'); [reflexivity|]. cbn [length] in B'. lia.
Qed.
Lemma drain_from : forall D k ts hts hzs s xs ys old, 0 < D -> k * D <= length ts -> NI P w ok hts hzs s xs ys -> ndecent_from w ok hts hzs ts s -> chain old ts ->
  (forall t, In t ts -> honest w t /\ quiet w t /\ giving w t) -> (forall t, In t (hts ++ ts) -> leads w ok t /\ set_out w t) -> whole w hts ->
  (forall l1 l2 l3 s1 z1, ts = l1 ++ l2 ++ l3 -> length l2 = D -> net_run w l1 s = Some (s1, z1) -> eager w slots (hts ++ l1) (hzs ++ z1) l2) ->
  exists s' zs xs' ys', net_run w ts s = Some (s', zs) /\ NI P w ok (hts ++ ts) (hzs ++ zs) s' xs' ys' /\
    (inside w s' = [] \/ (np (hts ++ ts) (hzs ++ zs) (lastt old ts) s' + Z.of_nat k <= np hts hzs old s)%Z).
Proof.
  intros D k. induction k as [|k IH]; intros ts hts hzs s xs ys old Dp Lk N Dd Ch Hh Le Wh Ea.
  - destruct (run_from ts _ _ _ _ _ old N Dd Ch ltac:(intros t Ht; apply (Hh t Ht))) as [s' [zs [xs' [ys' [G [E [N' [G0 [Q _]]]]]]]]]. exists s', zs, xs', ys'. split; auto. split; auto. right.
    assert (Am : amount w (hts ++ ts) = amount w hts); [|rewrite Am in Q; lia]. unfold amount. f_equal. apply flat_ext. intros n Hn. apply in_seq in Hn. apply quiet_amount; [intros t Ht; apply (Hh t Ht)|lia].
  - set (l := firstn D ts). set (m := skipn D ts). assert (El : ts = l ++ m) by (symmetry; apply firstn_skipn). assert (Ll : length l = D) by (unfold l; rewrite firstn_length; cbn [Nat.mul] in Lk; lia).
    assert (Lm : k * D <= length m) by (unfold m; rewrite skipn_length; cbn [Nat.mul] in Lk; lia). clearbody l m. subst ts. apply chain_app in Ch. destruct Ch as [C1 C2]. destruct (ndecent_app _ _ _ _ _ _ _ _ Dd) as [D1 D2].
    assert (Hl : forall t, In t l -> honest w t /\ quiet w t /\ giving w t) by (intros; apply Hh; apply in_app_iff; auto).
    assert (Ql : forall n, n < w_nodes w -> injected (hts ++ l) n = injected hts n) by (apply quiet_amount; intros t Ht; apply (Hl t Ht)).
    destruct (run_from l _ _ _ _ _ old N D1 C1 ltac:(intros t Ht; apply (Hl t Ht))) as [s1 [z1 [xs1 [ys1 [G [E1 [N1 [G0 [Q L]]]]]]]]].
    destruct (IH m (hts ++ l) (hzs ++ z1) s1 xs1 ys1 (lastt old l)) as [s2 [z2 [xs2 [ys2 [E2 [N2 R]]]]]]; auto.
    { intros t Ht. apply Hh. apply in_app_iff. auto. }
    { intros t Ht. apply Le. rewrite app_assoc. exact Ht. }
    { intros n v Hn. rewrite (Ql n Hn). apply Wh. exact Hn. }
    { intros l1 l2 l3 s3 z3 Em L2 Er. rewrite <- !app_assoc. apply (Ea (l ++ l1) l2 l3 s3 (z1 ++ z3)); auto; [rewrite Em, <- app_assoc; reflexivity|]. eapply net_run_app; eauto. }
    rewrite <- !app_assoc in N2, R. exists s2, (z1 ++ z2), xs2, ys2. split; [eapply net_run_app; eauto|]. split; auto. assert (Lt : forall a b o, lastt o (a ++ b) = lastt (lastt o a) b) by (intros a; induction a as [|x a IHa]; intros; [reflexivity|apply IHa]). rewrite Lt.
    destruct R as [R|R]; [left; exact R|].
    assert (Am : amount w (hts ++ l) = amount w hts) by (unfold amount; f_equal; apply flat_ext; intros n Hn; apply in_seq in Hn; apply Ql; lia). rewrite Am in Q.
    destruct L as [L|L]; [right; lia|]. destruct l as [|t l]; [cbn in Ll; lia|]. pose proof (L [] t l s [] eq_refl eq_refl) as Nl.
    destruct (rests hts hzs s xs ys t N (proj1 D1)) as [X|[X|X]]; auto.
    { intros u Hu. apply Le. apply in_app_iff. auto. }
    { apply (Hl t (or_introl eq_refl)). }
    + left. apply (stays_empty ((t :: l) ++ m) hts hzs s xs ys s2 (z1 ++ z2) xs2 ys2 N N2); auto. intros u Hu. apply (Hh u Hu).
    + exfalso. pose proof (Ea [] (t :: l) m s [] eq_refl Ll eq_refl) as Ee. rewrite !app_nil_r in Ee. destruct (Ee X) as [u [d [Hu [Hd Hc]]]]. apply in_split in Hu. destruct Hu as [l1 [l2 El]].
      assert (Er : exists s3 z3, net_run w l1 s = Some (s3, z3)).
      { rewrite El in E1. clear - E1. revert s s1 z1 E1. induction l1 as [|a l1 IHl]; intros; [cbn; eauto|]. cbn [app net_run] in *. destruct (net_step w a s) as [[s' z']|]; [|discriminate]. destruct (net_run w (l1 ++ u :: l2) s') as [[s4 z4]|] eqn:E; [|discriminate].
        destruct (IHl _ _ _ E) as [s5 [z5 ->]]. eauto. }
      destruct Er as [s3 [z3 Er]]. apply (L l1 u l2 s3 z3 El Er). right. right. left. exists d. auto.
    + exfalso. destruct X as [n [v [q [Hn [_ [X _]]]]]]. rewrite (Wh n v Hn) in X. discriminate.
Qed.
Definition start : Z := np [] [] 0%Z (net0 P w).
Lemma start_any : forall old, np [] [] old (net0 P w) = start.
Proof.
  intros old. unfold start, np, npot. f_equal. f_equal. f_equal. apply total_ext. intros r _. unfold rt. cbn [net0 n_rt]. rewrite nth_repeat. reflexivity.
Qed.
Definition bound : nat := Z.to_nat (1 + start + per_flit).
Lemma per_pos : (0 <= per_flit)%Z.
Proof. apply total_pos. exact per_flit_pos. Qed.
Lemma drains : forall D ts1 ts2, 0 < D -> ndecent_run P w ok (ts1 ++ ts2) -> rising (ts1 ++ ts2) -> (forall t, In t (ts1 ++ ts2) -> leads w ok t /\ set_out w t /\ honest w t) -> whole w ts1 ->
  (forall t, In t ts2 -> quiet w t /\ giving w t) -> (forall l1 l2 l3 s zs, ts2 = l1 ++ l2 ++ l3 -> length l2 = D -> net_run w (ts1 ++ l1) (net0 P w) = Some (s, zs) -> eager w slots (ts1 ++ l1) zs l2) ->
  bound * (1 + amount w ts1) * D <= length ts2 ->
  exists s zs, net_run w (ts1 ++ ts2) (net0 P w) = Some (s, zs) /\ inside w s = [] /\ Permutation (map tag (flat_map (injected ts1) (seq 0 (w_nodes w)))) (map tag (flat_map (ejected zs) (seq 0 (w_nodes w)))).
Proof.
  intros D ts1 ts2 Dp Dd Ri Le Wh Q Ea Hb. destruct (rising_start _ Ri) as [old Ch]. apply chain_app in Ch. destruct Ch as [Ch1 Ch2]. destruct (ndecent_app _ _ _ _ _ _ _ _ Dd) as [Da Db].
  destruct (run_from ts1 [] [] _ _ _ old (ni0 P w ok SP) Da Ch1) as [s1 [z1 [xs1 [ys1 [G [E1 [N1 [G0 [B1 _]]]]]]]]]; [intros t Ht; apply Le; apply in_app_iff; auto|]. cbn [app] in N1, B1. rewrite start_any in B1.
  destruct (drain_from D (bound * (1 + amount w ts1)) ts2 ts1 z1 s1 xs1 ys1 (lastt old ts1) Dp Hb N1 (Db _ _ E1) Ch2) as [s2 [z2 [xs2 [ys2 [E2 [N2 B2]]]]]]; auto.
  - intros t Ht. destruct (Q t Ht). split; auto. apply Le. apply in_app_iff. auto.
  - intros t Ht. destruct (Le t Ht) as [A1 [A2 _]]. auto.
  - intros l1 l2 l3 s3 z3 El L2 Er. apply (Ea l1 l2 l3 s3); auto. eapply net_run_app; eauto.
  - exists s2, (z1 ++ z2). split; [eapply net_run_app; eauto|].
    assert (Em : inside w s2 = []).
    { destruct B2 as [B2|B2]; auto. exfalso. pose proof (npot_nonneg P w ok dist _ _ (lastt (lastt old ts1) ts2) _ _ _ N2) as Np. fold np in Np.
      pose proof per_pos. assert (S0 : (0 <= start)%Z) by (apply (npot_nonneg P w ok dist _ _ _ _ _ _ (ni0 P w ok SP))). unfold bound in Hb. change (amount w []) with (length (flat_map (injected []) (seq 0 (w_nodes w)))) in B1.
      assert (Z0 : length (flat_map (injected []) (seq 0 (w_nodes w))) = 0) by (unfold injected; cbn [flat_map]; rewrite flat_nil; reflexivity). rewrite Z0 in B1. clear Hb.
      unfold bound in B2. rewrite Nat2Z.inj_mul, Z2Nat.id in B2 by lia. nia. }
    split; auto. pose proof (net_balance P w ok W SP _ _ _ _ _ N2) as Ba. rewrite Em, app_nil_r in Ba. etransitivity; [|exact Ba].
    rewrite (flat_ext _ _ (injected ts1) (injected (ts1 ++ ts2))); [reflexivity|]. intros n Hn. apply in_seq in Hn. clear - Q Hn. induction ts2 as [|t ts2 IH] using rev_ind; [rewrite app_nil_r; reflexivity|].
    rewrite app_assoc, (quiet_inj w (ts1 ++ ts2) t n); [|lia|apply Q; apply in_app_iff; right; left; auto]. apply IH. intros t0 Ht0. apply Q. apply in_app_iff. auto.
Qed.
End Net.
