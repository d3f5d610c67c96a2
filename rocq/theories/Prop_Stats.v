(** C124: the statistics of BookSim. *)
From Coq Require Import QArith Qround ZArith Bool List Lia Lqa Field.
From Verif Require Import InjectionModel StatsModel StatsSpec.
Import ListNotations.
Open Scope Q_scope.

Lemma floor_ge : forall size v b, 0 < size -> (inject_Z b * size <= v <-> (b <= Qfloor (v / size))%Z).
Proof.
  intros size v b H. split; intros K.
  - rewrite <- (Qfloor_Z b). apply Qfloor_resp_le. apply Qle_shift_div_l; assumption.
  - assert (E : inject_Z b <= v / size) by (eapply Qle_trans; [ rewrite <- Zle_Qle; exact K | apply Qfloor_le ]).
    apply (Qmult_le_compat_r _ _ size) in E; [ | lra ].
    assert (F : v / size * size == v) by (field; lra). rewrite F in E. exact E.
Qed.
Lemma qle_bool_floor : forall size v b, 0 < size -> Qle_bool (inject_Z b * size) v = (b <=? Qfloor (v / size))%Z.
Proof.
  intros size v b H. apply eq_true_iff_eq. rewrite Qle_bool_iff, Z.leb_le. apply floor_ge. exact H.
Qed.
Lemma bin_in : forall size n b v, 0 < size -> (b < n)%nat -> in_bin size n b v = (stats_bin size n v =? Z.of_nat b)%Z.
Proof.
  intros size n b v H L. unfold in_bin, stats_bin. rewrite !qle_bool_floor by exact H. set (f := Qfloor (v / size)).
  rewrite Z.geb_leb.
  destruct (Nat.eqb_spec b 0), (Nat.eqb_spec (S b) n), (Z.leb_spec (Z.of_nat b) f), (Z.leb_spec (Z.of_nat (S b)) f), (Z.leb_spec (Z.of_nat n) (Z.max f 0)); cbn [orb andb negb]; symmetry;
    first [ apply Z.eqb_eq; lia | apply Z.eqb_neq; lia ].
Qed.
Lemma bin_range : forall size n v, (0 < n)%nat -> (0 <= stats_bin size n v < Z.of_nat n)%Z.
Proof. intros size n v H. unfold stats_bin. rewrite Z.geb_leb. destruct (Z.leb_spec (Z.of_nat n) (Z.max (Qfloor (v / size)) 0)); lia. Qed.

Lemma adds_snoc : forall size n vs v s, stats_adds size n (vs ++ [v]) s = match stats_adds size n vs s with Some s' => stats_add size n v s' | None => None end.
Proof.
  intros size n vs. induction vs as [ | a r IH ]; intros v s; cbn; [ destruct (stats_add size n v s); reflexivity | ].
  destruct (stats_add size n a s); [ apply IH | reflexivity ].
Qed.
Lemma upd_nth : forall (l : list Z) i x j, (i < length l)%nat -> nth j (firstn i l ++ x :: skipn (S i) l) 0%Z = if (i =? j)%nat then x else nth j l 0%Z.
Proof.
  intros l. induction l as [ | a l IH ]; intros i x j L; [ cbn in L; lia | ].
  destruct i, j; try reflexivity. cbn [firstn app nth skipn Nat.eqb]. apply IH. cbn in L. lia.
Qed.
Lemma upd_len : forall (l : list Z) i x, (i < length l)%nat -> length (firstn i l ++ x :: skipn (S i) l) = length l.
Proof. intros l i x L. rewrite app_length, firstn_length. cbn [length]. rewrite skipn_length. lia. Qed.
Lemma qsum_snoc : forall vs v, qsum (vs ++ [v]) == qsum vs + v.
Proof. intros vs v. unfold qsum. induction vs as [ | a r IH ]; cbn; [ ring | rewrite IH; ring ]. Qed.

(** The number of samples, the sum, the least and the greatest sample, and how many samples are in each bin, are those of the samples added since Clear. *)
Theorem C124_counts : forall size n vs, 0 < size -> (0 < n)%nat -> exists s, stats_adds size n vs (stats_clear n) = Some s /\
  s_num s = Z.of_nat (length vs) /\ s_sum s == qsum vs /\ length (s_hist s) = n /\
  (forall b, (b < n)%nat -> nth b (s_hist s) 0%Z = Z.of_nat (length (filter (in_bin size n b) vs))) /\
  match s_min s with Some m => In m vs /\ (forall v, In v vs -> m <= v) | None => vs = [] end /\
  match s_max s with Some m => In m vs /\ (forall v, In v vs -> v <= m) | None => vs = [] end.
Proof.
  intros size n vs H N. induction vs as [ | v vs IH ] using rev_ind.
  - exists (stats_clear n). cbn. repeat split; try reflexivity; [ apply repeat_length | ]. intros b _. apply nth_repeat.
  - destruct IH as (s & E & Hn & Hs & Hl & Hh & Hmin & Hmax).
    rewrite adds_snoc, E. unfold stats_add. pose proof (bin_range size n v N) as R. set (b := stats_bin size n v) in *.
    destruct (Z.ltb_spec b 0); [ lia | ].
    destruct (nth_error (s_hist s) (Z.to_nat b)) as [ h | ] eqn:Eh; [ | apply nth_error_None in Eh; lia ].
    assert (L : (Z.to_nat b < length (s_hist s))%nat) by lia.
    eexists. split; [ reflexivity | ]. cbn [s_num s_sum s_hist s_min s_max].
    split; [ rewrite Hn, app_length; cbn [length]; lia | ]. split; [ rewrite qsum_snoc, Hs; reflexivity | ].
    split; [ rewrite upd_len by exact L; exact Hl | ]. split.
    { intros j J. rewrite upd_nth by exact L. rewrite filter_app, app_length. cbn [filter].
      rewrite (bin_in size n j v H J). fold b.
      apply nth_error_nth with (d := 0%Z) in Eh.
      destruct (Nat.eqb_spec (Z.to_nat b) j) as [ e | e ].
      - subst j. rewrite <- Eh, Hh by exact J. destruct (Z.eqb_spec b (Z.of_nat (Z.to_nat b))); [ cbn [length]; lia | lia ].
      - rewrite Hh by exact J. destruct (Z.eqb_spec b (Z.of_nat j)); [ lia | cbn [length]; lia ]. }
    split.
    + unfold stats_min. destruct (s_min s) as [ m | ].
      * destruct Hmin as [ A B ]. destruct (Qle_bool m v) eqn:Q; cbn [negb].
        -- apply Qle_bool_iff in Q. split; [ apply in_or_app; left; exact A | ]. intros x X. apply in_app_or in X. destruct X as [ X | [ <- | [] ] ]; [ exact (B x X) | exact Q ].
        -- assert (K : v < m) by (apply Qnot_le_lt; intro K; apply Qle_bool_iff in K; congruence).
           split; [ apply in_or_app; right; left; reflexivity | ]. intros x X. apply in_app_or in X. destruct X as [ X | [ <- | [] ] ]; [ specialize (B x X); lra | lra ].
      * subst vs. split; [ left; reflexivity | ]. intros x [ <- | [] ]. lra.
    + unfold stats_max. destruct (s_max s) as [ m | ].
      * destruct Hmax as [ A B ]. destruct (Qle_bool v m) eqn:Q; cbn [negb].
        -- apply Qle_bool_iff in Q. split; [ apply in_or_app; left; exact A | ]. intros x X. apply in_app_or in X. destruct X as [ X | [ <- | [] ] ]; [ exact (B x X) | exact Q ].
        -- assert (K : m < v) by (apply Qnot_le_lt; intro K; apply Qle_bool_iff in K; congruence).
           split; [ apply in_or_app; right; left; reflexivity | ]. intros x X. apply in_app_or in X. destruct X as [ X | [ <- | [] ] ]; [ specialize (B x X); lra | lra ].
      * subst vs. split; [ left; reflexivity | ]. intros x [ <- | [] ]. lra.
Qed.
Print Assumptions C124_counts.
Example C124_counts_ex : exists s, stats_adds 1 3 [4; -2 # 1; 1; 5 # 2] (stats_clear 3) = Some s /\ s_num s = 4%Z /\ s_sum s == 11 # 2 /\ s_min s = Some (-2 # 1) /\ s_max s = Some 4 /\ s_hist s = [1; 1; 2]%Z.
Proof. eexists. split; [ reflexivity | ]. repeat split. Qed.

(** Average is the mean of the samples, and has no value before the first sample. *)
Theorem C124_average : forall size n vs s, 0 < size -> (0 < n)%nat -> stats_adds size n vs (stats_clear n) = Some s ->
  match stats_average s with Some a => vs <> [] /\ a * inject_Z (Z.of_nat (length vs)) == qsum vs | None => vs = [] end.
Proof.
  intros size n vs s H N E. destruct (C124_counts size n vs H N) as (s' & E' & Hn & Hs & _). rewrite E in E'. injection E' as <-.
  unfold stats_average. rewrite Hn. destruct (Z.eqb_spec (Z.of_nat (length vs)) 0) as [ e | e ]; [ destruct vs; [ reflexivity | cbn in e; lia ] | ].
  split; [ intros ->; apply e; reflexivity | ]. rewrite Hs. field. intro K. apply e. unfold Qeq in K. cbn in K. lia.
Qed.
Print Assumptions C124_average.
Example C124_average_ex : exists s a, stats_adds 1 10 [1; 3] (stats_clear 10) = Some s /\ stats_average s = Some a /\ a == 2.
Proof. do 2 eexists. split; [ reflexivity | ]. split; reflexivity. Qed.

Lemma adds_sq : forall size n vs s s', stats_adds size n vs s = Some s' -> s_sq s' = s_sq s.
Proof.
  intros size n vs. induction vs as [ | v r IH ]; intros s s' E; cbn in E; [ congruence | ].
  destruct (stats_add size n v s) as [ t | ] eqn:A; [ | discriminate ]. rewrite (IH _ _ E). unfold stats_add in A.
  destruct (_ <? 0)%Z; [ discriminate | ]. destruct (nth_error _ _); [ | discriminate ]. injection A as <-. reflexivity.
Qed.
(** AddSample never adds to the sum of squares: it is always zero, and Variance returns the square of the average with the sign changed, which is never above zero,
    while the samples 1 and 3 have variance 1. *)
Theorem C124_variance_refuted :
  (forall size n vs s, stats_adds size n vs (stats_clear n) = Some s -> s_sq s = 0 /\
     (forall a x, stats_average s = Some a -> stats_variance s = Some x -> x == - (a * a) /\ x <= 0)) /\
  exists vs s x, stats_adds 1 10 vs (stats_clear 10) = Some s /\ ~ s_sq s == qsquares vs /\ stats_variance s = Some x /\ x < 0 /\ 0 < true_variance vs.
Proof.
  split.
  - intros size n vs s E. apply adds_sq in E. cbn in E. split; [ exact E | ]. intros a x. unfold stats_average, stats_variance. rewrite E.
    destruct (Z.eqb_spec (s_num s) 0) as [ e | e ]; [ discriminate | ]. intros A X. injection A as <-. injection X as <-.
    assert (NZ : ~ inject_Z (s_num s) == 0) by (intro K; apply e; unfold Qeq in K; cbn in K; lia).
    assert (F : (0 * inject_Z (s_num s) - s_sum s * s_sum s) / (inject_Z (s_num s) * inject_Z (s_num s)) == - (s_sum s / inject_Z (s_num s) * (s_sum s / inject_Z (s_num s)))) by (field; exact NZ).
    split; [ exact F | ]. rewrite F. set (q := s_sum s / inject_Z (s_num s)). nra.
  - exists [1; 3]. do 2 eexists. split; [ reflexivity | ]. split; [ intro K; discriminate K | ]. split; [ reflexivity | ]. split; reflexivity.
Qed.
Print Assumptions C124_variance_refuted.
Example C124_variance_refuted_ex : exists s a x, stats_adds 1 10 [1; 3] (stats_clear 10) = Some s /\ stats_average s = Some a /\ stats_variance s = Some x /\ x == -4 # 1 /\ true_variance [1; 3] == 1.
Proof. do 3 eexists. repeat split. Qed.
