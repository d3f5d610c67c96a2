(** C123: the injection processes of BookSim, and where the load they compute is not the one that was asked for. *)
From Coq Require Import QArith ZArith Bool List Lia Lqa.
From Verif Require Import InjectionModel.
Import ListNotations.
Open Scope Q_scope.

Lemma qlt_true : forall x y, qlt x y = true <-> x < y.
Proof. intros x y. unfold qlt. rewrite negb_true_iff. split; intros H; [apply Qnot_le_lt; intros L; apply Qle_bool_iff in L; congruence|]. destruct (Qle_bool y x) eqn:E; [|reflexivity]. apply Qle_bool_iff in E. exfalso. apply (Qlt_not_le _ _ H E). Qed.
Lemma qlt_false : forall x y, qlt x y = false <-> y <= x.
Proof. intros x y. unfold qlt. rewrite negb_false_iff. apply Qle_bool_iff. Qed.
Lemma qeq_false : forall x y, Qeq_bool x y = false -> ~ x == y.
Proof. intros x y E H. apply Qeq_bool_iff in H. congruence. Qed.

(** Whichever of the three parameters is computed, a source that is on the part [p] of the time at which it is turned on as often as off injects at the rate asked for. *)
Theorem C123_load : forall rate alpha beta r1 a b r p, onoff_new rate alpha beta r1 = Some (a, b, r) -> ~ a + b == 0 -> p * b == (1 - p) * a -> p * r == rate.
Proof.
  intros rate alpha beta r1 a b r p E N P. assert (R : r * a == rate * (a + b)).
  { unfold onoff_new in E. destruct (qlt 1 alpha || qlt 1 beta || qlt 1 r1); [discriminate|]. destruct (qlt alpha 0).
    - destruct (qlt beta 0 || qlt r1 0); [discriminate|]. destruct (Qeq_bool (r1 - rate) 0) eqn:Z0; [discriminate|]. injection E as <- <- <-. apply qeq_false in Z0. field. exact Z0.
    - destruct (qlt beta 0).
      + destruct (qlt r1 0); [discriminate|]. destruct (Qeq_bool rate 0) eqn:Z0; [discriminate|]. injection E as <- <- <-. apply qeq_false in Z0. field. exact Z0.
      + destruct (qlt r1 0); [|discriminate]. destruct (Qeq_bool alpha 0) eqn:Z0; [discriminate|]. injection E as <- <- <-. apply qeq_false in Z0. field. exact Z0. }
  assert (P2 : p * (a + b) == a) by (setoid_replace (p * (a + b)) with (p * a + p * b) by ring; rewrite P; ring).
  apply (Qmult_inj_r _ _ (a + b) N). setoid_replace (p * r * (a + b)) with (r * (p * (a + b))) by ring. rewrite P2. exact R.
Qed.
Print Assumptions C123_load.
Example C123_load_ex : onoff_params_ok (1 # 4) (1 # 4) (-1) = true /\ exists r, onoff_new (1 # 4) (1 # 4) (1 # 4) (-1) = Some (1 # 4, 1 # 4, r) /\ r == 1 # 2 /\ (1 # 2) * (1 # 4) == (1 - (1 # 2)) * (1 # 4).
Proof. split; [reflexivity|]. eexists. split; [reflexivity|]. split; reflexivity. Qed.

(** What is computed need not be a probability: with settings that New accepts, a source can be turned on with more than 1, and then injects less than asked for. *)
Theorem C123_probability_refuted : exists rate alpha beta r1 a b r, (exists n, inj_new n rate = Some (n, rate)) /\ onoff_params_ok alpha beta r1 = true /\ onoff_new rate alpha beta r1 = Some (a, b, r) /\
  1 < a /\ forall p, p * b == (1 - p) * 1 -> p * r < rate.
Proof.
  exists (1 # 2), (-1), 1, (3 # 5), (1 * (1 # 2) / ((3 # 5) - (1 # 2))), 1, (3 # 5). split; [exists 4%Z; reflexivity|]. split; [reflexivity|]. split; [reflexivity|]. split; [reflexivity|]. intros p H. lra.
Qed.
Print Assumptions C123_probability_refuted.
(** Or with less than 0, so that it is never turned on. *)
Theorem C123_never_refuted : exists rate alpha beta r1 a b r, (exists n, inj_new n rate = Some (n, rate)) /\ onoff_params_ok alpha beta r1 = true /\ onoff_new rate alpha beta r1 = Some (a, b, r) /\ 0 < rate /\
  forall u v st s, 0 <= u -> nth_error st s = Some false -> exists st', onoff_test (a, b, r) st u v s = Some (false, st') /\ nth_error st' s = Some false.
Proof.
  exists (1 # 2), (-1), 1, (1 # 4), (1 * (1 # 2) / ((1 # 4) - (1 # 2))), 1, (1 # 4). split; [exists 4%Z; reflexivity|]. split; [reflexivity|]. split; [reflexivity|]. split; [reflexivity|]. intros u v st s Hu Hs. unfold onoff_test. rewrite Hs.
  assert (F : qlt u (1 * (1 # 2) / ((1 # 4) - (1 # 2))) = false) by (apply qlt_false; apply Qle_trans with 0; [discriminate|exact Hu]). rewrite F. eexists. split; [reflexivity|].
  assert (L : (s < length st)%nat) by (apply nth_error_Some; congruence). rewrite nth_error_app2; rewrite firstn_length_le by lia; [|lia]. rewrite Nat.sub_diag. reflexivity.
Qed.
Print Assumptions C123_never_refuted.
(** And there may be a division by zero. *)
Theorem C123_divides_refuted : (forall rate beta, 0 <= rate <= 1 -> 0 <= beta <= 1 -> onoff_params_ok (-1) beta rate = true /\ onoff_new rate (-1) beta rate = None) /\
  (forall alpha r1, 0 <= alpha <= 1 -> 0 <= r1 <= 1 -> onoff_params_ok alpha (-1) r1 = true /\ onoff_new 0 alpha (-1) r1 = None).
Proof.
  assert (P : forall x, 0 <= x <= 1 -> qlt x 0 = false /\ qlt 1 x = false /\ Qle_bool 0 x = true) by (intros x [A B]; split; [apply qlt_false; auto|split; [apply qlt_false; auto|apply Qle_bool_iff; auto]]).
  split.
  - intros rate beta Hr Hb. destruct (P _ Hr) as [R1 [R2 R3]]. destruct (P _ Hb) as [B1 [B2 B3]]. unfold onoff_params_ok, onoff_new. rewrite R1, R2, B1, B2. change (qlt (-1) 0) with true. change (qlt 1 (-1)) with false. change (Qle_bool 0 (-1)) with false. split; [reflexivity|]. cbn [orb]. replace (Qeq_bool (rate - rate) 0) with true; [reflexivity|]. symmetry. apply Qeq_bool_iff. ring.
  - intros alpha r1 Ha Hr. destruct (P _ Hr) as [R1 [R2 R3]]. destruct (P _ Ha) as [B1 [B2 B3]]. unfold onoff_params_ok, onoff_new. rewrite R1, R2, B1, B2. change (qlt (-1) 0) with true. change (qlt 1 (-1)) with false. change (Qle_bool 0 (-1)) with false. rewrite B3. split; reflexivity.
Qed.
Print Assumptions C123_divides_refuted.
Example C123_divides_refuted_ex : inj_new 4 (1 # 2) = Some (4%Z, 1 # 2) /\ onoff_new (1 # 2) (-1) (1 # 3) (1 # 2) = None /\ exists a, onoff_new (1 # 2) (-1) (1 # 3) (3 # 4) = Some (a, 1 # 3, 3 # 4) /\ a == 2 # 3.
Proof. split; [reflexivity|]. split; [reflexivity|]. eexists. split; reflexivity. Qed.

(** A test moves the tested source alone, by the number drawn, and there is a packet only from a source that is then on. *)
Theorem C123_test : forall a b r st u v s, (s < length st)%nat -> exists g st' old new, onoff_test (a, b, r) st u v s = Some (g, st') /\ length st' = length st /\
  nth_error st s = Some old /\ nth_error st' s = Some new /\ (forall j, j <> s -> nth_error st' j = nth_error st j) /\
  (old = true -> (new = true <-> b <= u)) /\ (old = false -> (new = true <-> u < a)) /\ (g = true <-> new = true /\ v < r).
Proof.
  intros a b r st u v s Hs. unfold onoff_test. destruct (nth_error st s) as [o|] eqn:E; [|apply nth_error_None in E; lia]. set (w := if o then Qle_bool b u else qlt u a).
  assert (FL : length (firstn s st) = s) by (rewrite firstn_length_le by lia; reflexivity).
  eexists. eexists. exists o, w. split; [reflexivity|]. split; [rewrite app_length, FL; cbn [length]; rewrite skipn_length; lia|]. split; auto. split; [rewrite nth_error_app2; rewrite FL; [rewrite Nat.sub_diag; reflexivity|lia]|]. split; [|split; [|split]].
  - intros j N. destruct (Nat.lt_ge_cases j s) as [L|L].
    + rewrite nth_error_app1 by (rewrite FL; auto). rewrite <- (firstn_skipn s st) at 2. rewrite nth_error_app1 by (rewrite FL; auto). reflexivity.
    + rewrite nth_error_app2 by (rewrite FL; auto). rewrite FL. destruct (j - s)%nat as [|m] eqn:J; [lia|]. cbn [nth_error]. rewrite <- (firstn_skipn (S s) st) at 2. rewrite nth_error_app2 by (rewrite firstn_length_le; lia). rewrite firstn_length_le by lia. replace (j - S s)%nat with m by lia. reflexivity.
  - intros ->. unfold w. apply Qle_bool_iff.
  - intros ->. unfold w. apply qlt_true.
  - rewrite andb_true_iff, qlt_true. reflexivity.
Qed.
Print Assumptions C123_test.
Example C123_test_ex : onoff_test (1 # 2, 1 # 4, 1 # 2) [false; true; false] (1 # 3) (1 # 3) 0 = Some (true, [true; true; false]) /\ onoff_test (1 # 2, 1 # 4, 1 # 2) [false; true; false] (1 # 8) (1 # 3) 1 = Some (false, [false; false; false]).
Proof. split; reflexivity. Qed.

(** A Bernoulli source injects when the number drawn is below the rate, and only nodes that exist are tested. *)
Theorem C123_bernoulli : forall nodes rate u s, ((0 <= s < nodes)%Z -> exists g, bernoulli_test nodes rate u s = Some g /\ (g = true <-> u < rate)) /\ (~ (0 <= s < nodes)%Z -> bernoulli_test nodes rate u s = None) /\
  (inj_new nodes rate = Some (nodes, rate) <-> (0 < nodes)%Z /\ 0 <= rate <= 1).
Proof.
  intros nodes rate u s. unfold bernoulli_test, inj_new. split; [|split].
  - intros [A B]. apply Z.leb_le in A. apply Z.ltb_lt in B. rewrite A, B. eexists. split; [reflexivity|apply qlt_true].
  - intros N. destruct (Z.leb_spec 0 s); [|reflexivity]. destruct (Z.ltb_spec s nodes); [lia|reflexivity].
  - destruct (Z.leb_spec nodes 0); [split; [discriminate|lia]|]. destruct (qlt rate 0 || qlt 1 rate) eqn:E.
    + split; [discriminate|]. intros [_ [A B]]. apply orb_true_iff in E. destruct E as [E|E]; apply qlt_true in E; exfalso; lra.
    + apply orb_false_iff in E. destruct E as [E1 E2]. apply qlt_false in E1, E2. split; auto.
Qed.
Print Assumptions C123_bernoulli.
Example C123_bernoulli_ex : bernoulli_test 4 (1 # 2) (1 # 3) 3 = Some true /\ bernoulli_test 4 (1 # 2) (1 # 2) 3 = Some false /\ bernoulli_test 4 (1 # 2) 0 4 = None.
Proof. split; [reflexivity|]. split; reflexivity. Qed.
