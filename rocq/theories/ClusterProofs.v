From Coq Require Import ZArith Bool List Lia.
From Verif Require Import ClusterModel.
Import ListNotations.

Lemma upd_nth_spec : forall f l i l', upd_nth i f l = Some l' ->
  length l' = length l /\ forall j, nth_error l' j = if Nat.eqb j i then option_map f (nth_error l j) else nth_error l j.
Proof.
  intros f. induction l as [|r t IH]; intros i l' H; [destruct i; discriminate|]. destruct i as [|i]; cbn in H.
  - inversion H; subst. split; auto. intros [|j]; auto.
  - destruct (upd_nth i f t) as [t'|] eqn:E; [|discriminate]. inversion H; subst. destruct (IH _ _ E) as [A B].
    split; [cbn; auto|]. intros [|j]; cbn; auto.
Qed.

Definition is_done (i : nat) (e : rev) := e = SetDone i.
Definition is_fail (i : nat) (e : rev) := e = ReportFailure i.

Lemma rsteps_spec : forall es l l', rsteps es l = Some l' ->
  length l' = length l /\
  forall i r, nth_error l i = Some r -> exists r', nth_error l' i = Some r' /\
    (rad_done r' = true <-> rad_done r = true \/ In (SetDone i) es) /\
    (sim_exit_code r' = if in_dec Nat.eq_dec i (flat_map (fun e => match e with ReportFailure j => [j] | _ => [] end) es) then 1%Z else sim_exit_code r).
Proof.
  induction es as [|e es IH]; intros l l' H; cbn in H.
  - inversion H; subst. split; auto. intros i r Hr. exists r. split; auto. split; [cbn; tauto|].
    destruct (in_dec _ _ _) as [X|X]; [destruct X|auto].
  - destruct (rstep e l) as [l1|] eqn:E; [|discriminate]. destruct (IH _ _ H) as [A B].
    assert (E' : exists j f, upd_nth j f l = Some l1 /\ ((e = SetDone j /\ f = fun r => {| rad_done := true; sim_exit_code := sim_exit_code r |}) \/
       (e = ReportFailure j /\ f = fun r => {| rad_done := rad_done r; sim_exit_code := 1 |}))).
    { destruct e; cbn in E; eauto 8. }
    destruct E' as (j & f & U & K). destruct (upd_nth_spec _ _ _ _ U) as [U1 U2]. split; [congruence|].
    intros i r Hr. specialize (U2 i). rewrite Hr in U2. cbn in U2.
    destruct (Nat.eqb_spec i j) as [->|N].
    + destruct (B _ _ U2) as (r' & X & Y & Z). exists r'. split; auto. destruct K as [[-> ->]|[-> ->]]; cbn [rad_done sim_exit_code] in *.
      * split; [rewrite Y; cbn; intuition|]. cbn [flat_map app]. rewrite Z. auto.
      * split; [rewrite Y; cbn; intuition; discriminate|]. rewrite Z. cbn [flat_map app].
        destruct (in_dec Nat.eq_dec j (j :: _)) as [W|W]; [|exfalso; apply W; left; auto]. destruct (in_dec _ _ _); auto.
    + destruct (B _ _ U2) as (r' & X & Y & Z). exists r'. split; auto. destruct K as [[-> ->]|[-> ->]]; cbn [flat_map app].
      * split; [rewrite Y; cbn; intuition; congruence|]. auto.
      * split; [rewrite Y; cbn; intuition; congruence|]. rewrite Z.
        destruct (in_dec Nat.eq_dec i (flat_map _ es)) as [W|W], (in_dec Nat.eq_dec i (j :: _)) as [V|V]; auto.
        -- exfalso. apply V. right. auto.
        -- destruct V; [congruence|contradiction].
Qed.

Lemma not_done_spec : forall l, all_rads_not_done l = false <-> forall i r, nth_error l i = Some r -> rad_done r = true.
Proof.
  induction l as [|r t IH]; cbn.
  - split; auto. intros _ [|i] r H; discriminate.
  - destruct (rad_done r) eqn:D; cbn.
    + rewrite IH. split.
      * intros H [|i] q; cbn; [intros X; inversion X; subst; auto|apply H].
      * intros H i q Hq. apply (H (S i) q Hq).
    + split; [discriminate|]. intros H. specialize (H 0%nat r eq_refl). congruence.
Qed.

Lemma rsteps_app : forall a b l, rsteps (a ++ b) l = match rsteps a l with Some l' => rsteps b l' | None => None end.
Proof. induction a as [|e a IH]; intros b l; cbn; auto. destruct (rstep e l); auto. Qed.

Lemma loop_stop : forall ticks l k l2, main_loop ticks l = Stopped k l2 ->
  (k <= length ticks)%nat /\ rsteps (concat (firstn k ticks)) l = Some l2 /\ all_rads_not_done l2 = false /\
  forall j, (j < k)%nat -> exists lj, rsteps (concat (firstn j ticks)) l = Some lj /\ all_rads_not_done lj = true.
Proof.
  induction ticks as [|t ts IH]; intros l k l2 H; cbn in H; destruct (all_rads_not_done l) eqn:N; try discriminate.
  - inversion H; subst. cbn. repeat split; auto. intros; lia.
  - destruct (rsteps t l) as [l1|] eqn:E; [|discriminate]. destruct (main_loop ts l1) as [| |k1 l3] eqn:M; try discriminate.
    inversion H; subst. destruct (IH _ _ _ M) as (A & B & C & D). cbn. rewrite rsteps_app, E. split; [lia|]. split; auto. split; auto.
    intros [|j] Hj; cbn; [eauto|]. rewrite rsteps_app, E. apply D. lia.
  - inversion H; subst. cbn. split; [lia|]. repeat split; auto. intros; lia.
Qed.

Lemma loop_run : forall ticks l, main_loop ticks l = Running -> exists l2, rsteps (concat ticks) l = Some l2 /\ all_rads_not_done l2 = true.
Proof.
  induction ticks as [|t ts IH]; intros l H; cbn in H; destruct (all_rads_not_done l) eqn:N; try discriminate.
  - exists l. auto.
  - destruct (rsteps t l) as [l1|] eqn:E; [|discriminate]. destruct (main_loop ts l1) as [| |k1 l3] eqn:M; try discriminate.
    destruct (IH _ M) as (l2 & A & B). exists l2. cbn. rewrite rsteps_app, E. auto.
Qed.

Lemma cluster0_nth : forall n i, (i < n)%nat -> nth_error (cluster0 n) i = Some rad0.
Proof. induction n; intros [|i] H; cbn; try lia; auto. apply IHn. lia. Qed.

Lemma all_done_after : forall n es l, rsteps es (cluster0 n) = Some l ->
  (all_rads_not_done l = false <-> forall i, (i < n)%nat -> In (SetDone i) es).
Proof.
  intros n es l H. destruct (rsteps_spec _ _ _ H) as [A B]. unfold cluster0 in A. rewrite repeat_length in A.
  rewrite not_done_spec. split.
  - intros D i Hi. destruct (B i rad0 (cluster0_nth n i Hi)) as (r' & X & Y & _). specialize (D i r' X).
    apply Y in D. destruct D as [D|D]; auto. discriminate D.
  - intros D i r Hr. assert (Hi : (i < n)%nat) by (rewrite <- A; apply nth_error_Some; congruence).
    destruct (B i rad0 (cluster0_nth n i Hi)) as (r' & X & Y & _). rewrite Hr in X. inversion X; subst. apply Y. right. auto.
Qed.

Lemma stop_exact : forall n ticks k l, main_loop ticks (cluster0 n) = Stopped k l ->
  (forall i, (i < n)%nat -> In (SetDone i) (concat (firstn k ticks))) /\
  (forall j, (j < k)%nat -> ~ forall i, (i < n)%nat -> In (SetDone i) (concat (firstn j ticks))).
Proof.
  intros n ticks k l H. destruct (loop_stop _ _ _ _ H) as (A & B & C & D). split.
  - apply (all_done_after n _ _ B). auto.
  - intros j Hj F. destruct (D j Hj) as (lj & X & Y). apply (all_done_after n _ _ X) in F. congruence.
Qed.

Lemma runs_on : forall n ticks, main_loop ticks (cluster0 n) = Running ->
  ~ forall i, (i < n)%nat -> In (SetDone i) (concat ticks).
Proof. intros n ticks H F. destruct (loop_run _ _ H) as (l2 & A & B). apply (all_done_after n _ _ A) in F. congruence. Qed.

Lemma exit_zero_dev : forall n ticks k l c, main_loop ticks (cluster0 n) = Stopped k l -> exit_status l = Some c ->
  (c <> 0%Z <-> In (ReportFailure 0) (concat (firstn k ticks))).
Proof.
  intros n ticks k l c H E. destruct (loop_stop _ _ _ _ H) as (A & B & _). destruct (rsteps_spec _ _ _ B) as [L S].
  unfold cluster0 in L. rewrite repeat_length in L. destruct l as [|r l]; [discriminate|]. cbn in E. inversion E; subst.
  destruct (S 0%nat rad0) as (r' & X & _ & Z); [apply cluster0_nth; cbn in *; lia|]. cbn in X. inversion X; subst.
  rewrite Z. destruct (in_dec _ _ _) as [I|I]; cbn [rad0 sim_exit_code].
  - split; [intros _|discriminate]. apply in_flat_map in I. destruct I as ([j|j] & I1 & I2); [destruct I2|destruct I2 as [->|[]]]. auto.
  - split; [congruence|]. intros K. exfalso. apply I. apply in_flat_map. exists (ReportFailure 0). split; auto. left; auto.
Qed.
