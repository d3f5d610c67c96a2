From Coq Require Import ZArith Bool List Lia.
From Verif Require Import VcModel.
Import ListNotations.
Local Open Scope Z_scope.

Lemma in_range_iff : forall x vc, in_range x vc = true <-> fst x <= vc <= snd x.
Proof. intros. unfold in_range. rewrite andb_true_iff, !Z.leb_le. tauto. Qed.

Lemma inverse_master_in : forall r t vc,
  (forall a b x, (a = 0 \/ a = 1 \/ a = 2) -> (b = 0 \/ b = 1 \/ b = 2) -> a <> b ->
     ~ (fst (r a) <= x <= snd (r a) /\ fst (r b) <= x <= snd (r b))) ->
  (t = 0 \/ t = 1 \/ t = 2) ->
  fst (r t) <= vc <= snd (r t) -> inverse_vc_master r vc = Some t.
Proof.
  intros r t vc D T H. unfold inverse_vc_master, tAW, tAR, tW.
  destruct (in_range (r 1) vc) eqn:A.
  - apply in_range_iff in A. destruct (Z.eq_dec t 1) as [->|N]; auto. exfalso. apply (D t 1 vc); auto.
  - destruct (in_range (r 0) vc) eqn:B.
    + apply in_range_iff in B. destruct (Z.eq_dec t 0) as [->|N]; auto. exfalso. apply (D t 0 vc); auto.
    + destruct (in_range (r 2) vc) eqn:C.
      * apply in_range_iff in C. destruct (Z.eq_dec t 2) as [->|N]; auto. exfalso. apply (D t 2 vc); auto.
      * apply in_range_iff in H. destruct T as [->|[->| ->]]; congruence.
Qed.

Lemma inverse_slave_in : forall r t vc,
  (forall x, ~ (fst (r 3) <= x <= snd (r 3) /\ fst (r 4) <= x <= snd (r 4))) ->
  (t = 3 \/ t = 4) ->
  fst (r t) <= vc <= snd (r t) -> inverse_vc_slave r vc = Some t.
Proof.
  intros r t vc D T H. unfold inverse_vc_slave, tR, tB.
  destruct (in_range (r 3) vc) eqn:A.
  - apply in_range_iff in A. destruct T as [->| ->]; auto. exfalso. apply (D vc); auto.
  - destruct (in_range (r 4) vc) eqn:B.
    + apply in_range_iff in B. destruct T as [->| ->]; auto. apply in_range_iff in H. congruence.
    + apply in_range_iff in H. destruct T as [->| ->]; congruence.
Qed.

Lemma vcid_begin : forall r t, 0 <= t <= 4 -> vcid_from_type r t = fst (r t).
Proof.
  intros r t H. unfold vcid_from_type. assert (t = 0 \/ t = 1 \/ t = 2 \/ t = 3 \/ t = 4) as C by lia.
  destruct C as [->|[->|[->|[->| ->]]]]; reflexivity.
Qed.

Lemma gen_loop_length : forall n per c, length (gen_loop n per c) = n.
Proof. induction n; intros; cbn; auto. Qed.

Lemma gen_loop_nth : forall n per c k x, nth_error (gen_loop n per c) k = Some x ->
  x = (c + Z.of_nat k * per, c + Z.of_nat k * per + per - 1).
Proof.
  induction n as [|n IH]; intros per c k x H; [destruct k; discriminate|].
  destruct k as [|k]; cbn [gen_loop nth_error] in H.
  - inversion H. f_equal; lia.
  - apply IH in H. subst. f_equal; lia.
Qed.

Lemma gen_accept : forall vcs types l, gen_ranges vcs types = Some l -> 1 <= types ->
  types <= 5 /\ vcs = types * (vcs / types) /\ l = gen_loop (Z.to_nat types) (vcs / types) 0.
Proof.
  intros vcs types l H T. unfold gen_ranges in H.
  destruct (Z.eqb_spec types 0); [lia|]. destruct (Z.eqb_spec (vcs mod types) 0); [|discriminate].
  cbn [negb] in H. destruct (Z.ltb_spec 5 types); [discriminate|]. inversion H.
  split; [lia|]. split; auto. apply Z.div_exact; lia.
Qed.

Lemma gen_partition : forall vcs types l, gen_ranges vcs types = Some l -> 1 <= vcs -> 1 <= types ->
  Z.of_nat (length l) = types /\
  (forall k x, nth_error l k = Some x -> 0 <= fst x <= snd x /\ snd x < vcs /\ snd x - fst x + 1 = vcs / types) /\
  (forall vc, 0 <= vc < vcs -> exists k x, nth_error l k = Some x /\ fst x <= vc <= snd x) /\
  (forall k1 k2 x1 x2 vc, nth_error l k1 = Some x1 -> nth_error l k2 = Some x2 ->
     fst x1 <= vc <= snd x1 -> fst x2 <= vc <= snd x2 -> k1 = k2).
Proof.
  intros vcs types l H V T. destruct (gen_accept _ _ _ H T) as (T5 & E & ->).
  remember (vcs / types) as per.
  assert (P : 1 <= per) by nia.
  rewrite gen_loop_length. split; [lia|].
  assert (B : forall k x, nth_error (gen_loop (Z.to_nat types) per 0) k = Some x ->
     x = (Z.of_nat k * per, Z.of_nat k * per + per - 1) /\ Z.of_nat k < types).
  { intros k x Hk. split.
    - apply gen_loop_nth in Hk. exact Hk.
    - assert (k < length (gen_loop (Z.to_nat types) per 0))%nat by (apply nth_error_Some; rewrite Hk; discriminate).
      rewrite gen_loop_length in H0. lia. }
  split; [|split].
  - intros k x Hk. destruct (B _ _ Hk) as (-> & L). cbn [fst snd]. nia.
  - intros vc Hv. set (k := Z.to_nat (vc / per)).
    assert (K : 0 <= vc / per < types).
    { split; [apply Z.div_pos; lia|]. apply Z.div_lt_upper_bound; nia. }
    destruct (nth_error (gen_loop (Z.to_nat types) per 0) k) as [x|] eqn:N.
    + exists k, x. split; auto. destruct (B _ _ N) as (-> & L). cbn [fst snd]. unfold k. rewrite Z2Nat.id by lia.
      pose proof (Z.div_mod vc per ltac:(lia)). pose proof (Z.mod_pos_bound vc per ltac:(lia)). nia.
    + apply nth_error_None in N. rewrite gen_loop_length in N. unfold k in N. lia.
  - intros k1 k2 x1 x2 vc N1 N2 H1 H2. destruct (B _ _ N1) as (-> & L1). destruct (B _ _ N2) as (-> & L2).
    cbn [fst snd] in *. nia.
Qed.

Lemma configured_nth : forall l t x, 0 <= t -> nth_error l (Z.to_nat t) = Some x -> configured l t = x.
Proof.
  intros l t x T H. unfold configured. destruct (Z.leb_spec 0 t); [|lia]. apply nth_error_nth; auto.
Qed.

Lemma five_types : forall vcs l, gen_ranges vcs 5 = Some l -> 1 <= vcs ->
  forall t, 0 <= t <= 4 -> exists x, nth_error l (Z.to_nat t) = Some x /\ configured l t = x.
Proof.
  intros vcs l H V t T. destruct (gen_partition _ _ _ H V ltac:(lia)) as (L & _).
  destruct (nth_error l (Z.to_nat t)) as [x|] eqn:N.
  - exists x. split; auto. apply configured_nth; auto. lia.
  - apply nth_error_None in N. lia.
Qed.

Lemma config_roundtrip : forall vcs l, gen_ranges vcs 5 = Some l -> 1 <= vcs ->
  let r := configured l in
  forall t, 0 <= t <= 4 ->
    0 <= vcid_from_type r t < vcs /\
    (if t <? 3 then inverse_vc_master r (vcid_from_type r t) else inverse_vc_slave r (vcid_from_type r t)) = Some t.
Proof.
  intros vcs l H V r t T. destruct (gen_partition _ _ _ H V ltac:(lia)) as (L & S & _ & D).
  assert (X : forall t, 0 <= t <= 4 -> nth_error l (Z.to_nat t) = Some (r t)).
  { intros u U. destruct (five_types _ _ H V u U) as (x & A & B). unfold r. congruence. }
  assert (DD : forall a b x, 0 <= a <= 4 -> 0 <= b <= 4 -> a <> b ->
     ~ (fst (r a) <= x <= snd (r a) /\ fst (r b) <= x <= snd (r b))).
  { intros a b x A B N (C1 & C2). pose proof (D _ _ _ _ x (X a A) (X b B) C1 C2). lia. }
  destruct (S _ _ (X t T)) as (S1 & S2 & S3).
  rewrite vcid_begin by auto. split; [lia|].
  destruct (Z.ltb_spec t 3).
  - apply inverse_master_in; [|lia|lia]. intros a b x A B N. apply DD; auto; lia.
  - apply inverse_slave_in; [|lia|lia]. intros x. apply DD; lia.
Qed.
