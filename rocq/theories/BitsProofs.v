From Coq Require Import ZArith Bool Lia.
From Verif Require Import Bits.
Local Open Scope Z_scope.

Lemma ones_testbit : forall w i, 0 <= w -> 0 <= i -> Z.testbit (Z.ones w) i = (i <? w).
Proof.
  intros w i Hw Hi. destruct (Z.ltb_spec i w).
  - apply Z.ones_spec_low; lia.
  - apply Z.ones_spec_high; lia.
Qed.

Lemma get_testbit : forall hi lo v i, 0 <= lo -> lo <= hi + 1 -> 0 <= i ->
  Z.testbit (get hi lo v) i = (i <? hi - lo + 1) && Z.testbit v (lo + i).
Proof.
  intros. unfold get. rewrite Z.land_spec, Z.shiftr_spec, ones_testbit by lia.
  rewrite andb_comm. f_equal. f_equal. lia.
Qed.

Lemma set_testbit : forall hi lo v x i, 0 <= lo -> lo <= hi + 1 -> 0 <= i ->
  Z.testbit (set hi lo v x) i =
  if (lo <=? i) && (i <=? hi) then Z.testbit x (i - lo) else Z.testbit v i.
Proof.
  intros. unfold set.
  rewrite Z.lor_spec, Z.ldiff_spec, !Z.shiftl_spec by lia.
  destruct (Z.leb_spec lo i).
  - rewrite Z.land_spec, ones_testbit by lia.
    destruct (Z.leb_spec i hi); simpl.
    + replace (i - lo <? hi - lo + 1) with true by (symmetry; apply Z.ltb_lt; lia).
      rewrite !andb_false_r, !andb_true_r. reflexivity.
    + replace (i - lo <? hi - lo + 1) with false by (symmetry; apply Z.ltb_ge; lia).
      rewrite !andb_true_r, !andb_false_r, orb_false_r. reflexivity.
  - simpl. rewrite !(Z.testbit_neg_r _ (i - lo)) by lia. simpl. rewrite andb_true_r, orb_false_r. reflexivity.
Qed.

Lemma trunc_testbit : forall w x i, 0 <= w -> 0 <= i ->
  Z.testbit (trunc w x) i = (i <? w) && Z.testbit x i.
Proof. intros. unfold trunc. rewrite Z.land_spec, ones_testbit by lia. apply andb_comm. Qed.

Lemma trunc_mod : forall w x, 0 <= w -> trunc w x = x mod 2 ^ w.
Proof. intros. unfold trunc. apply Z.land_ones. lia. Qed.

Lemma trunc_small : forall w x, 0 <= w -> 0 <= x < 2 ^ w -> trunc w x = x.
Proof. intros. rewrite trunc_mod by lia. apply Z.mod_small. lia. Qed.

Lemma get_div_mod : forall hi lo v, 0 <= lo -> lo <= hi + 1 ->
  get hi lo v = (v / 2 ^ lo) mod 2 ^ (hi - lo + 1).
Proof. intros. unfold get. rewrite Z.land_ones, Z.shiftr_div_pow2 by lia. reflexivity. Qed.

Lemma get_range : forall hi lo v, 0 <= lo -> lo <= hi + 1 ->
  0 <= get hi lo v < 2 ^ (hi - lo + 1).
Proof. intros. rewrite get_div_mod by lia. apply Z.mod_pos_bound. apply Z.pow_pos_nonneg; lia. Qed.

Lemma trunc_range : forall w x, 0 <= w -> 0 <= trunc w x < 2 ^ w.
Proof. intros. rewrite trunc_mod by lia. apply Z.mod_pos_bound. apply Z.pow_pos_nonneg; lia. Qed.

Lemma testbit_small_high : forall x w i, 0 <= x < 2 ^ w -> 0 <= w <= i -> Z.testbit x i = false.
Proof.
  intros x w i Hx Hi. rewrite <- (Z.mod_small x (2 ^ w)) by lia.
  apply Z.mod_pow2_bits_high. lia.
Qed.

(** A value whose bits above [w] are all clear is below [2^w]. *)
Lemma bits_lt : forall x w, 0 <= x -> 0 <= w ->
  (forall i, w <= i -> Z.testbit x i = false) -> x < 2 ^ w.
Proof.
  intros x w Hx Hw Hb.
  assert (x = x mod 2 ^ w) as E.
  { apply Z.bits_inj'. intros i Hi. destruct (Z.ltb_spec i w).
    - rewrite Z.mod_pow2_bits_low by lia. reflexivity.
    - rewrite Z.mod_pow2_bits_high by lia. apply Hb. lia. }
  rewrite E. apply Z.mod_pos_bound. apply Z.pow_pos_nonneg; lia.
Qed.

(** Bit extensionality on the low [w] bits for values below [2^w]. *)
Lemma eq_bits : forall w x y, 0 <= w -> 0 <= x < 2 ^ w -> 0 <= y < 2 ^ w ->
  (forall i, 0 <= i < w -> Z.testbit x i = Z.testbit y i) -> x = y.
Proof.
  intros w x y Hw Hx Hy H. apply Z.bits_inj'. intros i Hi.
  destruct (Z.ltb_spec i w).
  - apply H. lia.
  - rewrite (testbit_small_high x w i), (testbit_small_high y w i) by lia. reflexivity.
Qed.

Lemma set_nonneg : forall hi lo v x, 0 <= lo -> lo <= hi + 1 -> 0 <= v -> 0 <= set hi lo v x.
Proof.
  intros. unfold set. apply Z.lor_nonneg. split.
  - apply Z.ldiff_nonneg. left. lia.
  - apply Z.shiftl_nonneg. rewrite Z.land_ones by lia.
    apply Z.mod_pos_bound. apply Z.pow_pos_nonneg; lia.
Qed.

Lemma get_set_same : forall hi lo v x, 0 <= lo -> lo <= hi + 1 ->
  get hi lo (set hi lo v x) = trunc (hi - lo + 1) x.
Proof.
  intros. apply Z.bits_inj'. intros i Hi.
  rewrite get_testbit, trunc_testbit by lia.
  destruct (Z.ltb_spec i (hi - lo + 1)); simpl; auto.
  rewrite set_testbit by lia.
  replace (lo <=? lo + i) with true by (symmetry; apply Z.leb_le; lia).
  replace (lo + i <=? hi) with true by (symmetry; apply Z.leb_le; lia). simpl.
  f_equal. lia.
Qed.

Lemma get_set_other : forall hi lo hi' lo' v x, 0 <= lo -> lo <= hi + 1 ->
  0 <= lo' -> lo' <= hi' + 1 -> hi < lo' \/ hi' < lo ->
  get hi lo (set hi' lo' v x) = get hi lo v.
Proof.
  intros. apply Z.bits_inj'. intros i Hi.
  rewrite !get_testbit by lia.
  destruct (Z.ltb_spec i (hi - lo + 1)); simpl; auto.
  rewrite set_testbit by lia.
  destruct (Z.leb_spec lo' (lo + i)); destruct (Z.leb_spec (lo + i) hi'); simpl; auto; lia.
Qed.

Lemma to_int_trunc : forall w x, 0 < w -> 0 <= x < 2 ^ w -> trunc w (to_int w x) = x.
Proof.
  intros w x Hw Hx. unfold to_int. rewrite trunc_mod by lia.
  destruct (Z.testbit x (w - 1)).
  - rewrite <- (Z.mod_small x (2 ^ w)) at 2 by lia.
    replace (x - 2 ^ w) with (x + (-1) * 2 ^ w) by lia.
    apply Z.mod_add. apply Z.pow_nonzero; lia.
  - apply Z.mod_small. lia.
Qed.
