From Coq Require Import ZArith Bool List Lia.
From Verif Require Import Bits BitsProofs AxisFormatModel.
Import ListNotations.
Local Open Scope Z_scope.

Section Fmt.
Variable c : widths.
Hypothesis Hl : 0 < linkw c.
Hypothesis Hd : 0 < maxdw c.
Hypothesis Hu : 0 <= userw c.

Lemma payloadw_pos : 0 < payloadw c.
Proof. unfold payloadw; lia. Qed.

Lemma pack_nonneg : forall l u d, 0 <= pack c l u d.
Proof.
  intros. unfold pack. repeat apply set_nonneg; lia.
Qed.

Lemma pack_testbit : forall l u d i, 0 <= i ->
  Z.testbit (pack c l u d) i =
  if i =? 0 then l
  else if i <=? userw c then Z.testbit u (i - 1)
  else if i <=? maxdw c + userw c then Z.testbit d (i - userw c - 1)
  else false.
Proof.
  intros. unfold pack. rewrite !set_testbit by lia.
  destruct (Z.eqb_spec i 0); subst.
  - replace (userw c + 1 <=? 0) with false by (symmetry; apply Z.leb_gt; lia). simpl.
    destruct l; reflexivity.
  - replace (i <=? 0) with false by (symmetry; apply Z.leb_gt; lia).
    rewrite (andb_false_r (0 <=? i)). rewrite Z.testbit_0_l.
    destruct (Z.leb_spec i (userw c)).
    + replace (userw c + 1 <=? i) with false by (symmetry; apply Z.leb_gt; lia).
      replace (1 <=? i) with true by (symmetry; apply Z.leb_le; lia). reflexivity.
    + replace (userw c + 1 <=? i) with true by (symmetry; apply Z.leb_le; lia).
      replace (1 <=? i) with true by (symmetry; apply Z.leb_le; lia). simpl.
      destruct (Z.leb_spec i (maxdw c + userw c)); auto.
      f_equal. lia.
Qed.

Lemma flit_payload_testbit : forall p i j, 0 <= i -> i * linkw c < payloadw c -> 0 <= j ->
  Z.testbit (flit_payload c p i) j =
  (j <? linkw c) && (i * linkw c + j <? payloadw c) && Z.testbit p (i * linkw c + j).
Proof.
  intros p i j Hi Hip Hj. unfold flit_payload.
  rewrite trunc_testbit by lia.
  assert (0 <= i * linkw c) by nia.
  rewrite get_testbit by lia.
  destruct (Z.ltb_spec j (linkw c)); simpl; auto.
  destruct (Z.ltb_spec (i * linkw c + j) (payloadw c)); simpl.
  - replace (j <? Z.min ((i + 1) * linkw c) (payloadw c) - 1 - i * linkw c + 1) with true; auto.
    symmetry. apply Z.ltb_lt. lia.
  - replace (j <? Z.min ((i + 1) * linkw c) (payloadw c) - 1 - i * linkw c + 1) with false; auto.
    symmetry. apply Z.ltb_ge. lia.
Qed.

Lemma place_flit_testbit : forall acc i p b, 0 <= i -> i * linkw c < payloadw c -> 0 <= b ->
  Z.testbit (place_flit c acc i p) b =
  if (i * linkw c <=? b) && (b <? (i + 1) * linkw c) && (b <? payloadw c)
  then Z.testbit p (b - i * linkw c) else Z.testbit acc b.
Proof.
  intros acc i p b Hi Hip Hb. unfold place_flit.
  assert (0 <= i * linkw c) by nia.
  rewrite set_testbit by lia.
  destruct (Z.leb_spec (i * linkw c) b); simpl; auto.
  destruct (Z.ltb_spec b ((i + 1) * linkw c)); destruct (Z.ltb_spec b (payloadw c)); simpl.
  - replace (b <=? Z.min (payloadw c) ((i + 1) * linkw c) - 1) with true
      by (symmetry; apply Z.leb_le; lia).
    rewrite get_testbit by lia.
    replace (b - i * linkw c <? linkw c - 1 - 0 + 1) with true
      by (symmetry; apply Z.ltb_lt; lia). reflexivity.
  - replace (b <=? Z.min (payloadw c) ((i + 1) * linkw c) - 1) with false
      by (symmetry; apply Z.leb_gt; lia). reflexivity.
  - replace (b <=? Z.min (payloadw c) ((i + 1) * linkw c) - 1) with false
      by (symmetry; apply Z.leb_gt; lia). reflexivity.
  - replace (b <=? Z.min (payloadw c) ((i + 1) * linkw c) - 1) with false
      by (symmetry; apply Z.leb_gt; lia). reflexivity.
Qed.

(** The reassembly of the flits [i .. i+n-1] of packet [p]. *)
Lemma place_flits_testbit : forall p n i acc b,
  ((i + n)%nat = O \/ Z.of_nat (i + n - 1) * linkw c < payloadw c) -> 0 <= b ->
  Z.testbit (place_flits c acc (Z.of_nat i)
     (map (fun k => flit_payload c p (Z.of_nat k)) (seq i n))) b =
  if (Z.of_nat i * linkw c <=? b) && (b <? Z.of_nat (i + n) * linkw c) && (b <? payloadw c)
  then Z.testbit p b else Z.testbit acc b.
Proof.
  intros p n. induction n as [|n IH]; intros i acc b Hn Hb.
  - simpl. rewrite Nat.add_0_r.
    destruct (Z.leb_spec (Z.of_nat i * linkw c) b); simpl; auto.
    replace (b <? Z.of_nat i * linkw c) with false by (symmetry; apply Z.ltb_ge; lia). reflexivity.
  - cbn [seq map place_flits].
    replace (Z.of_nat i + 1) with (Z.of_nat (S i)) by lia.
    assert (Hlast : Z.of_nat (S i + n - 1) * linkw c < payloadw c)
      by (replace (S i + n - 1)%nat with (i + S n - 1)%nat by lia; lia).
    assert (Hi : Z.of_nat i * linkw c < payloadw c) by nia.
    rewrite IH by lia.
    rewrite place_flit_testbit by lia.
    replace (S i + n)%nat with (i + S n)%nat by lia.
    replace (Z.of_nat i + 1) with (Z.of_nat (S i)) by lia.
    destruct (Z.leb_spec (Z.of_nat (S i) * linkw c) b).
    + assert (Z.of_nat i * linkw c <= b) by nia.
      replace (Z.of_nat i * linkw c <=? b) with true by (symmetry; apply Z.leb_le; lia).
      replace (b <? Z.of_nat (S i) * linkw c) with false by (symmetry; apply Z.ltb_ge; lia).
      simpl. reflexivity.
    + cbn [andb].
      replace (b <? Z.of_nat (S i) * linkw c) with true by (symmetry; apply Z.ltb_lt; lia).
      assert (b < Z.of_nat (i + S n) * linkw c) by nia.
      replace (b <? Z.of_nat (i + S n) * linkw c) with true by (symmetry; apply Z.ltb_lt; lia).
      destruct (Z.leb_spec (Z.of_nat i * linkw c) b); cbn [andb]; auto.
      destruct (Z.ltb_spec b (payloadw c)); cbn [andb]; auto.
      rewrite flit_payload_testbit by lia.
      replace (Z.of_nat i * linkw c + (b - Z.of_nat i * linkw c)) with b by lia.
      replace (b - Z.of_nat i * linkw c <? linkw c) with true by (symmetry; apply Z.ltb_lt; nia).
      replace (b <? payloadw c) with true by (symmetry; apply Z.ltb_lt; lia).
      reflexivity.
Qed.

Lemma num_flits_bounds : forall w, 1 <= w <= maxdw c ->
  0 < num_flits c w /\ (num_flits c w - 1) * linkw c < userw c + 1 + w
  /\ userw c + 1 + w <= num_flits c w * linkw c.
Proof.
  intros w Hw. unfold num_flits, payloadw.
  set (x := maxdw c + userw c + 1 - maxdw c + w).
  assert (Hx : x = userw c + 1 + w) by (unfold x; lia).
  pose proof (Z.div_mod (x + linkw c - 1) (linkw c)).
  pose proof (Z.mod_pos_bound (x + linkw c - 1) (linkw c) Hl).
  nia.
Qed.

Lemma reassemble_testbit : forall w p b, 1 <= w <= maxdw c -> 0 <= b ->
  Z.testbit (reassemble c (flit_payloads c w p)) b =
  if (b <? num_flits c w * linkw c) && (b <? payloadw c) then Z.testbit p b else false.
Proof.
  intros w p b Hw Hb. unfold reassemble, flit_payloads.
  destruct (num_flits_bounds w Hw) as (H1 & H2 & H3).
  change 0 with (Z.of_nat 0) at 2.
  rewrite place_flits_testbit; try lia.
  - rewrite Z.testbit_0_l. cbn [Nat.add].
    rewrite Z2Nat.id by lia.
    replace (Z.of_nat 0 * linkw c <=? b) with true by (symmetry; apply Z.leb_le; lia).
    reflexivity.
  - right. cbn [Nat.add].
    replace (Z.of_nat (Z.to_nat (num_flits c w) - 1)) with (num_flits c w - 1) by lia.
    unfold payloadw. lia.
Qed.

(** Number of data bits that the flits of a width-[w] interface carry. *)
Definition carried (w : Z) : Z := Z.min (maxdw c) (num_flits c w * linkw c - userw c - 1).

Lemma carried_ge : forall w, 1 <= w <= maxdw c -> w <= carried w.
Proof. intros w Hw. unfold carried. destruct (num_flits_bounds w Hw) as (?&?&?). lia. Qed.

Lemma roundtrip_general : forall w l u d,
  1 <= w <= maxdw c -> 0 <= u < 2 ^ userw c -> 0 <= d < 2 ^ maxdw c ->
  unpack c (reassemble c (flit_payloads c w (pack c l u d))) = (l, u, d mod 2 ^ carried w).
Proof.
  intros w l u d Hw Hur Hdr.
  pose proof (num_flits_bounds w Hw) as (H1 & H2 & H3).
  pose proof (carried_ge w Hw) as Hc.
  unfold unpack.
  set (r := reassemble c (flit_payloads c w (pack c l u d))).
  assert (Hr : forall b, 0 <= b -> Z.testbit r b =
     if (b <? num_flits c w * linkw c) && (b <? payloadw c)
     then Z.testbit (pack c l u d) b else false)
    by (intros; apply reassemble_testbit; assumption).
  f_equal; [f_equal|].
  - assert (get 0 0 r = if l then 1 else 0) as ->.
    { apply (eq_bits 1); try lia.
      - apply get_range; lia.
      - destruct l; cbn; lia.
      - intros i Hi. assert (i = 0) by lia. subst i.
        rewrite get_testbit by lia.
        replace (0 <? 0 - 0 + 1) with true by reflexivity. cbn [andb].
        change (0 + 0) with 0. rewrite Hr by lia. rewrite pack_testbit by lia.
        replace (0 <? num_flits c w * linkw c) with true by (symmetry; apply Z.ltb_lt; lia).
        replace (0 <? payloadw c) with true by (symmetry; apply Z.ltb_lt; unfold payloadw; lia).
        destruct l; reflexivity. }
    destruct l; reflexivity.
  - apply (eq_bits (userw c)); try lia.
    + pose proof (get_range (userw c) 1 r). replace (userw c - 1 + 1) with (userw c) in H by lia.
      apply H; lia.
    + intros i Hi. rewrite get_testbit by lia.
      replace (i <? userw c - 1 + 1) with true by (symmetry; apply Z.ltb_lt; lia). cbn [andb].
      rewrite Hr, pack_testbit by lia.
      replace (1 + i <? num_flits c w * linkw c) with true by (symmetry; apply Z.ltb_lt; lia).
      replace (1 + i <? payloadw c) with true by (symmetry; apply Z.ltb_lt; unfold payloadw; lia).
      replace (1 + i =? 0) with false by (symmetry; apply Z.eqb_neq; lia).
      replace (1 + i <=? userw c) with true by (symmetry; apply Z.leb_le; lia). cbn [andb].
      f_equal. lia.
  - apply (eq_bits (maxdw c)); try lia.
    + pose proof (get_range (maxdw c + userw c) (userw c + 1) r).
      replace (maxdw c + userw c - (userw c + 1) + 1) with (maxdw c) in H by lia. apply H; lia.
    + assert (2 ^ carried w <= 2 ^ maxdw c) by (apply Z.pow_le_mono_r; unfold carried; lia).
      pose proof (Z.mod_pos_bound d (2 ^ carried w)). 
      assert (0 < 2 ^ carried w) by (apply Z.pow_pos_nonneg; lia). lia.
    + intros i Hi. rewrite get_testbit by lia.
      replace (i <? maxdw c + userw c - (userw c + 1) + 1) with true
        by (symmetry; apply Z.ltb_lt; lia). cbn [andb].
      rewrite Hr, pack_testbit by lia.
      replace (userw c + 1 + i <? payloadw c) with true
        by (symmetry; apply Z.ltb_lt; unfold payloadw; lia).
      replace (userw c + 1 + i =? 0) with false by (symmetry; apply Z.eqb_neq; lia).
      replace (userw c + 1 + i <=? userw c) with false by (symmetry; apply Z.leb_gt; lia).
      replace (userw c + 1 + i <=? maxdw c + userw c) with true by (symmetry; apply Z.leb_le; lia).
      rewrite andb_true_r.
      replace (userw c + 1 + i - userw c - 1) with i by lia.
      destruct (Z.ltb_spec (userw c + 1 + i) (num_flits c w * linkw c)).
      * rewrite Z.mod_pow2_bits_low; auto. unfold carried. lia.
      * rewrite Z.mod_pow2_bits_high; auto. unfold carried. lia.
Qed.

Lemma flit_payloads_length : forall w p, 1 <= w <= maxdw c ->
  Z.of_nat (length (flit_payloads c w p)) = num_flits c w.
Proof.
  intros w p Hw. unfold flit_payloads. rewrite map_length, seq_length.
  pose proof (num_flits_bounds w Hw). lia.
Qed.

End Fmt.

Section Dest.
Variable c : widths.
Hypothesis Hf : 0 < destfw c.

Lemma from_to_booksim_dest_local : forall my_rad portal d,
  0 <= d < 2 ^ (3 * destfw c) ->
  0 <= my_rad < 2 ^ destfw c ->
  dest_rad c d = my_rad ->
  from_booksim_dest c (to_booksim_dest c my_rad portal d) = d.
Proof.
  intros my_rad portal d Hdr Hm Heq. unfold from_booksim_dest, to_booksim_dest. cbn [bs_node bs_rad bs_remote].
  rewrite Heq. rewrite (trunc_small (destfw c) my_rad) by lia. rewrite Z.eqb_refl.
  set (rem := to_int (destfw c) (dest_remote c d)).
  set (rd := to_int (destfw c) my_rad).
  assert (Hrem : trunc (destfw c) rem = dest_remote c d).
  { apply to_int_trunc; auto. unfold dest_remote.
    pose proof (get_range (2 * destfw c - 1) (destfw c) d).
    replace (2 * destfw c - 1 - destfw c + 1) with (destfw c) in H by lia. apply H; lia. }
  assert (Hrd : trunc (destfw c) rd = my_rad) by (apply to_int_trunc; auto; lia).
  apply Z.bits_inj'. intros i Hi.
  rewrite !set_testbit by lia. rewrite Z.testbit_0_l.
  destruct (Z.leb_spec (2 * destfw c) i); cbn [andb].
  - destruct (Z.leb_spec i (3 * destfw c - 1)).
    + assert (E : Z.testbit rd (i - 2 * destfw c) = Z.testbit my_rad (i - 2 * destfw c)).
      { rewrite <- Hrd. rewrite trunc_testbit by lia.
        replace (i - 2 * destfw c <? destfw c) with true by (symmetry; apply Z.ltb_lt; lia).
        reflexivity. }
      rewrite E, <- Heq. unfold dest_rad. rewrite get_testbit by lia.
      replace (i - 2 * destfw c <? 3 * destfw c - 1 - 2 * destfw c + 1) with true
        by (symmetry; apply Z.ltb_lt; lia). cbn [andb]. f_equal. lia.
    + replace (destfw c <=? i) with true by (symmetry; apply Z.leb_le; lia).
      replace (i <=? 2 * destfw c - 1) with false by (symmetry; apply Z.leb_gt; lia).
      replace (i <=? destfw c - 1) with false by (symmetry; apply Z.leb_gt; lia).
      rewrite andb_false_r, andb_false_r.
      symmetry. apply (testbit_small_high d (3 * destfw c)); lia.
  - destruct (Z.leb_spec (destfw c) i); cbn [andb].
    + replace (i <=? 2 * destfw c - 1) with true by (symmetry; apply Z.leb_le; lia).
      assert (E : Z.testbit rem (i - destfw c) = Z.testbit (dest_remote c d) (i - destfw c)).
      { rewrite <- Hrem. rewrite trunc_testbit by lia.
        replace (i - destfw c <? destfw c) with true by (symmetry; apply Z.ltb_lt; lia).
        reflexivity. }
      rewrite E. unfold dest_remote. rewrite get_testbit by lia.
      replace (i - destfw c <? 2 * destfw c - 1 - destfw c + 1) with true
        by (symmetry; apply Z.ltb_lt; lia). cbn [andb]. f_equal. lia.
    + replace (0 <=? i) with true by (symmetry; apply Z.leb_le; lia).
      replace (i <=? destfw c - 1) with true by (symmetry; apply Z.leb_le; lia). cbn [andb].
      unfold dest_local. rewrite get_testbit by lia.
      replace (i - 0 <? destfw c - 1 - 0 + 1) with true by (symmetry; apply Z.ltb_lt; lia).
      cbn [andb]. f_equal. lia.
Qed.

(** Field by field view of the destination after the NoC, for any destination. *)
Lemma from_to_booksim_dest_fields : forall my_rad portal d,
  0 <= portal < 2 ^ destfw c ->
  let d' := from_booksim_dest c (to_booksim_dest c my_rad portal d) in
  dest_rad c d' = dest_rad c d /\ dest_remote c d' = dest_remote c d /\
  dest_local c d' = (if dest_rad c d =? trunc (destfw c) my_rad then dest_local c d else portal).
Proof.
  intros my_rad portal d Hp. cbn zeta.
  assert (Rr : 0 <= dest_remote c d < 2 ^ destfw c).
  { unfold dest_remote. pose proof (get_range (2 * destfw c - 1) (destfw c) d).
    replace (2 * destfw c - 1 - destfw c + 1) with (destfw c) in H by lia. apply H; lia. }
  assert (Rd : 0 <= dest_rad c d < 2 ^ destfw c).
  { unfold dest_rad. pose proof (get_range (3 * destfw c - 1) (2 * destfw c) d).
    replace (3 * destfw c - 1 - 2 * destfw c + 1) with (destfw c) in H by lia. apply H; lia. }
  assert (Rl : 0 <= dest_local c d < 2 ^ destfw c).
  { unfold dest_local. pose proof (get_range (destfw c - 1) 0 d).
    replace (destfw c - 1 - 0 + 1) with (destfw c) in H by lia. apply H; lia. }
  unfold from_booksim_dest, to_booksim_dest. cbn [bs_node bs_rad bs_remote].
  repeat split.
  - unfold dest_rad at 1. rewrite get_set_same by lia.
    replace (3 * destfw c - 1 - 2 * destfw c + 1) with (destfw c) by lia.
    apply to_int_trunc; auto.
  - unfold dest_remote at 1. rewrite get_set_other, get_set_same by lia.
    replace (2 * destfw c - 1 - destfw c + 1) with (destfw c) by lia.
    apply to_int_trunc; auto.
  - unfold dest_local at 1. rewrite !get_set_other, get_set_same by lia.
    replace (destfw c - 1 - 0 + 1) with (destfw c) by lia.
    destruct (dest_rad c d =? trunc (destfw c) my_rad).
    + apply trunc_small; lia.
    + assert (2 ^ destfw c <= 2 ^ (3 * destfw c)) by (apply Z.pow_le_mono_r; lia).
      rewrite (trunc_small (3 * destfw c) portal) by lia. apply trunc_small; lia.
Qed.
End Dest.

Lemma roundtrip_exact : forall c w last user data,
  0 < linkw c -> 0 < maxdw c -> 0 <= userw c ->
  1 <= w <= maxdw c -> 0 <= user < 2 ^ userw c -> 0 <= data < 2 ^ w ->
  unpack c (reassemble c (flit_payloads c w (pack c last user data))) = (last, user, data).
Proof.
  intros c w last user data Hl Hd Hu Hw Hur Hdr.
  assert (2 ^ w <= 2 ^ maxdw c) by (apply Z.pow_le_mono_r; lia).
  rewrite roundtrip_general by (auto; lia).
  assert (w <= carried c w) by (apply carried_ge; auto).
  assert (2 ^ w <= 2 ^ carried c w) by (apply Z.pow_le_mono_r; lia).
  rewrite (Z.mod_small data) by lia. reflexivity.
Qed.

Lemma roundtrip_trunc : forall c w last user data,
  0 < linkw c -> 0 < maxdw c -> 0 <= userw c ->
  1 <= w <= maxdw c -> 0 <= user < 2 ^ userw c -> 0 <= data < 2 ^ maxdw c ->
  let n := Z.of_nat (length (flit_payloads c w (pack c last user data))) in
  let k := Z.min (maxdw c) (n * linkw c - (userw c + 1)) in
  w <= k /\
  unpack c (reassemble c (flit_payloads c w (pack c last user data)))
    = (last, user, data mod 2 ^ k).
Proof.
  intros. 
  assert (En : n = num_flits c w) by (apply flit_payloads_length; auto).
  assert (Ek : k = carried c w) by (unfold k, carried; rewrite En; lia).
  rewrite Ek. split.
  - apply carried_ge; auto.
  - apply roundtrip_general; auto.
Qed.

Lemma flit_count : forall c w p,
  0 < linkw c -> 0 < maxdw c -> 0 <= userw c -> 1 <= w <= maxdw c ->
  let n := Z.of_nat (length (flit_payloads c w p)) in
  1 <= n /\ (n - 1) * linkw c < userw c + 1 + w <= n * linkw c.
Proof.
  intros c w p Hl Hd Hu Hw n.
  assert (En : n = num_flits c w) by (apply flit_payloads_length; auto).
  rewrite En. pose proof (num_flits_bounds c Hl Hu w Hw). lia.
Qed.

Lemma flit_fits : forall c w p q, 0 < linkw c ->
  In q (flit_payloads c w p) -> 0 <= q < 2 ^ linkw c.
Proof.
  intros c w p q Hl Hin. unfold flit_payloads in Hin. apply in_map_iff in Hin.
  destruct Hin as (i & <- & _). unfold flit_payload. apply trunc_range. lia.
Qed.

Lemma tdest_local : forall c my_rad portal d,
  0 < destfw c -> 0 <= d < 2 ^ (3 * destfw c) -> 0 <= my_rad < 2 ^ destfw c ->
  dest_rad c d = my_rad ->
  from_booksim_dest c (to_booksim_dest c my_rad portal d) = d.
Proof. intros; apply from_to_booksim_dest_local; auto. Qed.

Lemma tdest_cross : forall c my_rad portal d,
  0 < destfw c -> 0 <= portal < 2 ^ destfw c -> 0 <= my_rad < 2 ^ destfw c ->
  dest_rad c d <> my_rad ->
  let d' := from_booksim_dest c (to_booksim_dest c my_rad portal d) in
  dest_rad c d' = dest_rad c d /\ dest_remote c d' = dest_remote c d /\ dest_local c d' = portal
  /\ bs_node (to_booksim_dest c my_rad portal d) = portal.
Proof.
  intros c my_rad portal d Hf Hp Hm Hne d'.
  pose proof (from_to_booksim_dest_fields c Hf my_rad portal d Hp) as (A & B & C).
  rewrite (trunc_small (destfw c) my_rad) in C by lia.
  apply Z.eqb_neq in Hne. rewrite Hne in C.
  repeat split; auto.
  unfold to_booksim_dest. cbn [bs_node]. rewrite (trunc_small (destfw c) my_rad) by lia.
  rewrite Hne. apply trunc_small; try lia.
  assert (2 ^ destfw c <= 2 ^ (3 * destfw c)) by (apply Z.pow_le_mono_r; lia). lia.
Qed.

Lemma tid_low_bits : forall c tid, 0 <= ifacew c -> iface_of_tid c tid = tid mod 2 ^ ifacew c.
Proof. intros. apply trunc_mod. auto. Qed.
