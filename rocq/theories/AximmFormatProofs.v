(** Lemmas about the AXI-MM payloads. *)
From Coq Require Import ZArith Bool List Lia.
From Verif Require Import Bits BitsProofs VcModel AddrModel AximmFormatModel.
Import ListNotations.
Local Open Scope Z_scope.

Section Fmt.
Variable c : xwidths.
Hypothesis Hl : 0 < x_linkw c.
Hypothesis Hd : 0 <= x_maxdw c.
Hypothesis Hu : 0 <= x_userw c.

Lemma xflit_payload_testbit : forall p i j, 0 <= i -> i * x_linkw c < xpayloadw c -> 0 <= j ->
  Z.testbit (xflit_payload c p i) j =
  (j <? x_linkw c) && (i * x_linkw c + j <? xpayloadw c) && Z.testbit p (i * x_linkw c + j).
Proof.
  intros p i j Hi Hip Hj. unfold xflit_payload.
  rewrite trunc_testbit by lia.
  assert (0 <= i * x_linkw c) by nia.
  rewrite get_testbit by lia.
  destruct (Z.ltb_spec j (x_linkw c)); simpl; auto.
  destruct (Z.ltb_spec (i * x_linkw c + j) (xpayloadw c)); simpl.
  - replace (j <? Z.min ((i + 1) * x_linkw c) (xpayloadw c) - 1 - i * x_linkw c + 1) with true; auto.
    symmetry. apply Z.ltb_lt. lia.
  - replace (j <? Z.min ((i + 1) * x_linkw c) (xpayloadw c) - 1 - i * x_linkw c + 1) with false; auto.
    symmetry. apply Z.ltb_ge. lia.
Qed.

Lemma xplace_testbit : forall acc i p b, 0 <= i -> i * x_linkw c < xpayloadw c -> 0 <= b ->
  Z.testbit (xplace c acc i p) b =
  if (i * x_linkw c <=? b) && (b <? (i + 1) * x_linkw c) && (b <? xpayloadw c)
  then Z.testbit p (b - i * x_linkw c) else Z.testbit acc b.
Proof.
  intros acc i p b Hi Hip Hb. unfold xplace.
  assert (0 <= i * x_linkw c) by nia.
  rewrite set_testbit by lia.
  destruct (Z.leb_spec (i * x_linkw c) b); simpl; auto.
  destruct (Z.ltb_spec b ((i + 1) * x_linkw c)); destruct (Z.ltb_spec b (xpayloadw c)); simpl.
  - replace (b <=? Z.min (xpayloadw c) ((i + 1) * x_linkw c) - 1) with true
      by (symmetry; apply Z.leb_le; lia). reflexivity.
  - replace (b <=? Z.min (xpayloadw c) ((i + 1) * x_linkw c) - 1) with false
      by (symmetry; apply Z.leb_gt; lia). reflexivity.
  - replace (b <=? Z.min (xpayloadw c) ((i + 1) * x_linkw c) - 1) with false
      by (symmetry; apply Z.leb_gt; lia). reflexivity.
  - replace (b <=? Z.min (xpayloadw c) ((i + 1) * x_linkw c) - 1) with false
      by (symmetry; apply Z.leb_gt; lia). reflexivity.
Qed.

Lemma xplaces_testbit : forall p n i acc b,
  ((i + n)%nat = O \/ Z.of_nat (i + n - 1) * x_linkw c < xpayloadw c) -> 0 <= b ->
  Z.testbit (xplaces c acc (Z.of_nat i)
     (map (fun k => xflit_payload c p (Z.of_nat k)) (seq i n))) b =
  if (Z.of_nat i * x_linkw c <=? b) && (b <? Z.of_nat (i + n) * x_linkw c) && (b <? xpayloadw c)
  then Z.testbit p b else Z.testbit acc b.
Proof.
  intros p n. induction n as [|n IH]; intros i acc b Hn Hb.
  - simpl. rewrite Nat.add_0_r.
    destruct (Z.leb_spec (Z.of_nat i * x_linkw c) b); simpl; auto.
    replace (b <? Z.of_nat i * x_linkw c) with false by (symmetry; apply Z.ltb_ge; lia). reflexivity.
  - cbn [seq map xplaces].
    replace (Z.of_nat i + 1) with (Z.of_nat (S i)) by lia.
    assert (Hlast : Z.of_nat (S i + n - 1) * x_linkw c < xpayloadw c)
      by (replace (S i + n - 1)%nat with (i + S n - 1)%nat by lia; lia).
    assert (Hi : Z.of_nat i * x_linkw c < xpayloadw c) by nia.
    rewrite IH by lia.
    rewrite xplace_testbit by lia.
    replace (S i + n)%nat with (i + S n)%nat by lia.
    replace (Z.of_nat i + 1) with (Z.of_nat (S i)) by lia.
    destruct (Z.leb_spec (Z.of_nat (S i) * x_linkw c) b).
    + assert (Z.of_nat i * x_linkw c <= b) by nia.
      replace (Z.of_nat i * x_linkw c <=? b) with true by (symmetry; apply Z.leb_le; lia).
      replace (b <? Z.of_nat (S i) * x_linkw c) with false by (symmetry; apply Z.ltb_ge; lia).
      simpl. reflexivity.
    + cbn [andb].
      replace (b <? Z.of_nat (S i) * x_linkw c) with true by (symmetry; apply Z.ltb_lt; lia).
      assert (b < Z.of_nat (i + S n) * x_linkw c) by nia.
      replace (b <? Z.of_nat (i + S n) * x_linkw c) with true by (symmetry; apply Z.ltb_lt; lia).
      destruct (Z.leb_spec (Z.of_nat i * x_linkw c) b); cbn [andb]; auto.
      destruct (Z.ltb_spec b (xpayloadw c)); cbn [andb]; auto.
      rewrite xflit_payload_testbit by lia.
      replace (Z.of_nat i * x_linkw c + (b - Z.of_nat i * x_linkw c)) with b by lia.
      replace (b - Z.of_nat i * x_linkw c <? x_linkw c) with true by (symmetry; apply Z.ltb_lt; nia).
      replace (b <? xpayloadw c) with true by (symmetry; apply Z.ltb_lt; lia).
      reflexivity.
Qed.

Lemma flits_for_bounds : forall x, 0 < x ->
  0 < flits_for c x /\ (flits_for c x - 1) * x_linkw c < x <= flits_for c x * x_linkw c.
Proof.
  intros x Hx. unfold flits_for.
  pose proof (Z.div_mod (x + x_linkw c - 1) (x_linkw c)).
  pose proof (Z.mod_pos_bound (x + x_linkw c - 1) (x_linkw c) Hl).
  nia.
Qed.

(** Bits wanted by the number of flits of each kind. *)
Definition want (dw : Z) (t : xtype) : Z :=
  match t with
  | AR | AW => 77 + x_userw c
  | W | R => dw + 3 + x_userw c
  | B => 2 + x_userw c
  end.

Lemma xnum_flits_want : forall dw t, xnum_flits c dw t = flits_for c (want dw t).
Proof. intros dw t. unfold xnum_flits, want, addrw, ctrlw, respw. destruct t; f_equal; lia. Qed.

Lemma xre_testbit : forall dw t p b, 0 < want dw t <= xpayloadw c -> 0 <= b ->
  Z.testbit (xreassemble c (xpayloads c dw t p)) b =
  (b <? xnum_flits c dw t * x_linkw c) && (b <? xpayloadw c) && Z.testbit p b.
Proof.
  intros dw t p b Hw Hb. unfold xreassemble, xpayloads.
  rewrite xnum_flits_want.
  destruct (flits_for_bounds (want dw t)) as (H1 & H2 & H3); [lia|].
  change 0 with (Z.of_nat 0) at 2.
  rewrite xplaces_testbit; try lia.
  - rewrite Z.testbit_0_l. cbn [Nat.add].
    rewrite Z2Nat.id by lia.
    replace (Z.of_nat 0 * x_linkw c <=? b) with true by (symmetry; apply Z.leb_le; lia).
    cbn [andb]. destruct (_ && _); reflexivity.
Qed.

(** A field inside of the bits that the flits carry arrives as it was. *)
Lemma xre_get : forall dw t p hi lo, 0 < want dw t <= xpayloadw c -> 0 <= lo -> lo <= hi + 1 ->
  hi < xnum_flits c dw t * x_linkw c -> hi < xpayloadw c ->
  get hi lo (xreassemble c (xpayloads c dw t p)) = get hi lo p.
Proof.
  intros dw t p hi lo Hw Hlo Hh H1 H2. apply Z.bits_inj'. intros i Hi.
  rewrite !get_testbit by lia.
  destruct (Z.ltb_spec i (hi - lo + 1)); cbn [andb]; auto.
  rewrite xre_testbit by lia.
  replace (lo + i <? xnum_flits c dw t * x_linkw c) with true by (symmetry; apply Z.ltb_lt; lia).
  replace (lo + i <? xpayloadw c) with true by (symmetry; apply Z.ltb_lt; lia).
  reflexivity.
Qed.

(** The bits of a field that the flits carry; the others arrive as zero. *)
Lemma xre_get_cut : forall dw t p hi lo, 0 < want dw t <= xpayloadw c -> 0 <= lo -> lo <= hi + 1 ->
  lo <= xnum_flits c dw t * x_linkw c -> hi < xpayloadw c ->
  get hi lo (xreassemble c (xpayloads c dw t p)) =
  get hi lo p mod 2 ^ (xnum_flits c dw t * x_linkw c - lo).
Proof.
  intros dw t p hi lo Hw Hlo Hh H1 H2. apply Z.bits_inj'. intros i Hi.
  rewrite Z.testbit_mod_pow2 by lia.
  rewrite !get_testbit by lia.
  destruct (Z.ltb_spec i (hi - lo + 1)); cbn [andb].
  - rewrite xre_testbit by lia.
    replace (lo + i <? xpayloadw c) with true by (symmetry; apply Z.ltb_lt; lia).
    rewrite andb_true_r. f_equal.
    destruct (Z.ltb_spec (lo + i) (xnum_flits c dw t * x_linkw c)),
             (Z.ltb_spec i (xnum_flits c dw t * x_linkw c - lo)); auto; lia.
  - rewrite andb_false_r. reflexivity.
Qed.

(** No multiple of the flit width among [x .. x+m-1] : the flits for [x] bits carry [x+m]. *)
Lemma flits_for_slack : forall x m, 0 < x -> 0 <= m ->
  (forall j, 0 <= j < m -> (x + j) mod x_linkw c <> 0) -> x + m <= flits_for c x * x_linkw c.
Proof.
  intros x m Hx Hm H.
  destruct (flits_for_bounds x Hx) as (H1 & H2 & H3).
  destruct (Z.le_gt_cases (x + m) (flits_for c x * x_linkw c)); [assumption|].
  exfalso. apply (H (flits_for c x * x_linkw c - x)); [lia|].
  replace (x + (flits_for c x * x_linkw c - x)) with (flits_for c x * x_linkw c) by lia.
  apply Z.mod_mul. lia.
Qed.

End Fmt.

From Verif Require Import AximmSpec.

Section Carry.
Variable c : xwidths.
Hypothesis HG : good_xw c.

Lemma ctrl_of_val : forall h, 0 <= h_len h < 256 -> 0 <= h_size h < 8 -> 0 <= h_burst h < 4 ->
  ctrl_of h = h_burst h + 4 * h_size h + 32 * h_len h.
Proof.
  intros h H1 H2 H3. unfold ctrl_of.
  set (x := set 4 2 (set 1 0 0 (h_burst h)) (h_size h)).
  assert (Ex : x = h_burst h + 4 * h_size h).
  { unfold x. clear x. generalize dependent (h_size h). generalize dependent (h_burst h). intros b Hb s Hs.
    assert (b = 0 \/ b = 1 \/ b = 2 \/ b = 3) as Cb by lia.
    assert (s = 0 \/ s = 1 \/ s = 2 \/ s = 3 \/ s = 4 \/ s = 5 \/ s = 6 \/ s = 7) as Cs by lia.
    destruct Cb as [?|[?|[?|?]]]; subst b; destruct Cs as [?|[?|[?|[?|[?|[?|[?|?]]]]]]]; subst s; reflexivity. }
  clearbody x. subst x.
  set (y := h_burst h + 4 * h_size h). assert (0 <= y < 2 ^ 5) by (unfold y; change (2 ^ 5) with 32; lia).
  apply Z.bits_inj'. intros i Hi. rewrite set_testbit by lia.
  replace (y + 32 * h_len h) with (y + h_len h * 2 ^ 5) by (change (2 ^ 5) with 32; lia).
  destruct (Z.leb_spec 5 i); cbn [andb].
  - destruct (Z.leb_spec i 12).
    + replace (Z.testbit (y + h_len h * 2 ^ 5) i) with (Z.testbit ((y + h_len h * 2 ^ 5) / 2 ^ 5) (i - 5))
        by (rewrite Z.div_pow2_bits by lia; f_equal; lia).
      rewrite Z.div_add by lia. rewrite (Z.div_small y) by lia. reflexivity.
    + replace (Z.testbit (y + h_len h * 2 ^ 5) i) with (Z.testbit ((y + h_len h * 2 ^ 5) / 2 ^ 5) (i - 5))
        by (rewrite Z.div_pow2_bits by lia; f_equal; lia).
      rewrite Z.div_add by lia. rewrite (Z.div_small y) by lia.
      rewrite (testbit_small_high y 5) by lia. rewrite Z.add_0_l.
      rewrite (testbit_small_high (h_len h) 8); [reflexivity| change (2 ^ 8) with 256; lia | lia].
  - rewrite <- (Z.mod_pow2_bits_low (y + h_len h * 2 ^ 5) 5 i) by lia.
    rewrite Z.mod_add by lia. rewrite Z.mod_small by lia. reflexivity.
Qed.

Ltac widths := destruct HG as (? & ? & ? & ? & ?).

Lemma user_field : forall (p u : Z), 0 <= u < 2 ^ x_userw c -> get (x_userw c) 1 p = trunc (x_userw c) u ->
  get (x_userw c) 1 p = u.
Proof. widths. intros p u Hp ->. apply trunc_small; lia. Qed.

(** The low 13 bits of a request packet: the clear LAST bit and twelve bits of the user field. *)
Lemma low_bits : forall u p hi lo, get (x_userw c) 1 p = u -> 1 <= lo <= hi -> hi <= 12 ->
  get hi lo p = (u / 2 ^ (lo - 1)) mod 2 ^ (hi - lo + 1).
Proof.
  widths. intros u p hi lo Hp H1' H2'. subst u.
  replace (hi - lo + 1) with (hi - 1 - (lo - 1) + 1) by lia.
  rewrite <- (get_div_mod (hi - 1) (lo - 1)) by lia.
  apply Z.bits_inj'. intros i Hi. rewrite !get_testbit by lia.
  replace (hi - 1 - (lo - 1) + 1) with (hi - lo + 1) by lia.
  destruct (Z.ltb_spec i (hi - lo + 1)); cbn [andb]; auto.
  replace (lo - 1 + i <? x_userw c - 1 + 1) with true by (symmetry; apply Z.ltb_lt; lia).
  cbn [andb]. f_equal. lia.
Qed.

Lemma xp_pos : forall dw t, (t = W \/ t = R -> 1 <= dw <= x_maxdw c) -> 0 < want c dw t <= xpayloadw c.
Proof.
  widths. intros dw t Ht. unfold want, xpayloadw, respw. destruct t; try lia; destruct Ht; auto; lia.
Qed.

(** The fields of the request packet. *)
Lemma pack_addr_fields : forall t h sid r0, t = AR \/ t = AW -> fits_addr c h ->
  exists p, xpack c (cap_addr c t h sid r0) = Some p /\
    get (x_userw c) 1 p = h_user h /\
    get 0 0 p = 0 /\
    get (ctrlw + respw + x_userw c) (respw + x_userw c + 1) p = h_burst h + 4 * h_size h + 32 * h_len h /\
    get (addrw + ctrlw + respw + x_userw c) (ctrlw + respw + x_userw c + 1) p = h_addr h.
Proof.
  widths. intros t h sid r0 Ht (Fi & Fa & Fl & Fs & Fb & Fu).
  assert (E : (addrw + ctrlw + respw + x_userw c <? xpayloadw c) = true)
    by (apply Z.ltb_lt; unfold xpayloadw, addrw, ctrlw, respw; lia).
  assert (Ep : xpack c (cap_addr c t h sid r0) =
    Some (set (addrw + ctrlw + respw + x_userw c) (ctrlw + respw + x_userw c + 1)
      (set (ctrlw + respw + x_userw c) (respw + x_userw c + 1) (set (x_userw c) 1 0 (trunc (x_userw c) (h_user h)))
        (ctrl_of h)) (trunc (x_maxdw c) (h_addr h)))).
  { unfold xpack. rewrite E. destruct Ht as [Ht|Ht]; subst t; reflexivity. }
  eexists. split; [exact Ep|]. unfold addrw, ctrlw, respw.
  assert (2 ^ 64 <= 2 ^ x_maxdw c) by (apply Z.pow_le_mono_r; lia).
  split; [|split; [|split]].
  - rewrite !get_set_other by lia. rewrite get_set_same by lia.
    replace (x_userw c - 1 + 1) with (x_userw c) by lia. rewrite !trunc_small by (try apply trunc_range; lia).
    reflexivity.
  - rewrite !get_set_other by lia. reflexivity.
  - rewrite get_set_other by lia. rewrite get_set_same by lia.
    rewrite ctrl_of_val by lia. apply trunc_small; [lia|].
    replace (13 + 2 + x_userw c - (2 + x_userw c + 1) + 1) with 13 by lia. change (2 ^ 13) with 8192. lia.
  - rewrite get_set_same by lia.
    replace (64 + 13 + 2 + x_userw c - (13 + 2 + x_userw c + 1) + 1) with 64 by lia.
    rewrite (trunc_small (x_maxdw c)) by lia. apply trunc_small; lia.
Qed.

Lemma pid_ok : forall r i, 0 <= i < 2 ^ x_idw c -> i_id r = trunc (x_idw c) i ->
  xpid c r = i /\ trunc (x_idw c) i = i.
Proof.
  widths. intros r i Hi Hr. unfold xpid. rewrite Hr.
  assert (2 ^ x_idw c <= 2 ^ x_pidw c) by (apply Z.pow_le_mono_r; lia).
  rewrite (trunc_small (x_idw c)) by lia. split; [apply trunc_small; lia|reflexivity].
Qed.

Lemma addr_arrives : forall dw t h sid r0,
  fits_addr c h -> t = AR \/ t = AW ->
  exists v, carry c dw (cap_addr c t h sid r0) = Some (h_id h, v) /\
    out_addr c (h_id h) v =
      (let a := arrives_as h in
      {| h_id := h_id a; h_addr := h_addr h mod 2 ^ (xnum_flits c dw t * x_linkw c - x_userw c - 16);
         h_user := h_user a; h_burst := h_burst a; h_size := h_size a; h_len := h_len a |}) /\
    get (ctrlw + respw + x_userw c) (respw + x_userw c + 1) v =
      h_burst h + 4 * h_size h + 32 * h_len h.
Proof.
  intros dw t h sid r0 HF Ht. pose proof HF as (Fi & _ & _ & _ & _ & Fu).
  destruct (pack_addr_fields t h sid r0 Ht HF) as (p & Ep & Pu & P0 & Pc & Pa).
  assert (Hit : i_type (cap_addr c t h sid r0) = t) by reflexivity.
  unfold carry. rewrite Ep, Hit. cbn [option_map].
  destruct (pid_ok (cap_addr c t h sid r0) (h_id h) Fi eq_refl) as [E1 E2].
  pose proof (xp_pos dw t ltac:(intros [?|?]; destruct Ht; congruence)) as Hw.
  pose proof HG as (H1 & H2 & H3 & H4 & H5).
  pose proof (flits_for_bounds c H1 (want c dw t) (proj1 Hw)) as (B1 & B2 & B3).
  rewrite <- xnum_flits_want in B1, B2, B3.
  assert (Hwt : want c dw t = 77 + x_userw c) by (destruct Ht; subst t; reflexivity).
  assert (Hpw : xpayloadw c = x_maxdw c + 3 + x_userw c) by (unfold xpayloadw, respw; lia).
  rewrite Hwt in *.
  eexists. split; [rewrite E1; reflexivity|]. split.
  - unfold out_addr, arrives_as. cbn [h_id h_user h_burst h_size h_len].
    set (v := xreassemble c (xpayloads c dw t p)).
    assert (Hg : forall hi lo, 0 <= lo -> lo <= hi + 1 -> hi < 77 + x_userw c -> get hi lo v = get hi lo p).
    { intros hi lo L1 L2 L3. unfold v. apply xre_get; lia. }
    rewrite E2. rewrite (Hg (x_userw c) 1), (Hg 1 0), (Hg 4 2), (Hg 12 5) by lia. rewrite Pu.
    f_equal.
    + unfold v. unfold addrw, ctrlw, respw in *. rewrite xre_get_cut by lia. rewrite Pa. f_equal. f_equal. lia.
    + rewrite (low_bits (h_user h)) by (auto; lia). reflexivity.
    + rewrite (low_bits (h_user h)) by (auto; lia). reflexivity.
    + apply Z.bits_inj'. intros i Hi. rewrite get_testbit by lia.
      change (1 - 0 + 1) with 2. rewrite Z.add_0_l.
      destruct (Z.eq_dec i 0) as [E|E].
      * subst i. assert (T0 : Z.testbit (get 0 0 p) 0 = false) by (rewrite P0; reflexivity).
        rewrite get_testbit in T0 by lia. change (0 <? 0 - 0 + 1) with true in T0. cbn [andb] in T0.
        change (0 + 0) with 0 in T0. rewrite T0. rewrite andb_false_r.
        rewrite Z.testbit_even_0. reflexivity.
      * replace i with (Z.succ (i - 1)) at 3 by lia. rewrite Z.double_bits_succ || rewrite Z.testbit_even_succ by lia.
        change (h_user h mod 2) with (h_user h mod 2 ^ 1). rewrite Z.testbit_mod_pow2 by lia.
        rewrite <- Pu. rewrite get_testbit by lia.
        destruct (Z.ltb_spec i 2), (Z.ltb_spec (i - 1) 1); try lia; cbn [andb]; auto.
        replace (i - 1 <? x_userw c - 1 + 1) with true by (symmetry; apply Z.ltb_lt; lia).
        cbn [andb]. f_equal. lia.
  - rewrite xre_get; auto; unfold ctrlw, respw; lia.
Qed.

Lemma addr_arrives_whole : forall dw t h sid r0,
  fits_addr c h -> t = AR \/ t = AW ->
  (forall j, 0 <= j <= 2 -> (77 + x_userw c + j) mod x_linkw c <> 0) ->
  exists v, carry c dw (cap_addr c t h sid r0) = Some (h_id h, v) /\
    out_addr c (h_id h) v = arrives_as h.
Proof.
  intros dw t h sid r0 HF Ht Hs.
  destruct (addr_arrives dw t h sid r0 HF Ht) as (v & V1 & V2 & _).
  exists v. split; [exact V1|]. rewrite V2. unfold arrives_as. cbn [h_id h_user h_burst h_size h_len].
  pose proof HF as (_ & Fa & _).
  pose proof HG as (H1 & H2 & H3 & H4 & H5).
  f_equal. apply Z.mod_small. split; [lia|].
  apply Z.lt_le_trans with (2 ^ 64); [lia|]. apply Z.pow_le_mono_r; [lia|].
  rewrite xnum_flits_want.
  assert (Hwt : want c dw t = 77 + x_userw c) by (destruct Ht; subst t; reflexivity).
  rewrite Hwt. pose proof (flits_for_slack c H1 (77 + x_userw c) 3 ltac:(lia) ltac:(lia)) as S.
  specialize (S ltac:(intros; apply Hs; lia)). lia.
Qed.

(** The fields of the data packets. *)
Lemma pack_data_fields : forall r, i_type r = W \/ i_type r = R ->
  exists p, xpack c r = Some p /\
    get (x_userw c) 1 p = trunc (x_userw c) (i_user r) /\
    get 0 0 p = (if i_last r then 1 else 0) /\
    get (respw + x_userw c) (x_userw c + 1) p = trunc 2 (match i_type r with W => 0 | _ => i_resp r end) /\
    get (x_maxdw c + respw + x_userw c) (respw + x_userw c + 1) p = trunc (x_maxdw c) (i_payload r).
Proof.
  widths. intros r Ht.
  assert (Ep : xpack c r = Some (set (x_maxdw c + respw + x_userw c) (respw + x_userw c + 1)
             (set 0 0 (set (respw + x_userw c) (x_userw c + 1) (set (x_userw c) 1 0 (i_user r))
               (match i_type r with W => 0 | _ => i_resp r end)) (if i_last r then 1 else 0)) (i_payload r))).
  { unfold xpack. destruct (i_type r); destruct Ht; try discriminate; reflexivity. }
  eexists. split; [exact Ep|]. unfold respw.
  split; [|split; [|split]].
  - rewrite !get_set_other by lia. rewrite get_set_same by lia. f_equal. lia.
  - rewrite get_set_other by lia. rewrite get_set_same by lia. destruct (i_last r); reflexivity.
  - rewrite !get_set_other by lia. rewrite get_set_same by lia. f_equal. lia.
  - rewrite get_set_same by lia. f_equal. lia.
Qed.

Lemma data_carried : forall dw r, i_type r = W \/ i_type r = R -> 1 <= dw <= x_maxdw c ->
  0 <= i_payload r < 2 ^ dw ->
  exists v, carry c dw r = Some (xpid c r, v) /\
    get (x_userw c) 1 v = trunc (x_userw c) (i_user r) /\
    get 0 0 v = (if i_last r then 1 else 0) /\
    get (respw + x_userw c) (x_userw c + 1) v = trunc 2 (match i_type r with W => 0 | _ => i_resp r end) /\
    get (x_maxdw c + respw + x_userw c) (respw + x_userw c + 1) v = i_payload r.
Proof.
  intros dw r Ht Hdw Hp.
  destruct (pack_data_fields r Ht) as (p & Ep & P1 & P2 & P3 & P4).
  unfold carry. rewrite Ep. cbn [option_map]. eexists. split; [reflexivity|].
  pose proof (xp_pos dw (i_type r) ltac:(auto)) as Hw.
  pose proof HG as (H1 & H2 & H3 & H4 & H5).
  pose proof (flits_for_bounds c H1 (want c dw (i_type r)) (proj1 Hw)) as (B1 & B2 & B3).
  rewrite <- xnum_flits_want in B1, B2, B3.
  assert (Hwt : want c dw (i_type r) = dw + 3 + x_userw c) by (destruct (i_type r); destruct Ht; try discriminate; reflexivity).
  rewrite Hwt in *. unfold respw in *.
  assert (Hpw : xpayloadw c = x_maxdw c + 3 + x_userw c) by (unfold xpayloadw, respw; lia).
  rewrite !xre_get by lia. split; [exact P1|]. split; [exact P2|]. split; [exact P3|].
  rewrite xre_get_cut by lia. rewrite P4.
  assert (2 ^ dw <= 2 ^ x_maxdw c) by (apply Z.pow_le_mono_r; lia).
  rewrite trunc_small by lia. apply Z.mod_small. split; [lia|].
  apply Z.lt_le_trans with (2 ^ dw); [lia|]. apply Z.pow_le_mono_r; lia.
Qed.

Lemma last_bit : forall b : bool, ((if b then 1 else 0) =? 1) = b.
Proof. destruct b; reflexivity. Qed.

Lemma w_arrives : forall dw w aw sid r0,
  1 <= dw <= x_maxdw c -> fits_w c dw w ->
  exists v, carry c dw (cap_w c w aw sid r0) = Some (w_id w, v) /\ out_w c (w_id w) v = w.
Proof.
  intros dw w aw sid r0 Hdw (Fi & Fd & Fu).
  destruct (pid_ok (cap_w c w aw sid r0) (w_id w) Fi eq_refl) as [E1 E2].
  assert (2 ^ dw <= 2 ^ x_maxdw c) by (apply Z.pow_le_mono_r; lia).
  assert (Ed : i_payload (cap_w c w aw sid r0) = w_data w) by (cbn [cap_w i_payload]; apply trunc_small; lia).
  destruct (data_carried dw (cap_w c w aw sid r0)) as (v & V0 & V1 & V2 & V3 & V4); auto.
  { rewrite Ed. lia. }
  exists v. rewrite V0, E1. split; [reflexivity|].
  unfold out_w. rewrite V1, V2, V4, E2, Ed. cbn [cap_w i_user i_last].
  pose proof HG as (H1 & H2 & H3 & H4 & H5).
  rewrite !(trunc_small (x_userw c) (w_user w)) by lia. rewrite last_bit.
  destruct w; reflexivity.
Qed.

Lemma r_arrives : forall dw x sid r0,
  1 <= dw <= x_maxdw c -> fits_r c dw x ->
  exists v, carry c dw (cap_r c x sid r0) = Some (r_id x, v) /\ out_r c (r_id x) v = x.
Proof.
  intros dw x sid r0 Hdw (Fi & Fd & Fr & Fu).
  destruct (pid_ok (cap_r c x sid r0) (r_id x) Fi eq_refl) as [E1 E2].
  assert (2 ^ dw <= 2 ^ x_maxdw c) by (apply Z.pow_le_mono_r; lia).
  assert (Ed : i_payload (cap_r c x sid r0) = r_data x) by (cbn [cap_r i_payload]; apply trunc_small; lia).
  destruct (data_carried dw (cap_r c x sid r0)) as (v & V0 & V1 & V2 & V3 & V4); auto.
  { rewrite Ed. lia. }
  exists v. rewrite V0, E1. split; [reflexivity|].
  unfold out_r. rewrite V1, V2, V3, V4, E2, Ed. cbn [cap_r i_user i_last i_type i_resp].
  pose proof HG as (H1 & H2 & H3 & H4 & H5). unfold respw.
  rewrite !(trunc_small (x_userw c) (r_user x)) by lia. rewrite last_bit.
  rewrite (trunc_small 2 (r_resp x)) by (change (2 ^ 2) with 4; lia).
  rewrite (trunc_small 2 (r_resp x)) by (change (2 ^ 2) with 4; lia).
  destruct x; reflexivity.
Qed.

Lemma b_arrives : forall dw x sid r0,
  fits_b c x -> (2 + x_userw c) mod x_linkw c <> 0 ->
  exists v, carry c dw (cap_b c x sid r0) = Some (rb_id x, v) /\ out_b c (rb_id x) v = x.
Proof.
  intros dw x sid r0 (Fi & Fr & Fu) Hm.
  destruct (pid_ok (cap_b c x sid r0) (rb_id x) Fi eq_refl) as [E1 E2].
  pose proof HG as (H1 & H2 & H3 & H4 & H5).
  pose proof (flits_for_slack c H1 (2 + x_userw c) 1 ltac:(lia) ltac:(lia)) as S.
  specialize (S ltac:(intros j Hj; replace (2 + x_userw c + j) with (2 + x_userw c) by lia; exact Hm)).
  unfold carry. cbn [xpack cap_b i_type option_map]. rewrite E1.
  eexists. split; [reflexivity|].
  assert (Hw : 0 < want c dw B <= xpayloadw c) by (apply xp_pos; intros [?|?]; discriminate).
  assert (Hpw : xpayloadw c = x_maxdw c + 3 + x_userw c) by (unfold xpayloadw, respw; lia).
  assert (En : xnum_flits c dw B = flits_for c (2 + x_userw c)) by apply xnum_flits_want.
  unfold out_b, respw. cbn [cap_b i_user i_resp].
  rewrite !xre_get by (rewrite ?En; lia).
  rewrite get_set_same by lia. rewrite get_set_other by lia. rewrite get_set_same by lia. rewrite E2.
  replace (x_userw c - 1 + 1) with (x_userw c) by lia.
  replace (2 + x_userw c - (x_userw c + 1) + 1) with 2 by lia. unfold respw.
  rewrite !trunc_small; try lia; try (change (2 ^ 2) with 4; lia); try (apply trunc_range; lia).
  all: try (change (2 ^ 2) with 4; lia).
  destruct x; reflexivity.
Qed.
End Carry.
