(** C42: address translation of the memory controller. *)
From Coq Require Import ZArith Bool List String Lia Permutation.
From Verif Require Import MemAddrModel MemAddrSpec MemAddrProofs.
Import ListNotations.
Local Open Scope Z_scope.

Lemma set_in : forall c d, SetAddressMapping c = Some d -> forall f, exists l1 l2,
  cfields c = map Some (l1 ++ f :: l2) /\ NoDup (l1 ++ f :: l2) /\ Permutation [CH; RA; BG; BA; RO; CO] (l1 ++ f :: l2).
Proof.
  intros c d H f. destruct (decoder_ok c d H) as (l & Hl & Hd & Hp & _).
  assert (In f l). { apply (Permutation_in _ Hp). destruct f; cbn; tauto. }
  apply in_split in H0. destruct H0 as (l1 & l2 & ->). exists l1, l2. auto.
Qed.

(** A mapping that the DRAM simulator accepts names each field once, and the controller works with the same fields. *)
Theorem C42_mapping : forall c d, SetAddressMapping c = Some d ->
  exists l, map fld_of (tokens (mc_mapping c)) = map Some l /\ Permutation [CH; RA; BG; BA; RO; CO] l.
Proof. intros c d H. destruct (decoder_ok c d H) as (l & Hl & _ & Hp & _). exists l. auto. Qed.

(** The translated address has the channel it is meant for, on both sides, and otherwise the fields of the module address. *)
Theorem C42_decode : forall c d addr ch,
  sizes_ok c -> SetAddressMapping c = Some d -> total_bits c < 64 -> 0 <= ch < 2 ^ bits c CH -> 0 <= addr ->
  exists t, translate c addr ch = Some t /\ 0 <= t < 2 ^ total_bits c /\
    channel_of_addr c t = Some ch /\ dram_field d t CH = ch /\
    (forall f, f <> CH -> dram_field d t f = module_field c addr f) /\
    t mod 2 ^ burst_bits c = addr mod 2 ^ burst_bits c.
Proof.
  intros c d addr ch Hs Hd Ht Hch Ha.
  destruct (set_in c d Hd CH) as (l1 & l2 & Hc & Hnd & Hp).
  pose proof (bl_range c Hs) as Hbl. pose proof (total_wsum c _ Hp) as Htot.
  destruct (translate_ok c d Hs Hd addr ch _ Hch Ht Hc Hp) as [Htr HB].
  set (v := fun f => match f with CH => ch | _ => module_field c addr f end) in *.
  assert (Hv : forall f, 0 <= v f < 2 ^ bits c f) by (intros []; first [exact Hch|apply (module_field_range c d Hs Hd)]).
  assert (Hw : forall f, 0 <= bits c f) by (intro f; apply (bits_range c d Hs Hd f)).
  assert (Pb : 0 < 2 ^ burst_bits c) by (apply Z.pow_pos_nonneg; lia).
  pose proof (Z.mod_pos_bound addr (2 ^ burst_bits c) Pb) as Hm.
  eexists. split; [exact Htr|].
  set (e := enc (bits c) v (l1 ++ CH :: l2) 0) in *.
  assert (Hdiv : (e * 2 ^ burst_bits c + addr mod 2 ^ burst_bits c) / 2 ^ burst_bits c = e)
    by (rewrite Z.div_add_l by lia; rewrite (Z.div_small (addr mod _)) by lia; lia).
  assert (Hf : forall f, dram_field d (e * 2 ^ burst_bits c + addr mod 2 ^ burst_bits c) f = v f).
  { intro f. destruct (set_in c d Hd f) as (m1 & m2 & Hc' & _ & Hp'). rewrite (dram_field_ok c d Hs Hd _ f m1 m2 Hc' Hp'), Hdiv.
    assert (El : l1 ++ CH :: l2 = m1 ++ f :: m2).
    { rewrite Hc in Hc'. revert Hc'. generalize (l1 ++ CH :: l2) (m1 ++ f :: m2). clear. induction l as [|x l IH]; intros [|y m] E; cbn in E; try congruence. injection E as -> E. f_equal. auto. }
    unfold e. rewrite El. apply enc_get; assumption. }
  split; [|split; [|split; [|split]]].
  - rewrite Htot, Z.pow_add_r by (auto using wsum_nonneg; lia). nia.
  - unfold channel_of_addr. rewrite Hc, (skip_ok c d Hs Hd). 2: { apply NoDup_remove_2 in Hnd. rewrite in_app_iff in Hnd. tauto. }
    rewrite (proj1 (bl_eq c Hs)), (cw c d Hs Hd). unfold int_mask. pose proof (bits_range c d Hs Hd CH) as Hr.
    rewrite (proj2 (Z.leb_le _ _)), (proj2 (Z.ltb_lt _ _)) by lia. cbn [andb].
    pose proof (wsum_nonneg (bits c) l2 Hw). pose proof (wsum_nonneg (bits c) l1 Hw). rewrite wsum_app in Htot. cbn [wsum] in Htot.
    rewrite (proj2 (Z.ltb_lt _ _)) by lia. rewrite Z.shiftl_1_l.
    replace (2 ^ bits c CH - 1) with (Z.ones (bits c CH)) by (rewrite Z.ones_equiv; lia). rewrite Z.land_ones by lia.
    rewrite Z.shiftr_div_pow2 by lia. rewrite Z.pow_add_r by lia. rewrite <- Z.div_div by (try apply Z.pow_nonzero; try apply Z.pow_pos_nonneg; lia).
    rewrite Hdiv. f_equal. exact (enc_get (bits c) v l1 CH l2 Hw Hv).
  - apply (Hf CH).
  - intros f Hne. rewrite Hf. destruct f; [congruence|reflexivity..].
  - rewrite Z.add_comm, Z.mod_add by lia. apply Z.mod_mod. lia.
Qed.

(** Translation is a bijection between the addresses of all the channels and the addresses of the memory. *)
Theorem C42_injective : forall c d a1 ch1 a2 ch2 t,
  sizes_ok c -> SetAddressMapping c = Some d -> total_bits c < 64 ->
  0 <= ch1 < 2 ^ bits c CH -> 0 <= ch2 < 2 ^ bits c CH -> 0 <= a1 < 2 ^ module_bits c -> 0 <= a2 < 2 ^ module_bits c ->
  translate c a1 ch1 = Some t -> translate c a2 ch2 = Some t -> a1 = a2 /\ ch1 = ch2.
Proof.
  intros c d a1 ch1 a2 ch2 t Hs Hd Ht H1 H2 Ha1 Ha2 E1 E2.
  destruct (C42_decode c d a1 ch1 Hs Hd Ht H1 ltac:(lia)) as (t1 & T1 & _ & _ & C1 & F1 & B1).
  destruct (C42_decode c d a2 ch2 Hs Hd Ht H2 ltac:(lia)) as (t2 & T2 & _ & _ & C2 & F2 & B2).
  assert (t1 = t) by congruence. assert (t2 = t) by congruence. subst t1 t2.
  assert (Hf : forall f, f <> CH -> module_field c a1 f = module_field c a2 f) by (intros f Hf; rewrite <- F1, <- F2 by exact Hf; reflexivity).
  split; [|congruence].
  assert (Hw : forall f, 0 <= bits c f) by (intro f; apply (bits_range c d Hs Hd f)). pose proof (bl_range c Hs) as Hbl.
  assert (X : forall a, 0 <= a < 2 ^ module_bits c ->
    a = enc (bits c) (module_field c a) [RA; BG; RO; BA; CO] 0 * 2 ^ burst_bits c + a mod 2 ^ burst_bits c).
  { intros a Ha. rewrite (enc_digits (bits c) _ (a / 2 ^ burst_bits c)); auto.
    - assert (module_bits c = burst_bits c + wsum (bits c) [RA; BG; RO; BA; CO]) as E by (unfold module_bits; cbn [wsum]; lia).
      rewrite E, Z.pow_add_r in Ha by (auto using wsum_nonneg; lia).
      rewrite Z.mod_small. 2: { split; [apply Z.div_pos; [lia|apply Z.pow_pos_nonneg; lia]|]. apply Z.div_lt_upper_bound; [apply Z.pow_pos_nonneg; lia|lia]. }
      rewrite Z.mul_comm. apply Z.div_mod. apply Z.pow_nonzero; lia.
    - apply Z.div_pos; [lia|apply Z.pow_pos_nonneg; lia].
    - intros m1 f m2 E. unfold module_field.
      rewrite Z.div_div, <- Z.pow_add_r by (auto using wsum_nonneg; try apply Z.pow_nonzero; try apply Z.pow_pos_nonneg; auto using wsum_nonneg; lia).
      pose proof (Hw CO); pose proof (Hw BA); pose proof (Hw RO); pose proof (Hw BG); pose proof (Hw RA).
      assert (L : module_low c f = burst_bits c + wsum (bits c) m2); [|rewrite L; reflexivity].
      repeat (destruct m1 as [|? m1]; [injection E as <- <-; unfold module_low; cbn [wsum]; lia|cbn [app] in E; injection E as _ E]).
      destruct m1; discriminate E. }
  rewrite (X a1 Ha1), (X a2 Ha2). rewrite <- B1, <- B2. f_equal. f_equal. apply enc_ext; [reflexivity|].
  intros f Hin. apply Hf. cbn [In] in Hin. intros ->. intuition discriminate.
Qed.

Theorem C42_surjective : forall c d t,
  sizes_ok c -> SetAddressMapping c = Some d -> total_bits c < 64 -> 0 <= t < 2 ^ total_bits c ->
  exists a ch, 0 <= a < 2 ^ module_bits c /\ 0 <= ch < 2 ^ bits c CH /\ translate c a ch = Some t.
Proof.
  intros c d t Hs Hd Ht Htr.
  assert (Hw : forall f, 0 <= bits c f) by (intro f; apply (bits_range c d Hs Hd f)). pose proof (bl_range c Hs) as Hbl.
  assert (Pb : 0 < 2 ^ burst_bits c) by (apply Z.pow_pos_nonneg; lia).
  set (F := fun f => dram_field d t f).
  assert (HF : forall f, 0 <= F f < 2 ^ bits c f).
  { intro f. unfold F. destruct (set_in c d Hd f) as (m1 & m2 & Hc' & _ & Hp'). rewrite (dram_field_ok c d Hs Hd _ f m1 m2 Hc' Hp'). apply Z.mod_pos_bound. apply Z.pow_pos_nonneg; auto; lia. }
  pose proof (enc_bound (bits c) F [RA; BG; RO; BA; CO] Hw HF) as B.
  assert (Em : module_bits c = burst_bits c + wsum (bits c) [RA; BG; RO; BA; CO]) by (unfold module_bits; cbn [wsum]; lia).
  pose proof (Z.mod_pos_bound t (2 ^ burst_bits c) Pb) as Hm.
  set (e := enc (bits c) F [RA; BG; RO; BA; CO] 0) in *.
  exists (e * 2 ^ burst_bits c + t mod 2 ^ burst_bits c), (F CH).
  split; [rewrite Em, Z.pow_add_r by (auto using wsum_nonneg; lia); nia|]. split; [apply HF|].
  destruct (set_in c d Hd CH) as (l1 & l2 & Hc & Hnd & Hp).
  destruct (translate_ok c d Hs Hd (e * 2 ^ burst_bits c + t mod 2 ^ burst_bits c) (F CH) _ (HF CH) Ht Hc Hp) as [Htr' _].
  rewrite Htr'. f_equal.
  assert (MF : forall f, f <> CH -> module_field c (e * 2 ^ burst_bits c + t mod 2 ^ burst_bits c) f = F f).
  { intros f Hf. assert (exists m1 m2, [RA; BG; RO; BA; CO] = m1 ++ f :: m2 /\ module_low c f = burst_bits c + wsum (bits c) m2) as (m1 & m2 & E & L).
    { destruct f; [congruence|exists []|exists [RA]|exists [RA; BG; RO]|exists [RA; BG]|exists [RA; BG; RO; BA]]; eexists; (split; [reflexivity|unfold module_low; cbn [wsum]; lia]). }
    unfold module_field. rewrite L, Z.pow_add_r by (auto using wsum_nonneg; lia).
    rewrite <- Z.div_div by (try apply Z.pow_nonzero; try apply Z.pow_pos_nonneg; auto using wsum_nonneg; lia).
    rewrite Z.div_add_l by lia. rewrite (Z.div_small (t mod _)) by lia. rewrite Z.add_0_r. unfold e. rewrite E. apply enc_get; assumption. }
  rewrite (enc_ext (bits c) (bits c) _ F); [|reflexivity|intros [] _; try reflexivity; apply MF; discriminate].
  rewrite (Z.add_comm (e * _)), Z.mod_add, Z.mod_mod by lia.
  rewrite (enc_digits (bits c) _ (t / 2 ^ burst_bits c)); auto.
  - rewrite (total_wsum c _ Hp), Z.pow_add_r in Htr by (auto using wsum_nonneg; lia).
    rewrite Z.mod_small. 2: { split; [apply Z.div_pos; lia|]. apply Z.div_lt_upper_bound; lia. }
    rewrite Z.mul_comm. symmetry. apply Z.div_mod. lia.
  - apply Z.div_pos; lia.
  - intros m1 f m2 E. unfold F. apply (dram_field_ok c d Hs Hd t f m1 m2); rewrite <- E; assumption.
Qed.

(** Whatever the address, the decoded fields are within the geometry of the memory. *)
Theorem C42_in_range : forall c d t f, sizes_ok c -> SetAddressMapping c = Some d -> 0 <= dram_field d t f < field_count c f.
Proof.
  intros c d t f Hs Hd. destruct (set_in c d Hd f) as (m1 & m2 & Hc' & _ & Hp'). rewrite (dram_field_ok c d Hs Hd _ f m1 m2 Hc' Hp').
  pose proof (bits_range c d Hs Hd f) as Hr.
  match goal with |- 0 <= ?x mod ?y < _ => pose proof (Z.mod_pos_bound x y ltac:(apply Z.pow_pos_nonneg; lia)) as B end.
  enough (2 ^ bits c f <= field_count c f) by lia. destruct Hs.
  destruct f; cbn [bits field_count] in *; try (apply Z.log2_spec; lia).
  transitivity (2 ^ Z.log2 (mc_columns c)); [|apply Z.log2_spec; lia]. apply Z.pow_le_mono_r; [lia|]. pose proof (Z.log2_nonneg (mc_BL c)). lia.
Qed.

(** With a number of channels that is no power of two, the request for a channel beyond the last power goes to another channel and another place. *)
Theorem C42_refuted : exists c d ch, sizes_ok c /\ SetAddressMapping c = Some d /\ total_bits c < 64 /\ 0 <= ch < mc_channels c /\
  exists t, translate c 0 ch = Some t /\ dram_field d t CH <> ch /\ translate c (2 ^ (burst_bits c + bits c CO + bits c BA)) 0 = Some t.
Proof.
  exists {| mc_channels := 3; mc_ranks := 1; mc_bankgroups := 1; mc_banks := 4; mc_rows := 16; mc_columns := 64; mc_BL := 4; mc_bus := 64;
            mc_mapping := "rochrababgco" |}.
  eexists. exists 2. split.
  - constructor; cbn [mc_channels mc_ranks mc_bankgroups mc_banks mc_rows mc_columns mc_BL mc_bus]; try lia. exists 8. reflexivity. apply Z.div_lt_upper_bound; lia.
  - split; [reflexivity|]. split; [vm_compute; reflexivity|]. split; [cbn; lia|]. eexists. split; [vm_compute; reflexivity|].
    split; [vm_compute; discriminate|vm_compute; reflexivity].
Qed.

(** Addresses beyond the end of a channel denote places within it. *)
Theorem C42_beyond : forall c d addr ch, sizes_ok c -> SetAddressMapping c = Some d -> total_bits c < 64 -> 0 <= ch < 2 ^ bits c CH -> 0 <= addr ->
  translate c (addr + 2 ^ module_bits c) ch = translate c addr ch.
Proof.
  intros c d addr ch Hs Hd Ht Hch Ha. destruct (set_in c d Hd CH) as (l1 & l2 & Hc & Hnd & Hp).
  assert (Hw : forall f, 0 <= bits c f) by (intro f; apply (bits_range c d Hs Hd f)). pose proof (bl_range c Hs) as Hbl.
  rewrite (proj1 (translate_ok c d Hs Hd addr ch _ Hch Ht Hc Hp)), (proj1 (translate_ok c d Hs Hd (addr + 2 ^ module_bits c) ch _ Hch Ht Hc Hp)).
  pose proof (Hw CO); pose proof (Hw BA); pose proof (Hw RO); pose proof (Hw BG); pose proof (Hw RA).
  assert (P : forall x, 0 <= x -> 0 < 2 ^ x) by (intros; apply Z.pow_pos_nonneg; lia).
  f_equal. f_equal.
  - f_equal. apply enc_ext; [reflexivity|]. intros f _.
    assert (X : forall lo w, 0 <= lo -> 0 <= w -> lo + w <= module_bits c -> ((addr + 2 ^ module_bits c) / 2 ^ lo) mod 2 ^ w = (addr / 2 ^ lo) mod 2 ^ w).
    { intros lo w L W LW. replace (2 ^ module_bits c) with (2 ^ (module_bits c - lo - w) * 2 ^ w * 2 ^ lo) by (rewrite <- !Z.pow_add_r by lia; f_equal; lia).
      pose proof (P lo L). pose proof (P w W). rewrite Z.div_add by lia. apply Z.mod_add. lia. }
    destruct f; try reflexivity; apply X; unfold module_low, module_bits in *; lia.
  - replace (2 ^ module_bits c) with (2 ^ (module_bits c - burst_bits c) * 2 ^ burst_bits c) by (rewrite <- Z.pow_add_r by (unfold module_bits; lia); f_equal; lia).
    pose proof (P (burst_bits c) ltac:(lia)). apply Z.mod_add. lia.
Qed.

Print Assumptions C42_mapping.
Print Assumptions C42_decode.
Print Assumptions C42_injective.
Print Assumptions C42_surjective.
Print Assumptions C42_in_range.
Print Assumptions C42_refuted.
Print Assumptions C42_beyond.

(** DRAMsim3/configs/HBM2_8Gb_x128.ini *)
Definition hbm2 : memcfg := {| mc_channels := 8; mc_ranks := 1; mc_bankgroups := 4; mc_banks := 4; mc_rows := 32768; mc_columns := 64; mc_BL := 4; mc_bus := 128;
  mc_mapping := "rorabgbachco" |}.
Lemma hbm2_ok : sizes_ok hbm2 /\ total_bits hbm2 < 64 /\ SetAddressMapping hbm2 <> None.
Proof.
  split; [|split; [vm_compute; reflexivity|vm_compute; discriminate]].
  constructor; cbn [hbm2 mc_channels mc_ranks mc_bankgroups mc_banks mc_rows mc_columns mc_BL mc_bus]; try lia. exists 16. reflexivity. apply Z.div_lt_upper_bound; lia.
Qed.
Example C42_mapping_ex : SetAddressMapping hbm2 <> None. Proof. apply hbm2_ok. Qed.
Example C42_decode_ex : sizes_ok hbm2 /\ total_bits hbm2 < 64 /\ SetAddressMapping hbm2 <> None /\ bits hbm2 CH = 3 /\
  translate hbm2 0x1234567 5 = Some 610809191.
Proof. split; [apply hbm2_ok|]. split; [apply hbm2_ok|]. split; [apply hbm2_ok|]. split; vm_compute; reflexivity. Qed.
Example C42_injective_ex : module_bits hbm2 = 29 /\ translate hbm2 0x1234567 5 <> translate hbm2 0x1234567 4 /\ translate hbm2 0x1234567 5 <> translate hbm2 0x1234563 5.
Proof. split; [reflexivity|]. split; vm_compute; discriminate. Qed.
Example C42_surjective_ex : total_bits hbm2 = 32 /\ translate hbm2 0x1fffffff 7 = Some (2 ^ 32 - 1).
Proof. split; vm_compute; reflexivity. Qed.
Example C42_in_range_ex : field_count hbm2 RO = 32768 /\ option_map (fun d => dram_field d (2 ^ 32 - 1) RO) (SetAddressMapping hbm2) = Some 32767.
Proof. split; vm_compute; reflexivity. Qed.
Example C42_beyond_ex : translate hbm2 (100 + 2 ^ 29) 3 = translate hbm2 100 3.
Proof. vm_compute. reflexivity. Qed.
