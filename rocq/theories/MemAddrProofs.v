(** Lemmas about memory addresses. *)
From Coq Require Import ZArith Bool List String Lia Permutation.
From Verif Require Import MemAddrModel MemAddrSpec.
Import ListNotations.
Local Open Scope Z_scope.

(** ** Logarithms *)
Lemma log_base2_ok : forall k n, n < 2 ^ Z.of_nat k -> log_base2 k n = Z.log2 n.
Proof.
  induction k as [|k IH]; intros n H.
  - cbn in H |- *. symmetry. apply Z.log2_nonpos. lia.
  - rewrite Nat2Z.inj_succ, Z.pow_succ_r in H by lia. cbn [log_base2]. destruct (1 <? n) eqn:E.
    + apply Z.ltb_lt in E. rewrite Z.quot_div_nonneg by lia. rewrite IH by (apply Z.div_lt_upper_bound; lia).
      change (n / 2) with (n / 2 ^ 1). rewrite <- (Z.shiftr_div_pow2 n 1) by lia. rewrite Z.log2_shiftr by lia.
      assert (1 <= Z.log2 n) by (apply Z.log2_le_pow2; cbn; lia). lia.
    + apply Z.ltb_ge in E. destruct (Z_le_gt_dec n 0). symmetry. apply Z.log2_nonpos. lia. replace n with 1 by lia. reflexivity.
Qed.
Lemma LogBase2_ok : forall n, n < 2 ^ 32 -> LogBase2 n = Z.log2 n.
Proof. intros. apply log_base2_ok. exact H. Qed.

(** ** Tokens *)
Lemma fld_eqb_eq : forall a b, fld_eqb a b = true <-> a = b.
Proof. intros [] []; cbn; split; congruence. Qed.

Lemma at_field_some : forall w m f p, at_field w m f = Some p -> m f <> None /\ 0 <= w f < 31 /\ m f = Some (fst p) /\ snd p = 2 ^ w f - 1.
Proof.
  intros w m f p H. unfold at_field, int_mask in H. destruct (m f); [|discriminate].
  destruct ((0 <=? w f) && (w f <? 31)) eqn:E; [|discriminate]. apply andb_true_iff in E. destruct E as [E1 E2].
  apply Z.leb_le in E1. apply Z.ltb_lt in E2. injection H as <-. cbn [fst snd].
  rewrite Z.shiftl_1_l. repeat split; congruence || lia.
Qed.

Fixpoint wsum (w : fld -> Z) (l : list fld) : Z := match l with [] => 0 | f :: r => w f + wsum w r end.
Lemma wsum_app : forall w a b, wsum w (a ++ b) = wsum w a + wsum w b.
Proof. induction a; intros; cbn [wsum app]; [lia|rewrite IHa; lia]. Qed.
Lemma wsum_nonneg : forall w l, (forall f, 0 <= w f) -> 0 <= wsum w l.
Proof. intros w l H. induction l as [|f l IH]; cbn [wsum]; [lia|]. pose proof (H f). lia. Qed.
Lemma wsum_perm : forall w a b, Permutation a b -> wsum w a = wsum w b.
Proof. intros w a b H. induction H; cbn [wsum]; lia. Qed.
Lemma wsum_rev : forall w l, wsum w (rev l) = wsum w l.
Proof. intros. apply wsum_perm. symmetry. apply Permutation_rev. Qed.

(** The position of each field in the map. *)
Lemma field_positions_ok : forall w back pos m m',
  field_positions w back pos m = Some m' ->
  exists l, map fld_of back = map Some l /\
    (forall f, ~ In f l -> m' f = m f) /\
    (NoDup l -> forall l1 f l2, l = l1 ++ f :: l2 -> m' f = Some (pos + wsum w l1)).
Proof.
  induction back as [|t back IH]; intros pos m m' H; cbn [field_positions] in H.
  - injection H as <-. exists []. split; [reflexivity|]. split; [reflexivity|]. intros _ l1 f l2 E. destruct l1; discriminate.
  - destruct (fld_of t) as [f|] eqn:Ef; [|discriminate]. destruct (IH _ _ _ H) as (l & El & Hn & Hp).
    exists (f :: l). split; [cbn [map]; congruence|]. split.
    + intros g Hg. cbn [In] in Hg. rewrite Hn by tauto. destruct (fld_eqb g f) eqn:E; [|reflexivity].
      apply fld_eqb_eq in E. subst g. tauto.
    + intros Hd l1 g l2 E. inversion Hd as [|? ? Hf Hd']; subst. destruct l1 as [|h l1]; cbn [app] in E.
      * injection E as <- <-. rewrite Hn by assumption. rewrite (proj2 (fld_eqb_eq f f) eq_refl). cbn [wsum]. f_equal. lia.
      * injection E as <- E. rewrite (Hp Hd' _ _ _ E). cbn [wsum]. f_equal. lia.
Qed.

Lemma all_flds : forall l : list fld, List.length l = 6%nat -> (forall f, In f l) -> NoDup l /\ Permutation [CH; RA; BG; BA; RO; CO] l.
Proof.
  intros l Hl Hin.
  assert (Hd : NoDup [CH; RA; BG; BA; RO; CO]) by (repeat constructor; cbn; intuition discriminate).
  assert (Hi : incl [CH; RA; BG; BA; RO; CO] l) by (intros f _; apply Hin).
  assert (Hdl : NoDup l). { apply (NoDup_incl_NoDup Hd); [cbn [List.length]; lia|exact Hi]. }
  split; [exact Hdl|]. apply NoDup_Permutation; auto. intro f. split; intro; [apply Hin|]. destruct f; cbn; tauto.
Qed.

Lemma tokens_length : forall n s, String.length s = (2 * n)%nat -> List.length (tokens s) = n.
Proof.
  induction n as [|n IH]; intros s H.
  - destruct s; [reflexivity|discriminate].
  - destruct s as [|a [|b s]]; cbn [String.length] in H; [lia|lia|]. cbn [tokens List.length]. f_equal. apply IH. lia.
Qed.

(** What a decoder that was set up is. *)
Lemma decoder_ok : forall c d, SetAddressMapping c = Some d ->
  exists l, cfields c = map Some l /\ NoDup l /\ Permutation [CH; RA; BG; BA; RO; CO] l /\
    (forall f, 0 <= dwidth c f < 31) /\ d_shift d = shift_bits c /\ (forall f, d_mask d f = 2 ^ dwidth c f - 1) /\
    (forall l1 f l2, l = l1 ++ f :: l2 -> d_pos d f = wsum (dwidth c) l2).
Proof.
  intros c d H. unfold SetAddressMapping in H. destruct (Nat.eqb (String.length (mc_mapping c)) 12) eqn:El; [|discriminate].
  apply Nat.eqb_eq in El. cbn [negb] in H.
  destruct (field_positions _ _ _ _) as [m|] eqn:Em; [|discriminate].
  destruct (at_field _ m CH) as [ch|] eqn:E1; [|discriminate]. destruct (at_field _ m RA) as [ra|] eqn:E2; [|discriminate].
  destruct (at_field _ m BG) as [bg|] eqn:E3; [|discriminate]. destruct (at_field _ m BA) as [ba|] eqn:E4; [|discriminate].
  destruct (at_field _ m RO) as [ro|] eqn:E5; [|discriminate]. destruct (at_field _ m CO) as [co|] eqn:E6; [|discriminate].
  cbn beta zeta in H.
  apply at_field_some in E1, E2, E3, E4, E5, E6.
  set (get := fun f : fld => match f with CH => ch | RA => ra | BG => bg | BA => ba | RO => ro | CO => co end) in *.
  assert (A : forall f, m f <> None /\ 0 <= dwidth c f < 31 /\ m f = Some (fst (get f)) /\ snd (get f) = 2 ^ dwidth c f - 1) by (intros []; [exact E1|exact E2|exact E3|exact E4|exact E5|exact E6]).
  change (Some {| d_shift := shift_bits c; d_pos := fun f => fst (get f); d_mask := fun f => snd (get f) |} = Some d) in H.
  clear E1 E2 E3 E4 E5 E6. clearbody get.
  destruct (field_positions_ok _ _ _ _ _ Em) as (lb & Elb & Hn & Hp).
  assert (Hin : forall f, In f lb).
  { intro f. destruct (in_dec (fun a b : fld => ltac:(decide equality)) f lb) as [i|n]; [exact i|]. exfalso. specialize (Hn f n).
    destruct (A f) as (A1 & _). congruence. }
  assert (Hlen : List.length lb = 6%nat).
  { rewrite <- (map_length Some lb), <- Elb, map_length, rev_length. apply tokens_length. exact El. }
  destruct (all_flds lb Hlen Hin) as [Hd Hperm].
  exists (rev lb). split; [|split; [|split; [|split; [|split; [|split]]]]].
  - unfold cfields. rewrite map_rev, <- Elb, map_rev, rev_involutive. reflexivity.
  - apply NoDup_rev. exact Hd.
  - rewrite Hperm at 1. apply Permutation_rev.
  - intro f. apply A.
  - injection H as <-. reflexivity.
  - injection H as <-. intro f. cbn [d_mask]. apply A.
  - intros l1 f l2 E. assert (E' : lb = rev l2 ++ f :: rev l1).
    { rewrite <- (rev_involutive lb), E, rev_app_distr. cbn [rev]. rewrite <- app_assoc. reflexivity. }
    specialize (Hp Hd _ _ _ E'). rewrite wsum_rev in Hp. cbn [Z.add] in Hp.
    injection H as <-. cbn [d_pos]. destruct (A f) as (_ & _ & A3 & _). congruence.
Qed.

(** ** Concatenation of fields *)
Definition enc (w v : fld -> Z) (l : list fld) (acc : Z) : Z := fold_left (fun a f => a * 2 ^ w f + v f) l acc.
Lemma enc_app : forall w v a b acc, enc w v (a ++ b) acc = enc w v b (enc w v a acc).
Proof. intros. apply fold_left_app. Qed.
Lemma enc_acc : forall w v l acc, (forall f, 0 <= w f) -> enc w v l acc = acc * 2 ^ wsum w l + enc w v l 0.
Proof.
  intros w v l. induction l as [|f l IH]; intros acc H; cbn [enc fold_left wsum].
  - cbn. lia.
  - fold (enc w v l (acc * 2 ^ w f + v f)). fold (enc w v l (0 * 2 ^ w f + v f)).
    rewrite (IH (acc * 2 ^ w f + v f)) by assumption. rewrite (IH (0 * 2 ^ w f + v f)) by assumption.
    rewrite Z.pow_add_r by (auto using wsum_nonneg). ring.
Qed.
Lemma enc_bound : forall w v l, (forall f, 0 <= w f) -> (forall f, 0 <= v f < 2 ^ w f) -> 0 <= enc w v l 0 < 2 ^ wsum w l.
Proof.
  intros w v l Hw Hv. induction l as [|f l IH]; cbn [enc fold_left wsum].
  - cbn. lia.
  - fold (enc w v l (0 * 2 ^ w f + v f)). rewrite enc_acc by assumption. rewrite Z.pow_add_r by (auto using wsum_nonneg).
    pose proof (Hv f). pose proof (Z.pow_pos_nonneg 2 (wsum w l) ltac:(lia) ltac:(auto using wsum_nonneg)). nia.
Qed.
Lemma enc_get : forall w v l1 f l2, (forall f, 0 <= w f) -> (forall f, 0 <= v f < 2 ^ w f) ->
  (enc w v (l1 ++ f :: l2) 0 / 2 ^ wsum w l2) mod 2 ^ w f = v f.
Proof.
  intros w v l1 f l2 Hw Hv. rewrite enc_app. cbn [enc fold_left]. fold (enc w v l1 0). fold (enc w v l2 (enc w v l1 0 * 2 ^ w f + v f)).
  rewrite enc_acc by assumption. pose proof (enc_bound w v l2 Hw Hv) as B.
  pose proof (Z.pow_pos_nonneg 2 (wsum w l2) ltac:(lia) ltac:(auto using wsum_nonneg)).
  rewrite Z.div_add_l by lia. rewrite (Z.div_small (enc w v l2 0)) by assumption. rewrite Z.add_0_r.
  rewrite Z.add_comm, Z.mod_add by (apply Z.pow_nonzero; [lia|apply Hw]). apply Z.mod_small. apply Hv.
Qed.
(** A number is the concatenation of its digits. *)
Lemma enc_digits : forall w l x, (forall f, 0 <= w f) -> 0 <= x -> 
  forall v, (forall l1 f l2, l = l1 ++ f :: l2 -> v f = (x / 2 ^ wsum w l2) mod 2 ^ w f) -> enc w v l 0 = x mod 2 ^ wsum w l.
Proof.
  intros w l x Hw Hx. induction l as [|f l IH]; intros v Hv.
  - cbn. symmetry. apply Z.mod_1_r.
  - cbn [enc fold_left]. fold (enc w v l (0 * 2 ^ w f + v f)). rewrite enc_acc by assumption.
    rewrite IH. 2: { intros l1 g l2 E. apply (Hv (f :: l1)). cbn [app]. congruence. }
    rewrite (Hv [] f l eq_refl). cbn [wsum]. rewrite Z.mul_0_l, Z.add_0_l, (Z.add_comm (w f)).
    rewrite (Z.pow_add_r 2 (wsum w l) (w f)) by (auto using wsum_nonneg).
    rewrite Z.rem_mul_r by (try (apply Z.pow_nonzero; auto using wsum_nonneg; lia); apply Z.pow_pos_nonneg; auto using wsum_nonneg; lia). ring.
Qed.
Lemma enc_ext : forall w w' v v' l acc, (forall f, w f = w' f) -> (forall f, In f l -> v f = v' f) -> enc w v l acc = enc w' v' l acc.
Proof.
  intros w w' v v' l. induction l as [|f l IH]; intros acc H H'; cbn [enc fold_left]; [reflexivity|].
  rewrite (H f), (H' f) by (left; reflexivity). apply IH; auto. intros. apply H'. right. assumption.
Qed.

(** ** The widths of both sides agree *)
Section Cfg.
Variables (c : memcfg) (d : decoder).
Hypotheses (Hs : sizes_ok c) (Hd : SetAddressMapping c = Some d).

Lemma dw : forall f, dwidth c f = bits c f.
Proof.
  intros []; cbn [dwidth bits]; destruct Hs; rewrite !LogBase2_ok; try reflexivity; lia.
Qed.
Lemma bits_range : forall f, 0 <= bits c f < 31.
Proof. intro f. rewrite <- dw. destruct (decoder_ok c d Hd) as (l & _ & _ & _ & H & _). apply H. Qed.
Lemma cw : forall f, cwidth c f = bits c f.
Proof.
  intros []; cbn [cwidth bits]; try reflexivity. pose proof (bits_range CO) as H. cbn [bits] in H.
  rewrite Z.shiftl_1_l. apply Z.log2_pow2. lia.
Qed.
Lemma quot8 : Z.quot (mc_BL c * mc_bus c) 8 = mc_BL c * mc_bus c / 8 /\ Z.quot (mc_bus c) 8 * mc_BL c = mc_BL c * mc_bus c / 8.
Proof.
  destruct Hs. destruct so_byte as [k Hk]. rewrite !Z.quot_div_nonneg by nia. split; [reflexivity|].
  rewrite Hk, Z.div_mul by lia. rewrite Z.mul_assoc, Z.div_mul by lia. ring.
Qed.
Lemma bl_eq : cbl c = burst_bits c /\ shift_bits c = burst_bits c.
Proof.
  destruct quot8 as [Q1 Q2]. unfold cbl, shift_bits, burst_bits. rewrite Q1, Q2. split; [reflexivity|].
  apply LogBase2_ok. destruct Hs. lia.
Qed.
Lemma bl_range : 0 <= burst_bits c < 31.
Proof.
  unfold burst_bits. split; [apply Z.log2_nonneg|]. destruct Hs.
  destruct (Z_le_gt_dec (mc_BL c * mc_bus c / 8) 0); [rewrite Z.log2_nonpos by assumption; lia|]. apply Z.log2_lt_pow2; lia.
Qed.

Lemma take_ok : forall w a, 0 <= w < 31 -> take_field w a = Some (a mod 2 ^ w, a / 2 ^ w).
Proof.
  intros w a H. unfold take_field, int_mask. rewrite (proj2 (Z.leb_le 0 w)), (proj2 (Z.ltb_lt w 31)) by lia. cbn [andb].
  rewrite Z.shiftl_1_l. rewrite Z.shiftr_div_pow2 by lia. replace (2 ^ w - 1) with (Z.ones w) by (rewrite Z.ones_equiv; lia). rewrite Z.land_ones by lia. reflexivity.
Qed.
Lemma split_ok : forall a, exists v, split_addr c a = Some (a mod 2 ^ burst_bits c, v) /\ forall f, v f = module_field c a f.
Proof.
  intro a. pose proof (bits_range CO). pose proof (bits_range BA). pose proof (bits_range RO). pose proof (bits_range BG).
  pose proof (bits_range RA). pose proof (bits_range CH). pose proof bl_range.
  unfold split_addr. rewrite (proj1 bl_eq), !cw.
  rewrite !take_ok by assumption. eexists. split; [reflexivity|].
  assert (P : forall x, 0 <= x -> 2 ^ x > 0) by (intros; apply Z.lt_gt; apply Z.pow_pos_nonneg; lia).
  assert (Q : forall x m n, 0 <= m -> 0 <= n -> x / 2 ^ m / 2 ^ n = x / 2 ^ (m + n)).
  { intros. rewrite Z.div_div, <- Z.pow_add_r by (try (apply Z.gt_lt, P); try (apply Z.pow_nonzero); lia). reflexivity. }
  intros []; unfold module_field, module_low, module_bits; cbv beta; rewrite ?Q by lia; rewrite ?Z.add_assoc; reflexivity.
Qed.

Lemma put_ok : forall v ch l acc n, 0 <= n -> (forall f, 0 <= v f < 2 ^ bits c f) -> 0 <= ch < 2 ^ bits c CH -> 0 <= acc < 2 ^ n -> n + wsum (bits c) l < 64 ->
  fold_left (put_field (cwidth c) v ch) (map Some l) acc = enc (bits c) (fun f => match f with CH => ch | _ => v f end) l acc.
Proof.
  intros v ch l. induction l as [|f l IH]; intros acc n Hn Hv Hc Ha Hl; cbn [fold_left map enc wsum] in *; [reflexivity|].
  fold (enc (bits c) (fun f => match f with CH => ch | _ => v f end) l (acc * 2 ^ bits c f + match f with CH => ch | _ => v f end)).
  pose proof (wsum_nonneg (bits c) l (fun f => proj1 (bits_range f))) as Hw. pose proof (bits_range f) as Hf.
  assert (Hx : 0 <= match f with CH => ch | _ => v f end < 2 ^ bits c f) by (destruct f; first [exact Hc|apply Hv]).
  assert (Hb : 0 <= acc * 2 ^ bits c f + match f with CH => ch | _ => v f end < 2 ^ (n + bits c f)) by (rewrite Z.pow_add_r by lia; nia).
  assert (H64 : 2 ^ (n + bits c f) <= 2 ^ 64) by (apply Z.pow_le_mono_r; lia).
  assert (Hp : put_field (cwidth c) v ch acc (Some f) = acc * 2 ^ bits c f + match f with CH => ch | _ => v f end).
  { unfold put_field, u64. rewrite cw, Z.shiftl_mul_pow2 by lia. rewrite (Z.mod_small (acc * _)) by lia. apply Z.mod_small. lia. }
  rewrite Hp. apply (IH _ (n + bits c f)); auto; lia.
Qed.

Lemma total_wsum : forall l, Permutation [CH; RA; BG; BA; RO; CO] l -> total_bits c = burst_bits c + wsum (bits c) l.
Proof. intros l H. rewrite <- (wsum_perm _ _ _ H). cbn [wsum]. unfold total_bits, module_bits. lia. Qed.

Lemma module_field_range : forall a f, 0 <= module_field c a f < 2 ^ bits c f.
Proof. intros. apply Z.mod_pos_bound. apply Z.pow_pos_nonneg; [lia|apply bits_range]. Qed.

(** The translated address is the concatenation of the fields in the order of the mapping. *)
Lemma translate_ok : forall a ch l, 0 <= ch < 2 ^ bits c CH -> total_bits c < 64 -> cfields c = map Some l -> Permutation [CH; RA; BG; BA; RO; CO] l ->
  translate c a ch = Some (enc (bits c) (fun f => match f with CH => ch | _ => module_field c a f end) l 0 * 2 ^ burst_bits c + a mod 2 ^ burst_bits c) /\
  0 <= enc (bits c) (fun f => match f with CH => ch | _ => module_field c a f end) l 0 < 2 ^ wsum (bits c) l.
Proof.
  intros a ch l Hch Ht Hc Hp. rewrite (total_wsum l Hp) in Ht. pose proof bl_range as Hbl.
  pose proof (enc_bound (bits c) (fun f => match f with CH => ch | _ => module_field c a f end) l (fun f => proj1 (bits_range f))) as B.
  cbn beta in B. specialize (B ltac:(intros []; first [exact Hch|apply module_field_range])).
  split; [|exact B]. destruct (split_ok a) as (v & Hsp & Hv). unfold translate. rewrite Hsp, Hc. rewrite (proj1 bl_eq). cbn zeta.
  rewrite (put_ok v ch l 0 0); try lia.
  2: { intro f. rewrite Hv. apply module_field_range. }
  rewrite (enc_ext (bits c) (bits c) _ (fun f => match f with CH => ch | _ => module_field c a f end)); [|reflexivity|intros [] _; auto].
  pose proof (Z.mod_pos_bound a (2 ^ burst_bits c) ltac:(apply Z.pow_pos_nonneg; lia)) as Hm.
  assert (2 ^ (wsum (bits c) l + burst_bits c) <= 2 ^ 64) by (apply Z.pow_le_mono_r; lia).
  rewrite Z.pow_add_r in H by (auto using wsum_nonneg, (fun f => proj1 (bits_range f)); lia).
  unfold u64. rewrite Z.shiftl_mul_pow2 by lia. rewrite (Z.mod_small (_ * _)) by nia. rewrite Z.mod_small by nia. reflexivity.
Qed.

Lemma dram_field_ok : forall t f l1 l2, cfields c = map Some (l1 ++ f :: l2) -> Permutation [CH; RA; BG; BA; RO; CO] (l1 ++ f :: l2) ->
  dram_field d t f = (t / 2 ^ burst_bits c / 2 ^ wsum (bits c) l2) mod 2 ^ bits c f.
Proof.
  intros t f l1 l2 Hc Hp. destruct (decoder_ok c d Hd) as (l & Hl & _ & _ & Hw & Hsh & Hm & Hpos).
  assert (l = l1 ++ f :: l2). { rewrite Hl in Hc. revert Hc. generalize (l1 ++ f :: l2). clear. induction l as [|x l IH]; intros [|y m] E; cbn in E; try congruence. injection E as -> E. f_equal. auto. }
  unfold dram_field. rewrite Hsh, Hm, (Hpos _ _ _ H), (proj2 bl_eq), dw. pose proof bl_range. pose proof (bits_range f).
  assert (wsum (dwidth c) l2 = wsum (bits c) l2) as ->. { clear - Hs Hd. induction l2 as [|g l2 IH]; cbn [wsum]; [reflexivity|]. rewrite dw, IH. reflexivity. }
  rewrite !Z.shiftr_div_pow2 by (auto using wsum_nonneg, (fun f => proj1 (bits_range f)); lia).
  replace (2 ^ bits c f - 1) with (Z.ones (bits c f)) by (rewrite Z.ones_equiv; lia). apply Z.land_ones. lia.
Qed.

Lemma skip_ok : forall l1 l2 n, ~ In CH l2 -> skip_bits (cwidth c) (rev (map Some (l1 ++ CH :: l2))) n = n + wsum (bits c) l2.
Proof.
  intros l1 l2 n H. rewrite <- map_rev, rev_app_distr. cbn [rev]. rewrite <- app_assoc. cbn [app]. rewrite <- (wsum_rev (bits c) l2).
  assert (H' : ~ In CH (rev l2)) by (rewrite <- in_rev; exact H). revert n H'. generalize (rev l2). clear - Hs Hd.
  induction l as [|f l IH]; intros n H.
  - cbn [app map skip_bits wsum]. lia.
  - cbn [app map skip_bits wsum]. cbn [In] in H.
    assert (E : skip_bits (cwidth c) (map Some (l ++ CH :: rev l1)) (n + cwidth c f) = n + (bits c f + wsum (bits c) l)) by (rewrite IH by tauto; rewrite cw; lia).
    destruct f; first [exact E|tauto].
Qed.
End Cfg.
