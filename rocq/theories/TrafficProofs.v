(** Traffic patterns: permutations of bits, of digits and at random. *)
From Coq Require Import ZArith Arith Bool List Lia Permutation.
From Verif Require Import TrafficModel TrafficSpec.
Import ListNotations.
Open Scope Z_scope.

Lemma in_nodes : forall n x, In x (nodes_of n) <-> 0 <= x < n.
Proof.
  intros n x. unfold nodes_of. rewrite in_map_iff. split.
  - intros [y [<- H]]. apply in_seq in H. lia.
  - intros H. exists (Z.to_nat x). split; [lia|]. apply in_seq. lia.
Qed.
Lemma permutes_ok : forall n d, (forall x, 0 <= x < n -> 0 <= d x < n) -> (forall x y, 0 <= x < n -> 0 <= y < n -> d x = d y -> x = y) -> permutes n d.
Proof.
  intros n d R J. unfold permutes. assert (ND : NoDup (nodes_of n)) by (apply FinFun.Injective_map_NoDup; [intros x y E; lia|apply seq_NoDup]).
  assert (NM : NoDup (map d (nodes_of n))).
  { assert (G : forall l, NoDup l -> (forall x, In x l -> 0 <= x < n) -> NoDup (map d l)).
    { intros l H. induction H as [|x l Hx H IH]; intros Hl; cbn [map]; constructor; [|apply IH; intros; apply Hl; right; auto].
      intros Hc. apply in_map_iff in Hc. destruct Hc as [y [E Hy]]. apply J in E; [|apply Hl; right; auto|apply Hl; left; auto]. subst y. contradiction. }
    apply G; auto. intros x Hx. apply in_nodes. exact Hx. }
  apply NoDup_Permutation_bis; auto.
  - rewrite map_length. lia.
  - intros x Hx. apply in_map_iff in Hx. destruct Hx as [y [<- Hy]]. apply in_nodes. apply R. apply in_nodes. exact Hy.
Qed.

(** ** Bits *)
Lemma bit_ok_pow : forall n, 0 < n -> bit_ok n = true <-> exists m, 0 <= m /\ n = 2 ^ m.
Proof.
  intros n Hn. unfold bit_ok. rewrite Z.eqb_eq. replace (- n) with (Z.lnot (n - 1)) by (unfold Z.lnot; lia). split.
  - intros E. exists (Z.log2 n). pose proof (Z.log2_nonneg n). split; auto. destruct (Z.log2_spec n Hn) as [L U]. destruct (Z.eq_dec n (2 ^ Z.log2 n)) as [|Ne]; auto. exfalso.
    assert (B : Z.testbit n (Z.log2 n) = true) by (apply Z.bit_log2; auto). rewrite <- E in B at 1. rewrite Z.land_spec, Z.lnot_spec in B by auto.
    assert (L1 : Z.log2 (n - 1) = Z.log2 n) by (apply Z.log2_unique; lia). assert (P : 0 < 2 ^ Z.log2 n) by (apply Z.pow_pos_nonneg; lia).
    assert (B1 : Z.testbit (n - 1) (Z.log2 n) = true) by (rewrite <- L1; apply Z.bit_log2; lia). rewrite B1 in B. rewrite andb_comm in B. discriminate.
  - intros [m [Hm ->]]. apply Z.bits_inj'. intros i Hi. rewrite Z.land_spec, Z.lnot_spec by auto. rewrite Z.pow2_bits_eqb by auto. destruct (Z.eqb_spec m i) as [->|]; [|reflexivity].
    cbn [andb]. rewrite Z.sub_1_r, <- Z.ones_equiv. rewrite Z.ones_spec_high by lia. reflexivity.
Qed.
Lemma low_bit : forall b m r i, 0 <= i < m -> Z.testbit (b * 2 ^ m + r) i = Z.testbit r i.
Proof. intros b m r i Hi. rewrite <- (Z.mod_pow2_bits_low (b * 2 ^ m + r) m i) by lia. rewrite Z.add_comm, Z.mod_add by (apply Z.pow_nonzero; lia). apply Z.mod_pow2_bits_low. lia. Qed.
Lemma bits_eq : forall m x y, 0 <= x < 2 ^ m -> 0 <= y < 2 ^ m -> (forall i, 0 <= i < m -> Z.testbit x i = Z.testbit y i) -> x = y.
Proof.
  intros m x y Hx Hy E. assert (Hm : 0 <= m) by (destruct (Z.lt_ge_cases m 0) as [L|]; [rewrite Z.pow_neg_r in Hx by auto; lia|auto]). apply Z.bits_inj'. intros i Hi. destruct (Z.lt_ge_cases i m) as [L|G]; [apply E; lia|].
  rewrite <- (Z.mod_small x (2 ^ m)), <- (Z.mod_small y (2 ^ m)) by auto. rewrite !Z.mod_pow2_bits_high by lia. reflexivity.
Qed.
Lemma comp_is : forall m s, 0 <= m -> 0 <= s < 2 ^ m -> bitcomp (2 ^ m) s = 2 ^ m - 1 - s.
Proof.
  intros m s Hm Hs. unfold bitcomp. rewrite Z.sub_1_r, <- Z.ones_equiv, Z.land_ones by auto. pose proof (Z.ones_equiv m). unfold Z.lnot. symmetry. apply (Z.mod_unique_pos _ _ (-1)); lia.
Qed.
Lemma comp_bits : forall m s i, 0 <= i < m -> Z.testbit (bitcomp (2 ^ m) s) i = negb (Z.testbit s i).
Proof. intros m s i Hi. unfold bitcomp. rewrite Z.sub_1_r, <- Z.ones_equiv. rewrite Z.land_spec, Z.lnot_spec, Z.ones_spec_low by lia. apply andb_true_r. Qed.
Lemma lor_add : forall q a b, 0 <= q -> 0 <= a < 2 ^ q -> Z.lor a (Z.shiftl b q) = a + b * 2 ^ q.
Proof.
  intros q a b Hq Ha. assert (E : Z.land a (Z.shiftl b q) = 0).
  { apply Z.bits_inj'. intros i Hi. rewrite Z.land_spec, Z.bits_0. destruct (Z.lt_ge_cases i q) as [L|G]; [rewrite (Z.shiftl_spec_low b q i) by auto; apply andb_false_r|].
    rewrite <- (Z.mod_small a (2 ^ q)) by auto. rewrite Z.mod_pow2_bits_high by lia. reflexivity. }
  rewrite <- Z.lxor_lor by exact E. rewrite <- Z.add_nocarry_lxor by exact E. rewrite Z.shiftl_mul_pow2 by auto. reflexivity.
Qed.
Lemma transpose_is : forall q s, 0 <= q -> 0 <= s < 2 ^ (2 * q) -> transpose q s = s / 2 ^ q + s mod 2 ^ q * 2 ^ q.
Proof.
  intros q s Hq Hs. assert (P : 0 < 2 ^ q) by (apply Z.pow_pos_nonneg; lia). assert (E2 : 2 ^ (2 * q) = 2 ^ q * 2 ^ q) by (rewrite <- Z.pow_add_r by auto; f_equal; lia). unfold transpose. cbv zeta.
  replace (Z.shiftl 1 q - 1) with (Z.ones q) by (rewrite Z.ones_equiv, Z.shiftl_1_l; lia). rewrite <- Z.shiftl_land. rewrite !Z.land_ones by auto. rewrite lor_add; auto.
  - rewrite Z.shiftr_div_pow2 by auto. rewrite (Z.mod_small (s / 2 ^ q)); [reflexivity|]. split; [apply Z.div_pos; lia|apply Z.div_lt_upper_bound; lia].
  - apply Z.mod_pos_bound. auto.
Qed.
Lemma shift_is : forall fuel m a, (m < fuel)%nat -> shift_loop fuel (2 ^ Z.of_nat m) a = a + Z.of_nat m.
Proof.
  intros fuel. induction fuel as [|fuel IH]; intros m a H; [lia|]. cbn [shift_loop]. rewrite Z.shiftr_div_pow2 by lia. change (2 ^ 1) with 2. destruct m as [|m]; [cbn; lia|].
  replace (2 ^ Z.of_nat (S m)) with (2 ^ Z.of_nat m * 2) by (rewrite Nat2Z.inj_succ, Z.pow_succ_r by lia; lia). rewrite Z.div_mul by lia. assert (P : 0 < 2 ^ Z.of_nat m) by (apply Z.pow_pos_nonneg; lia).
  destruct (Z.eqb_spec (2 ^ Z.of_nat m) 0); [lia|]. rewrite IH by lia. lia.
Qed.
Lemma pow_gt : forall m, (m < Z.to_nat (2 ^ Z.of_nat m))%nat.
Proof. intros m. pose proof (Z.pow_gt_lin_r 2 (Z.of_nat m)). lia. Qed.
Lemma tshift_is : forall m, transpose_shift (2 ^ Z.of_nat m) = if Nat.even m then Some (Z.of_nat m / 2) else None.
Proof.
  intros m. unfold transpose_shift. rewrite shift_is by apply pow_gt. rewrite Z.add_0_l. rewrite Z.shiftr_div_pow2 by lia. change (2 ^ 1) with 2. destruct (Nat.even m) eqn:E.
  - apply Nat.even_spec in E. destruct E as [c ->]. replace (Z.of_nat (2 * c)) with (Z.of_nat c * 2) by lia. rewrite Z.mod_mul by lia. reflexivity.
  - assert (O : Nat.odd m = true) by (rewrite <- Nat.negb_even, E; reflexivity). apply Nat.odd_spec in O. destruct O as [c ->]. replace (Z.of_nat (2 * c + 1)) with (1 + Z.of_nat c * 2) by lia. rewrite Z.mod_add by lia. reflexivity.
Qed.
(** Bits in the other order. *)
Fixpoint R (m : nat) (s : Z) : Z := match m with O => 0 | S m => s mod 2 * 2 ^ Z.of_nat m + R m (s / 2) end.
Lemma R_lt : forall m s, 0 <= R m s < 2 ^ Z.of_nat m.
Proof.
  intros m. induction m as [|m IH]; intros s; [cbn; lia|]. cbn [R]. rewrite Nat2Z.inj_succ, Z.pow_succ_r by lia. specialize (IH (s / 2)). pose proof (Z.mod_pos_bound s 2 ltac:(lia)). nia.
Qed.
Lemma R_bits : forall m s i, 0 <= i < Z.of_nat m -> Z.testbit (R m s) i = Z.testbit s (Z.of_nat m - 1 - i).
Proof.
  intros m. induction m as [|m IH]; intros s i Hi; [lia|]. cbn [R]. destruct (Z.eq_dec i (Z.of_nat m)) as [->|Ne].
  - rewrite Z.testbit_odd, Z.shiftr_div_pow2 by lia. rewrite Z.div_add_l by (apply Z.pow_nonzero; lia). rewrite Z.div_small by apply R_lt. rewrite Z.add_0_r. replace (Z.of_nat (S m) - 1 - Z.of_nat m) with 0 by lia. rewrite Z.bit0_odd. rewrite <- Z.bit0_odd, <- (Z.bit0_odd s). change 2 with (2 ^ 1). apply Z.mod_pow2_bits_low. lia.
  - rewrite low_bit by lia. rewrite IH by lia. change 2 with (2 ^ 1). rewrite Z.div_pow2_bits by lia. f_equal. lia.
Qed.
Lemma rev_loop : forall fuel m s a, (m < fuel)%nat -> 0 <= a -> bitrev_loop fuel (2 ^ Z.of_nat m) s a = a * 2 ^ Z.of_nat m + R m s.
Proof.
  intros fuel. induction fuel as [|fuel IH]; intros m s a H Ha; [lia|]. cbn [bitrev_loop]. destruct m as [|m]; [cbn; lia|]. assert (P : 0 < 2 ^ Z.of_nat m) by (apply Z.pow_pos_nonneg; lia).
  replace (2 ^ Z.of_nat (S m)) with (2 ^ Z.of_nat m * 2) by (rewrite Nat2Z.inj_succ, Z.pow_succ_r by lia; lia). destruct (Z.gtb_spec (2 ^ Z.of_nat m * 2) 1); [|lia]. rewrite !Z.shiftr_div_pow2 by lia. change (2 ^ 1) with 2. rewrite Z.div_mul by lia. rewrite Z.lor_comm.
  pose proof (Z.mod_pos_bound s 2 ltac:(lia)). rewrite lor_add by (change (2 ^ 1) with 2; lia). change (2 ^ 1) with 2. rewrite IH by lia. cbn [R]. lia.
Qed.
Lemma bitrev_is : forall m s, bitrev (2 ^ Z.of_nat m) s = R m s.
Proof. intros m s. unfold bitrev. rewrite rev_loop by (try apply pow_gt; lia). lia. Qed.
Lemma shuffle_is : forall m s, 0 <= m -> 0 <= s < 2 ^ (m + 1) -> shuffle (2 ^ (m + 1)) s = s mod 2 ^ m * 2 + s / 2 ^ m.
Proof.
  intros m s Hm Hs. assert (P : 0 < 2 ^ m) by (apply Z.pow_pos_nonneg; lia). assert (E2 : 2 ^ (m + 1) = 2 ^ m * 2) by (rewrite Z.pow_add_r by lia; reflexivity). unfold shuffle. cbv zeta.
  rewrite Z.sub_1_r, <- Z.ones_equiv, Z.land_ones by lia. rewrite Z.shiftl_mul_pow2 by lia. change (2 ^ 1) with 2. rewrite E2, Z.mul_mod_distr_r by lia. set (l := s mod 2 ^ m).
  assert (Q : s / 2 ^ m = 0 \/ s / 2 ^ m = 1). { assert (0 <= s / 2 ^ m) by (apply Z.div_pos; lia). assert (s / 2 ^ m < 2) by (apply Z.div_lt_upper_bound; lia). lia. }
  assert (T : (Z.land (s * 2) (2 ^ m * 2) =? 0) = (s / 2 ^ m =? 0)).
  { rewrite <- E2. assert (B : Z.testbit (s * 2) (m + 1) = Z.testbit s m) by (replace (s * 2) with (Z.shiftl s 1) by (rewrite Z.shiftl_mul_pow2 by lia; reflexivity); rewrite Z.shiftl_spec by lia; f_equal; lia).
    assert (B' : Z.testbit s m = Z.odd (s / 2 ^ m)) by (rewrite Z.testbit_odd, Z.shiftr_div_pow2 by lia; reflexivity). destruct Q as [Q|Q]; rewrite Q in *; cbn [Z.odd] in B'.
    - apply Z.eqb_eq. apply Z.bits_inj'. intros i Hi. rewrite Z.land_spec, Z.pow2_bits_eqb, Z.bits_0 by lia. destruct (Z.eqb_spec (m + 1) i) as [<-|]; [rewrite B, B'; reflexivity|apply andb_false_r].
    - apply Z.eqb_neq. intros E. assert (X : Z.testbit (Z.land (s * 2) (2 ^ (m + 1))) (m + 1) = true) by (rewrite Z.land_spec, Z.pow2_bits_true, B, B' by lia; reflexivity). rewrite E, Z.bits_0 in X. discriminate. }
  rewrite T. rewrite Z.lor_comm. replace (l * 2) with (Z.shiftl l 1) by (rewrite Z.shiftl_mul_pow2 by lia; reflexivity). rewrite lor_add; [|lia|change (2 ^ 1) with 2; destruct Q as [-> | ->]; cbn; lia].
  rewrite Z.shiftl_mul_pow2 by lia. change (2 ^ 1) with 2. destruct Q as [-> | ->]; cbn [Z.eqb]; lia.
Qed.

(** ** Digits *)
Fixpoint D (m : nat) (kk plus s : Z) : Z := match m with O => 0 | S m => (s mod kk + plus) mod kk + kk * D m kk plus (s / kk) end.
Lemma digit_is : forall m kk plus s o a, 0 < kk -> 0 < o -> digit_loop m kk plus s o a = a + o * D m kk plus (s / o).
Proof.
  intros m. induction m as [|m IH]; intros kk plus s o a Hk Ho; cbn [digit_loop D]; [lia|]. rewrite IH by nia. rewrite Z.div_div by lia. ring.
Qed.
Lemma D_lt : forall m kk plus s, 0 < kk -> 0 <= D m kk plus s < kk ^ Z.of_nat m.
Proof.
  intros m. induction m as [|m IH]; intros kk plus s Hk; [cbn; lia|]. cbn [D]. rewrite Nat2Z.inj_succ, Z.pow_succ_r by lia. specialize (IH kk plus (s / kk) Hk). pose proof (Z.mod_pos_bound (s mod kk + plus) kk Hk). nia.
Qed.
Lemma D_digit : forall m kk plus s i, 0 < kk -> (i < m)%nat -> (D m kk plus s / kk ^ Z.of_nat i) mod kk = ((s / kk ^ Z.of_nat i) mod kk + plus) mod kk.
Proof.
  intros m. induction m as [|m IH]; intros kk plus s i Hk Hi; [lia|]. cbn [D]. pose proof (Z.mod_pos_bound (s mod kk + plus) kk Hk) as B. destruct i as [|i].
  - change (kk ^ Z.of_nat 0) with 1. rewrite !Z.div_1_r. rewrite Z.mul_comm, Z.mod_add by lia. apply Z.mod_small. auto.
  - rewrite Nat2Z.inj_succ, Z.pow_succ_r by lia. assert (P : 0 < kk ^ Z.of_nat i) by (apply Z.pow_pos_nonneg; lia). rewrite <- !Z.div_div by lia. rewrite (Z.mul_comm kk (D _ _ _ _)), Z.div_add by lia. rewrite (Z.div_small (_ mod kk)) by auto. rewrite Z.add_0_l. apply IH; auto. lia.
Qed.
Lemma D_one : forall m kk plus s t, 0 < kk -> 0 <= s < kk ^ Z.of_nat m -> 0 <= t < kk ^ Z.of_nat m -> D m kk plus s = D m kk plus t -> s = t.
Proof.
  intros m. induction m as [|m IH]; intros kk plus s t Hk Hs Ht E; [cbn in Hs, Ht; lia|]. cbn [D] in E. rewrite Nat2Z.inj_succ, Z.pow_succ_r in Hs, Ht by lia.
  pose proof (Z.mod_pos_bound (s mod kk + plus) kk Hk) as B1. pose proof (Z.mod_pos_bound (t mod kk + plus) kk Hk) as B2.
  set (u := (s mod kk + plus) mod kk) in *. set (v := (t mod kk + plus) mod kk) in *. set (X := D m kk plus (s / kk)) in *. set (Y := D m kk plus (t / kk)) in *.
  assert (E2 : X = Y). { assert (A : (u + kk * X) / kk = X) by (rewrite Z.mul_comm, Z.div_add, Z.div_small by lia; lia). assert (B : (v + kk * Y) / kk = Y) by (rewrite Z.mul_comm, Z.div_add, Z.div_small by lia; lia). congruence. }
  assert (E1 : u = v) by (rewrite E2 in E; lia). unfold u, v in E1. unfold X, Y in E2.
  apply IH in E2; auto; try (split; [apply Z.div_pos; lia|apply Z.div_lt_upper_bound; lia]).
  assert (E3 : s mod kk = t mod kk).
  { pose proof (Z.mod_pos_bound s kk Hk). pose proof (Z.mod_pos_bound t kk Hk). rewrite <- (Z.mod_small (s mod kk) kk), <- (Z.mod_small (t mod kk) kk) by auto. replace (s mod kk) with (s mod kk + plus - plus) by lia. replace (t mod kk) with (t mod kk + plus - plus) by lia. rewrite Zminus_mod, E1, <- Zminus_mod. reflexivity. }
  rewrite (Z.div_mod s kk), (Z.div_mod t kk) by lia. congruence.
Qed.

(** ** At random *)
Definition filled (l : list (option Z)) : list Z := flat_map (fun x => match x with Some y => [y] | None => [] end) l.
Definition free (l : list (option Z)) : nat := length (filter (fun x => match x with None => true | Some _ => false end) l).
Lemma place_ok : forall l ind i, (ind < free l)%nat -> exists l', rp_place ind i l = Some l' /\ length l' = length l /\ free l = S (free l') /\ Permutation (filled l') (i :: filled l).
Proof.
  intros l. induction l as [|[x|] l IH]; intros ind i H; cbn [rp_place].
  - cbn in H. lia.
  - destruct (IH ind i) as [l' [-> [L [F P]]]]; [exact H|]. exists (Some x :: l'). split; auto. split; [cbn; lia|]. split; [exact F|]. cbn [filled flat_map app]. fold (filled l'). fold (filled l). rewrite P. apply perm_swap.
  - destruct ind as [|ind].
    + exists (Some i :: l). repeat (split; [reflexivity|]). reflexivity.
    + destruct (IH ind i) as [l' [-> [L [F P]]]]; [cbn in H; unfold free; lia|]. exists (None :: l'). split; auto. split; [cbn; lia|]. split; [cbn [free filter length]; unfold free in F; cbn; lia|]. exact P.
Qed.
Lemma loop_ok : forall m i rnd l, free l = m -> (forall j, i <= j < i + Z.of_nat m -> Z.of_nat (rnd j) <= i + Z.of_nat m - 1 - j) ->
  exists l', rp_loop m i rnd l = Some l' /\ length l' = length l /\ free l' = O /\ Permutation (filled l') (filled l ++ map (fun j => i + Z.of_nat j) (seq 0 m)).
Proof.
  intros m. induction m as [|m IH]; intros i rnd l F H; cbn [rp_loop].
  - exists l. rewrite app_nil_r. auto.
  - destruct (place_ok l (rnd i) i) as [l1 [-> [L1 [F1 P1]]]]; [specialize (H i ltac:(lia)); lia|]. destruct (IH (i + 1) rnd l1) as [l2 [E2 [L2 [F2 P2]]]]; [lia|intros j Hj; specialize (H j ltac:(lia)); lia|].
    exists l2. split; auto. split; [lia|]. split; auto. rewrite P2, P1. cbn [seq map app]. rewrite Z.add_0_r. rewrite <- Permutation_middle. constructor. apply Permutation_app_head. rewrite <- seq_shift, map_map. erewrite map_ext; [reflexivity|]. intros a. cbn. lia.
Qed.
Lemma free_none : forall l, free l = O -> l = map Some (filled l).
Proof. intros l. induction l as [|[x|] l IH]; intros H; [reflexivity| |discriminate]. cbn [filled flat_map app map]. f_equal. apply IH. exact H. Qed.
Lemma free_repeat : forall n, free (repeat None n) = n /\ filled (repeat None n) = [].
Proof. intros n. induction n as [|n [A B]]; [auto|]. cbn [repeat]. split; [unfold free in *; cbn; lia|exact B]. Qed.
(** ** Hotspots *)
Lemma hot_max_is : forall hs, hot_max hs = weight hs - 1.
Proof.
  intros hs. unfold hot_max. assert (G : forall a, fold_left (fun a h => a + snd h) hs a = a + weight hs) by (induction hs as [|h hs IH]; intros a; cbn [fold_left weight fold_right]; [lia|rewrite IH; unfold weight; lia]). rewrite G. lia.
Qed.
Lemma hot_loop_is : forall hs x, 0 <= x < weight hs -> (forall h, In h hs -> 0 < snd h) -> exists a h c, hs = a ++ h :: c /\ hot_loop hs x = Some (fst h) /\ weight a <= x < weight a + snd h.
Proof.
  intros hs. induction hs as [|h hs IH]; intros x Hx Hr; [cbn in Hx; lia|]. cbn [weight fold_right] in Hx. fold (weight hs) in Hx.
  assert (U : hot_loop (h :: hs) x = if x <? snd h then Some (fst h) else match hs with [] => None | _ => hot_loop hs (x - snd h) end) by (destruct hs; reflexivity). rewrite U. clear U.
  destruct (Z.ltb_spec x (snd h)) as [L|G].
  - exists [], h, hs. split; auto. split; auto. cbn. lia.
  - destruct (IH (x - snd h)) as [a [h' [c [E [E' B]]]]]; [lia|intros; apply Hr; right; auto|]. exists (h :: a), h', c. split; [cbn; congruence|]. split; [destruct hs; [cbn in Hx; lia|exact E']|]. cbn [weight fold_right]. fold (weight a). lia.
Qed.
Lemma weight_pos : forall hs, (forall h, In h hs -> 0 < snd h) -> 0 <= weight hs.
Proof. intros hs. induction hs as [|h hs IH]; intros H; cbn [weight fold_right]; [lia|]. fold (weight hs). specialize (H h (or_introl eq_refl)) as H0. assert (0 <= weight hs) by (apply IH; intros; apply H; right; auto). lia. Qed.
Lemma hot_loop_at : forall a h c x, (forall h', In h' (a ++ h :: c) -> 0 < snd h') -> weight a <= x < weight a + snd h -> hot_loop (a ++ h :: c) x = Some (fst h).
Proof.
  intros a. induction a as [|g a IH]; intros h c x Hr Hx.
  - cbn in Hx. cbn [app]. destruct c; cbn [hot_loop]; destruct (Z.ltb_spec x (snd h)); auto; lia.
  - cbn [weight fold_right] in Hx. fold (weight a) in Hx. assert (W : 0 <= weight a) by (apply weight_pos; intros; apply Hr; right; apply in_or_app; auto). cbn [app]. assert (U : forall r, r <> [] -> hot_loop (g :: r) x = if x <? snd g then Some (fst g) else hot_loop r (x - snd g)) by (intros [|]; [congruence|reflexivity]).
    rewrite U by (destruct a; discriminate). destruct (Z.ltb_spec x (snd g)); [lia|]. apply IH; [intros; apply Hr; right; auto|lia].
Qed.
