(** Cycle numbers in binary64, by the correctness theorems of Flocq. *)
From Coq Require Import ZArith Reals Bool Lia Lra.
From Coq.Floats Require Import SpecFloat.
From Flocq Require Import Core.Core Relative IEEE754.BinarySingleNaN.
From Verif Require Import UtilModel.
Local Open Scope Z_scope.

Notation bf := (binary_float 53 1024).
#[local] Instance Hprec : FLX.Prec_gt_0 53 := eq_refl _.
#[local] Instance Hmax : Prec_lt_emax 53 1024 := eq_refl _.
#[local] Instance Hexp : Valid_exp (SpecFloat.fexp 53 1024) := fexp_correct 53 1024 Hprec.
Definition rnd (x : R) : R := round radix2 (SpecFloat.fexp 53 1024) ZnearestE x.

Lemma rne_equiv : forall s m l, round_nearest_even m l = choice_mode mode_NE s m l.
Proof. intros s m [|[| |]]; try reflexivity. cbn. unfold Round.cond_incr. destruct (Z.even m); reflexivity. Qed.

Lemma bra_equiv : forall sx mx ex lx,
  SpecFloat.binary_round_aux 53 1024 sx mx ex lx = BinarySingleNaN.binary_round_aux 53 1024 mode_NE sx mx ex lx.
Proof.
  intros. unfold SpecFloat.binary_round_aux, BinarySingleNaN.binary_round_aux.
  destruct (shr_fexp 53 1024 mx ex lx) as [mrs e']. rewrite (rne_equiv sx). reflexivity.
Qed.

Lemma of_Z_equiv : forall n, d_of_Z n = B2SF (BinarySingleNaN.binary_normalize 53 1024 Hprec Hmax mode_NE n 0 false).
Proof.
  assert (E : forall s m e, SpecFloat.binary_round 53 1024 s m e = BinarySingleNaN.binary_round 53 1024 mode_NE s m e).
  { intros. unfold SpecFloat.binary_round, BinarySingleNaN.binary_round, shl_align_fexp. destruct (shl_align _ _ _). apply bra_equiv. }
  intros [|p|p]; unfold d_of_Z; cbn [SpecFloat.binary_normalize]; [reflexivity| |];
  unfold BinarySingleNaN.binary_normalize; rewrite B2SF_SF2B; apply E.
Qed.

Lemma div_equiv : forall x y : bf, d_div (B2SF x) (B2SF y) = B2SF (Bdiv mode_NE x y).
Proof.
  intros [sx|sx| |sx mx ex Bx] [sy|sy| |sy my ey By]; try reflexivity.
  unfold d_div, Bdiv. cbn [B2SF SFdiv]. rewrite B2SF_SF2B.
  destruct (SFdiv_core_binary 53 1024 (Zpos mx) ex (Zpos my) ey) as [[mz ez] lz]. apply bra_equiv.
Qed.

(** A finite quotient is the rounded quotient of finite numbers. *)
Lemma div_finite : forall x y : bf, B2R y <> 0%R -> is_finite (Bdiv mode_NE x y) = true -> is_finite y = true ->
  is_finite x = true /\ B2R (Bdiv mode_NE x y) = rnd (B2R x / B2R y).
Proof.
  intros x y Y F FY. pose proof (Bdiv_correct 53 1024 Hprec Hmax mode_NE x y Y) as H.
  destruct (Rlt_bool _ _).
  - destruct H as (H1 & H2 & _). split; [congruence|exact H1].
  - rewrite <- is_finite_SF_B2SF, H in F. discriminate.
Qed.

Lemma of_Z_finite : forall n, is_finite (BinarySingleNaN.binary_normalize 53 1024 Hprec Hmax mode_NE n 0 false) = true ->
  B2R (BinarySingleNaN.binary_normalize 53 1024 Hprec Hmax mode_NE n 0 false) = rnd (IZR n).
Proof.
  intros n F. pose proof (binary_normalize_correct 53 1024 Hprec Hmax mode_NE n 0 false) as H. cbv zeta in H.
  replace (F2R (Float radix2 n 0)) with (IZR n) in H by (unfold F2R; cbn; lra).
  destruct (Rlt_bool _ _).
  - destruct H as (H1 & _). exact H1.
  - rewrite <- is_finite_SF_B2SF, H in F. discriminate.
Qed.

Lemma pow_IZR : forall e, 0 <= e -> bpow radix2 e = IZR (2 ^ e).
Proof. intros e H. rewrite <- IZR_Zpower by exact H. reflexivity. Qed.

Lemma ceil_spec : forall x : bf, is_finite x = true -> d_ceil (B2SF x) = Some (Zceil (B2R x)).
Proof.
  intros [s|s| |s m e B] F; try discriminate; cbn [B2SF d_ceil B2R].
  - rewrite Zceil_IZR. reflexivity.
  - unfold F2R. cbn [Fnum Fexp]. f_equal. unfold cond_Zopp.
    set (m' := if s then Zneg m else Zpos m). replace (if s then - Zpos m else Zpos m) with m' by (destruct s; reflexivity).
    destruct (Z.leb_spec 0 e).
    + rewrite pow_IZR by exact H. rewrite <- mult_IZR, Zceil_IZR. reflexivity.
    + unfold Zceil. f_equal. replace e with (- - e) by lia. rewrite bpow_opp, pow_IZR by lia.
      assert (P : 0 < 2 ^ - e) by (apply Z.pow_pos_nonneg; lia).
      replace (- (IZR m' * / IZR (2 ^ - e)))%R with (IZR (- m') / IZR (2 ^ - e))%R.
      * rewrite Zfloor_div by lia. f_equal. f_equal. lia.
      * rewrite opp_IZR. unfold Rdiv. lra.
Qed.

Lemma ceil_finite : forall (x : bf) c, d_ceil (B2SF x) = Some c -> is_finite x = true.
Proof. intros [s|s| |s m e B] c H; try discriminate; reflexivity. Qed.

Lemma rnd_le : forall x y, (x <= y)%R -> (rnd x <= rnd y)%R.
Proof. intros x y H. apply (round_le radix2 (SpecFloat.fexp 53 1024) ZnearestE x y H). Qed.

(** The number of a cycle as a function over the reals. *)
Definition cyc (t : Z) (p : R) : Z := Zceil (rnd (rnd (rnd (IZR t) / p) / rnd 1000)).

Lemma sim_cycle_cyc : forall m e t c, SpecFloat.bounded 53 1024 m e = true -> sim_cycle t (S754_finite false m e) = Some c ->
  c = cyc t (F2R (Float radix2 (Zpos m) e)).
Proof.
  intros m e t c B H. unfold sim_cycle in H.
  set (P := B754_finite false m e B : bf). change (S754_finite false m e) with (B2SF P) in H.
  rewrite !of_Z_equiv, !div_equiv in H.
  set (T := BinarySingleNaN.binary_normalize 53 1024 Hprec Hmax mode_NE t 0 false) in *.
  set (K := BinarySingleNaN.binary_normalize 53 1024 Hprec Hmax mode_NE 1000 0 false) in *.
  assert (FK : is_finite K = true) by reflexivity.
  assert (EK : B2R K = rnd 1000) by (apply of_Z_finite; exact FK).
  assert (K0 : B2R K <> 0%R).
  { unfold K. cbn. unfold F2R. cbn. lra. }
  assert (P0 : B2R P = F2R (Float radix2 (Zpos m) e)) by reflexivity.
  assert (PN : B2R P <> 0%R) by (rewrite P0; apply Rgt_not_eq, F2R_gt_0; reflexivity).
  destruct (d_ceil _) as [c'|] eqn:E; [|discriminate].
  pose proof (ceil_finite _ _ E) as F1. rewrite (ceil_spec _ F1) in E. injection E as <-.
  destruct (div_finite _ _ K0 F1 FK) as (F2 & E2).
  destruct (div_finite _ _ PN F2 eq_refl) as (F3 & E3).
  pose proof (of_Z_finite t F3) as E4. fold T in E4.
  destruct (_ && _); [|discriminate]. injection H as <-. unfold cyc. rewrite E2, E3, E4, EK, P0. reflexivity.
Qed.

Lemma cyc_le : forall t u p, (0 < p)%R -> t <= u -> cyc t p <= cyc u p.
Proof.
  intros t u p P H. unfold cyc. apply Zceil_le.
  assert (K : (0 < rnd 1000)%R).
  { apply Rlt_le_trans with (rnd 1).
    - unfold rnd. rewrite round_generic; [lra|auto with typeclass_instances|].
      replace 1%R with (bpow radix2 0) by reflexivity. apply generic_format_bpow. vm_compute. discriminate.
    - apply rnd_le. lra. }
  apply rnd_le, Rmult_le_compat_r; [left; apply Rinv_0_lt_compat, K|].
  apply rnd_le, Rmult_le_compat_r; [left; apply Rinv_0_lt_compat, P|].
  apply rnd_le, IZR_le, H.
Qed.

Theorem double_monotone : forall m e t u a b, SpecFloat.bounded 53 1024 m e = true -> t <= u ->
  sim_cycle t (S754_finite false m e) = Some a -> sim_cycle u (S754_finite false m e) = Some b -> a <= b.
Proof.
  intros m e t u a b B H A C. rewrite (sim_cycle_cyc _ _ _ _ B A), (sim_cycle_cyc _ _ _ _ B C).
  apply cyc_le; [|exact H]. apply F2R_gt_0. reflexivity.
Qed.

Lemma rnd_int : forall n, Z.abs n < 2 ^ 53 -> rnd (IZR n) = IZR n.
Proof.
  intros n H. unfold rnd. apply round_generic; [auto with typeclass_instances|].
  apply (generic_format_FLT radix2 (-1074) 53). apply FLT_spec with (Float radix2 n 0); cbn [Fnum Fexp].
  - unfold F2R. cbn. lra.
  - exact H.
  - lia.
Qed.

Lemma rnd_low : forall x, (bpow radix2 (-1000) <= x)%R -> (x * (1 - bpow radix2 (-53)) <= rnd x)%R.
Proof.
  intros x H. pose proof (bpow_gt_0 radix2 (-1000)) as B.
  pose proof (relative_error_N_FLT radix2 (-1074) 53 eq_refl (fun z => negb (Z.even z)) x) as E.
  rewrite (Rabs_pos_eq x) in E by lra.
  assert (E1 : (bpow radix2 (-1074 + 53 - 1) <= x)%R) by (apply Rle_trans with (2 := H); apply bpow_le; lia).
  specialize (E E1).
  replace (/ 2 * bpow radix2 (- (53) + 1) * x)%R with (bpow radix2 (-53) * x)%R in E.
  2:{ rewrite bpow_plus. change (bpow radix2 (- (53))) with (bpow radix2 (-53)). replace (bpow radix2 1) with 2%R by reflexivity.
    generalize (bpow radix2 (-53)). intros b. lra. }
  assert (E2 : (Rabs (rnd x - x) <= bpow radix2 (-53) * x)%R) by exact E.
  apply Rabs_le_inv in E2. set (b := bpow radix2 (-53)) in *. lra.
Qed.

Lemma no_overflow : forall x, (0 <= x <= bpow radix2 1000)%R -> Rlt_bool (Rabs (rnd x)) (bpow radix2 1024) = true.
Proof.
  intros x (H1 & H2). apply Rlt_bool_true.
  assert (A : (rnd 0 <= rnd x)%R) by (apply rnd_le; exact H1).
  assert (B : (rnd x <= rnd (bpow radix2 1000))%R) by (apply rnd_le; exact H2).
  replace (rnd 0) with 0%R in A by (symmetry; apply (rnd_int 0); reflexivity).
  assert (C : rnd (bpow radix2 1000) = bpow radix2 1000).
  { unfold rnd. apply round_generic; [auto with typeclass_instances|]. apply generic_format_bpow. vm_compute. discriminate. }
  rewrite Rabs_pos_eq by exact A. apply Rle_lt_trans with (bpow radix2 1000); [lra|]. apply bpow_lt. lia.
Qed.

Lemma div_ok : forall x y : bf, is_finite x = true -> (0 < B2R y)%R -> (0 <= B2R x / B2R y <= bpow radix2 1000)%R ->
  is_finite (Bdiv mode_NE x y) = true /\ B2R (Bdiv mode_NE x y) = rnd (B2R x / B2R y).
Proof.
  intros x y F Y H. pose proof (Bdiv_correct 53 1024 Hprec Hmax mode_NE x y (Rgt_not_eq _ _ Y)) as C.
  change (round radix2 (SpecFloat.fexp 53 1024) (round_mode mode_NE) (B2R x / B2R y)) with (rnd (B2R x / B2R y)) in C.
  rewrite (no_overflow _ H) in C. destruct C as (C1 & C2 & _). split; [congruence|exact C1].
Qed.

Lemma of_Z_ok : forall n, 0 <= n < 2 ^ 53 ->
  is_finite (BinarySingleNaN.binary_normalize 53 1024 Hprec Hmax mode_NE n 0 false) = true /\
  B2R (BinarySingleNaN.binary_normalize 53 1024 Hprec Hmax mode_NE n 0 false) = IZR n.
Proof.
  intros n H. pose proof (binary_normalize_correct 53 1024 Hprec Hmax mode_NE n 0 false) as C. cbv zeta in C.
  replace (F2R (Float radix2 n 0)) with (IZR n) in C by (unfold F2R; cbn; lra).
  change (round radix2 (SpecFloat.fexp 53 1024) (round_mode mode_NE) (IZR n)) with (rnd (IZR n)) in C.
  rewrite no_overflow in C.
  - destruct C as (C1 & C2 & _). split; [exact C2|]. rewrite C1. apply rnd_int. lia.
  - split; [apply IZR_le; lia|]. apply Rle_trans with (IZR (2 ^ 53)); [apply IZR_le; lia|].
    rewrite <- pow_IZR by lia. apply bpow_le. lia.
Qed.

Lemma bp_inv : bpow radix2 (-53) = (/ IZR (2 ^ 53))%R.
Proof. rewrite <- pow_IZR by lia. apply (bpow_opp radix2 53). Qed.

(** The period is [q] picoseconds exactly. *)
Lemma double_exact_R : forall m e q k r, SpecFloat.bounded 53 1024 m e = true ->
  (1000 * F2R (Float radix2 (Zpos m) e) = IZR q)%R -> 0 <= k -> 0 < r <= q -> (k + 1) * q < 2 ^ 52 -> k + 1 < 2 ^ 31 ->
  sim_cycle (k * q + r) (S754_finite false m e) = Some (k + 1).
Proof.
  intros m e q k r B Q K R L I. unfold sim_cycle.
  set (P := B754_finite false m e B : bf). change (S754_finite false m e) with (B2SF P).
  set (t := k * q + r) in *.
  assert (T : 0 < t < 2 ^ 52) by (unfold t; nia).
  assert (Tk : k * q + 1 <= t <= (k + 1) * q) by (unfold t; nia).
  rewrite !of_Z_equiv, !div_equiv.
  destruct (of_Z_ok t) as (FT & ET); [lia|]. destruct (of_Z_ok 1000) as (FK & EK); [lia|].
  set (T' := BinarySingleNaN.binary_normalize 53 1024 Hprec Hmax mode_NE t 0 false) in *.
  set (K' := BinarySingleNaN.binary_normalize 53 1024 Hprec Hmax mode_NE 1000 0 false) in *.
  assert (EP : B2R P = (IZR q / 1000)%R).
  { change (B2R P) with (F2R (Float radix2 (Zpos m) e)). lra. }
  assert (Q0 : (1 <= IZR q)%R) by (apply IZR_le; lia).
  assert (P0 : (0 < B2R P)%R) by (rewrite EP; lra).
  assert (Tr : (1 <= IZR t)%R) by (apply IZR_le; lia).
  assert (Tm : (IZR t < IZR (2 ^ 52))%R) by (apply IZR_lt; lia).
  assert (Kr : (0 <= IZR k)%R) by (apply IZR_le; lia).
  assert (Tl : (IZR k * IZR q + 1 <= IZR t)%R) by (rewrite <- mult_IZR, <- plus_IZR; apply IZR_le; lia).
  assert (Th : (IZR t <= (IZR k + 1) * IZR q)%R) by (rewrite <- (plus_IZR k 1), <- mult_IZR; apply IZR_le; lia).
  assert (Big : (IZR (2 ^ 62) <= bpow radix2 1000)%R) by (rewrite <- pow_IZR by lia; apply bpow_le; lia).
  assert (X0 : (IZR t / B2R P = 1000 * (IZR t / IZR q))%R) by (rewrite EP; field; lra).
  assert (D1 : (IZR k < IZR t / IZR q)%R).
  { apply Rmult_lt_reg_r with (IZR q); [lra|]. unfold Rdiv. rewrite Rmult_assoc, Rinv_l by lra. lra. }
  assert (D2 : (IZR t / IZR q <= IZR k + 1)%R).
  { apply Rmult_le_reg_r with (IZR q); [lra|]. unfold Rdiv. rewrite Rmult_assoc, Rinv_l by lra. lra. }
  assert (D3 : (/ IZR (2 ^ 52) <= IZR t / IZR q)%R).
  { unfold Rdiv. apply Rle_trans with (1 * / IZR q)%R.
    - rewrite Rmult_1_l. apply Rinv_le; [lra|]. apply IZR_le. nia.
    - apply Rmult_le_compat_r; [left; apply Rinv_0_lt_compat; lra|lra]. }
  assert (Kh : (IZR k + 1 < IZR (2 ^ 31))%R) by (rewrite <- (plus_IZR k 1); apply IZR_lt; lia).
  set (x := (IZR t / IZR q)%R) in *.
  assert (C31 : IZR (2 ^ 31) = 2147483648%R) by reflexivity.
  assert (C62 : IZR (2 ^ 62) = 4611686018427387904%R) by reflexivity.
  destruct (div_ok T' P FT P0) as (F1 & E1).
  { rewrite ET, X0. lra. }
  rewrite ET, X0 in E1.
  assert (S52 : (bpow radix2 (-1000) <= / IZR (2 ^ 52) / 2)%R).
  { replace (/ IZR (2 ^ 52) / 2)%R with (bpow radix2 (-53)); [apply bpow_le; lia|].
    rewrite bp_inv. replace (IZR (2 ^ 53)) with (IZR (2 ^ 52) * 2)%R by (rewrite <- mult_IZR; reflexivity).
    field. apply not_eq_sym, Rlt_not_eq, IZR_lt. reflexivity. }
  assert (P52 : (0 < / IZR (2 ^ 52))%R) by (apply Rinv_0_lt_compat, IZR_lt; reflexivity).
  assert (Y1 : (rnd (1000 * x) <= 1000 * (IZR k + 1))%R).
  { replace (1000 * (IZR k + 1))%R with (IZR (1000 * (k + 1))) by (rewrite mult_IZR, plus_IZR; reflexivity).
    rewrite <- (rnd_int (1000 * (k + 1))) by lia. apply rnd_le. rewrite mult_IZR, plus_IZR. lra. }
  assert (Y2 : (1000 * x * (1 - bpow radix2 (-53)) <= rnd (1000 * x))%R) by (apply rnd_low; lra).
  assert (U : (0 < bpow radix2 (-53) <= / 2)%R).
  { split; [apply bpow_gt_0|]. change (/ 2)%R with (bpow radix2 (-1)). apply bpow_le. lia. }
  set (u := bpow radix2 (-53)) in *. set (y := rnd (1000 * x)) in *.
  assert (Y3 : (x * (1 - u) <= y / 1000)%R) by lra.
  assert (Y4 : (/ IZR (2 ^ 52) / 2 <= y / 1000)%R).
  { apply Rle_trans with (x * (1 - u))%R; [|exact Y3]. nra. }
  destruct (div_ok (Bdiv mode_NE T' P) K' F1) as (F2 & E2).
  { rewrite EK. lra. }
  { rewrite EK, E1. fold y. lra. }
  rewrite EK, E1 in E2. fold y in E2.
  rewrite (ceil_spec _ F2), E2.
  assert (Z1 : (rnd (y / 1000) <= IZR (k + 1))%R).
  { rewrite <- (rnd_int (k + 1)) by lia. apply rnd_le. rewrite plus_IZR. lra. }
  assert (Z2 : (IZR k < rnd (y / 1000))%R).
  { apply Rlt_le_trans with (y / 1000 * (1 - u))%R; [|apply rnd_low; lra].
    apply Rlt_le_trans with (x * (1 - u) * (1 - u))%R; [|apply Rmult_le_compat_r; lra].
    apply Rlt_le_trans with (x * (1 - 2 * u))%R; [|nra].
    apply Rmult_lt_reg_r with (IZR q); [lra|].
    replace (x * (1 - 2 * u) * IZR q)%R with (IZR t * (1 - 2 * u))%R by (unfold x; field; lra).
    assert (W : (IZR t * (2 * u) < 1)%R).
    { replace (2 * u)%R with (/ IZR (2 ^ 52))%R.
      - apply Rmult_lt_reg_r with (IZR (2 ^ 52)); [lra|]. rewrite Rmult_assoc, Rinv_l by lra. lra.
      - unfold u. rewrite bp_inv. replace (IZR (2 ^ 53)) with (IZR (2 ^ 52) * 2)%R by (rewrite <- mult_IZR; reflexivity). field. lra. }
    lra. }
  assert (C : Zceil (rnd (y / 1000)) = k + 1).
  { apply Zceil_imp. replace (k + 1 - 1) with k by lia. split; assumption. }
  rewrite C. replace ((- 2 ^ 31 <=? k + 1) && (k + 1 <? 2 ^ 31)) with true; [reflexivity|].
  symmetry. apply andb_true_intro. split; [apply Z.leb_le|apply Z.ltb_lt]; lia.
Qed.

Theorem double_exact : forall m e q k r, SpecFloat.bounded 53 1024 m e = true ->
  1000 * Zpos m * 2 ^ (Z.max e 0) = q * 2 ^ (Z.max (- e) 0) -> 0 <= k -> 0 < r <= q -> (k + 1) * q < 2 ^ 52 -> k + 1 < 2 ^ 31 ->
  sim_cycle (k * q + r) (S754_finite false m e) = Some (k + 1).
Proof.
  intros m e q k r B Q. apply double_exact_R; [exact B|].
  unfold F2R. cbn [Fnum Fexp]. destruct (Z.leb_spec 0 e).
  - rewrite Z.max_l, Z.max_r, Z.pow_0_r, Z.mul_1_r in Q by lia. rewrite pow_IZR by lia. rewrite <- Q, !mult_IZR. ring.
  - rewrite Z.max_r, Z.max_l, Z.pow_0_r, Z.mul_1_r in Q by lia.
    replace e with (- - e) by lia. rewrite bpow_opp, pow_IZR by lia.
    apply (f_equal IZR) in Q. rewrite !mult_IZR in Q.
    assert (P : (0 < IZR (2 ^ - e))%R) by (apply IZR_lt, Z.pow_pos_nonneg; lia).
    rewrite <- Rmult_assoc, Q. field. lra.
Qed.
