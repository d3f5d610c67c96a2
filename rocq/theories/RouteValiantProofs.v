From Coq Require Import ZArith Bool List Lia Arith Relations.
From Verif Require Import RouteModel RouteSpec RouteProofs RouteMeshProofs RoutePhaseProofs.
Import ListNotations.
Open Scope Z_scope.

Definition valiant_len (k : Z) (n : nat) (src dest u : Z) (s : Z * Z) : Z :=
  if fst s =? 0 then mesh_dist k n src (snd s) - mesh_dist k n u (snd s)
  else mesh_dist k n src (snd s) + mesh_dist k n (snd s) dest - mesh_dist k n u dest.

(** A packet between its first hop and the ejection port. *)
Definition valiant_ok (k : Z) (n : nat) (b e : Z) (src dest : Z) (l : list chan) (u : Z) (i : nat) (vc : Z) (s : Z * Z) : Prop :=
  on_grid k n u /\ b <= vc <= e /\
  (i = (2 * n)%nat /\ u = src /\ l = [] \/
   (i < 2 * n)%nat /\ (fst s = 0 \/ fst s = 1) /\ on_grid k n (snd s) /\ Z.of_nat (length l) = valiant_len k n src dest u s).

Lemma mesh_dist_refl : forall k n a, mesh_dist k n a a = 0.
Proof. intros k n a; induction n as [|n IH]; cbn [mesh_dist]; lia. Qed.

Lemma valiant_step : forall k n b e src dest u i vc s r l, 1 <= k -> 2 <= e - b + 1 -> on_grid k n src -> on_grid k n dest ->
  valiant_ok k n b e src dest l u i vc s -> rf_valiant k n s (at_router b e src dest u i vc) r ->
  exists x s', r = Some ([x], s') /\ b <= o_lo x <= o_hi x /\ o_hi x <= e /\
    (fst s' = 0 \/ fst s' = 1) /\ on_grid k n (snd s') /\ Z.of_nat (length l) = valiant_len k n src dest u s' /\
    let t := if fst s' =? 0 then snd s' else dest in
    if (fst s' =? 1) && (u =? dest) then o_port x = Z.of_nat (2 * n)
    else u <> t /\ exists p, o_port x = Z.of_nat p /\ productive k n u t p.
Proof.
  intros k n b e src dest u i vc [ph intm] r l Hk W Hs Hd [Hu [V J]] [pick [HP ->]].
  assert (H0 : (if Nat.eqb i (2 * n) then 0 else ph) = 0 \/ (if Nat.eqb i (2 * n) then 0 else ph) = 1).
  { destruct J as [[-> _]|[J1 [J2 _]]]; [rewrite Nat.eqb_refl; auto|]. replace (Nat.eqb i (2 * n)) with false by (symmetry; apply Nat.eqb_neq; lia). exact J2. }
  destruct (two_case k n b e pick ph intm src dest u i vc V W H0) as [P1 E].
  unfold valiant_mesh. cbn [fst snd]. rewrite E. clear E.
  remember (if Nat.eqb i (2 * n) then pick else intm) as intm0 eqn:EI. remember (if Nat.eqb i (2 * n) then 0 else ph) as ph0 eqn:EP.
  remember (if (ph0 =? 0) && (u =? intm0) then 1 else ph0) as ph1 eqn:E1.
  assert (GI : on_grid k n intm0).
  { subst intm0. destruct J as [[-> _]|[J1 [J2 [J3 _]]]]; [rewrite Nat.eqb_refl; unfold on_grid; lia|].
    replace (Nat.eqb i (2 * n)) with false by (symmetry; apply Nat.eqb_neq; lia). exact J3. }
  assert (LN : Z.of_nat (length l) = valiant_len k n src dest u (ph0, intm0)).
  { destruct J as [[-> [-> ->]]|[J1 [J2 [J3 J4]]]].
    - rewrite Nat.eqb_refl in EP. subst ph0. unfold valiant_len. cbn [fst snd length Z.eqb Z.of_nat]. lia.
    - replace (Nat.eqb i (2 * n)) with false in * by (symmetry; apply Nat.eqb_neq; lia). rewrite EI, EP. exact J4. }
  assert (L1 : Z.of_nat (length l) = valiant_len k n src dest u (ph1, intm0)).
  { rewrite LN. subst ph1. destruct (Z.eqb_spec ph0 0) as [Q|Q]; cbn [andb]; [|reflexivity]. destruct (Z.eqb_spec u intm0) as [Q2|Q2]; [|reflexivity].
    unfold valiant_len. cbn [fst snd]. rewrite Q. cbn [Z.eqb Pos.eqb]. rewrite Q2, mesh_dist_refl. lia. }
  destruct (div_room (e - b + 1) 2 ltac:(lia) W) as [D1 D2].
  do 2 eexists. split; [reflexivity|]. cbn [o_lo o_hi o_port add_range fst snd].
  split; [destruct (u =? dest), (ph1 =? 0); lia|]. split; [destruct (u =? dest), (ph1 =? 0); lia|]. split; auto. split; auto. split; auto.
  destruct P1 as [P1|P1]; rewrite P1 in *; cbn [Z.eqb Pos.eqb andb].
  - assert (Q : u <> intm0). { destruct (Z.eqb_spec ph0 0); destruct (Z.eqb_spec u intm0); cbn [andb] in E1; auto; lia. }
    split; auto. eexists. split; [reflexivity|]. apply dor_productive; auto.
  - destruct (Z.eqb_spec u dest) as [->|N]; [rewrite dor_next_dest; reflexivity|]. split; auto. eexists. split; [reflexivity|]. apply dor_productive; auto.
Qed.

Lemma valiant_gone : forall k n b e src dest l u i vc s, 1 <= k -> 2 <= e - b + 1 -> on_grid k n src -> on_grid k n dest ->
  gone (rf_valiant k n) k n b e src dest l u i vc s -> valiant_ok k n b e src dest l u i vc s.
Proof.
  intros k n b e src dest l u i vc s Hk W Hs Hd G. induction G as [vc s V|l u i vc s es s' x p v j vc' G IH R X P V L].
  - split; auto.
  - destruct (valiant_step k n b e src dest u i vc s _ l Hk W Hs Hd IH R) as [y [s1 [E [S1 [S2 [S3 [S4 [S5 S6]]]]]]]].
    assert (es = [y] /\ s' = s1) as [-> ->] by (split; congruence). destruct X as [->|[]].
    split; [destruct L as [_ [L _]]; exact L|]. split; [lia|]. right. split; [exact (linked_in k n u p v j Hk L)|]. split; auto. split; auto.
    rewrite app_length. cbn [length]. rewrite Nat2Z.inj_add, S5. cbn [Z.of_nat Pos.of_succ_nat]. cbn zeta in S6.
    destruct ((fst s1 =? 1) && (u =? dest)) eqn:C.
    { apply linked_iff in L; auto. lia. }
    destruct S6 as [N [p' [P' PR]]]. assert (p' = p) by lia. subst p'.
    destruct (productive_hop k n u _ p v j Hk PR L) as [D1 _]. unfold valiant_len. destruct (fst s1 =? 0); lia.
Qed.
