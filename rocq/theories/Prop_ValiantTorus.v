(** C118: valiant_torus depends on a variable that nothing has written. *)
From Coq Require Import ZArith Arith Bool List Lia.
From Verif Require Import RouteModel RouteSpec RouteProofs ChaosModel ChaosSpec Prop_Chaos ValiantTorusModel ValiantTorusSpec.
Import ListNotations.
Open Scope Z_scope.

Lemma tor_lowest : forall k m dim u v d, 0 < k -> lowest k m u v d -> exists c e, tor_dim k m dim u v = ((dim + d)%nat, c, e) /\ c mod k = digit k d u /\ e mod k = digit k d v.
Proof.
  intros k m. induction m as [|m IH]; intros dim u v d Hk L; [destruct L; lia|]. cbn [tor_dim]. destruct (lowest_S _ _ _ _ _ Hk L) as [[-> N]|[d' [-> [E L']]]].
  - destruct (Z.eqb_spec (u mod k) (v mod k)); [contradiction|]. cbn [negb]. exists u, v. rewrite !digit_0, Nat.add_0_r. auto.
  - rewrite E, Z.eqb_refl. cbn [negb]. destruct (IH (S dim) _ _ _ Hk L') as [c [e [P [A B]]]]. exists c, e. rewrite P. rewrite !digit_S by auto. replace (S dim + d')%nat with (dim + S d')%nat by lia. auto.
Qed.
Lemma tor_same : forall k m dim u, exists c, tor_dim k m dim u u = ((dim + m)%nat, c, c).
Proof. intros k m. induction m as [|m IH]; intros dim u; cbn [tor_dim]; [exists u; rewrite Nat.add_0_r; reflexivity|]. rewrite Z.eqb_refl. cbn [negb]. destruct (IH (S dim) (u / k)) as [c E]. exists c. rewrite E. replace (S dim + m)%nat with (dim + S m)%nat by lia. reflexivity. Qed.
Lemma next_keep : forall k n r1 r2 i g u v d, 0 < k -> lowest k n u v d -> Nat.div2 i = d -> dor_next_torus k n false r1 r2 i g u v = (Nat.lxor i 1, g).
Proof.
  intros k n r1 r2 i g u v d Hk L E. unfold dor_next_torus. destruct (tor_lowest k n 0 u v d Hk L) as [c [e [-> _]]]. cbn [plus]. destruct L as [L _]. apply Nat.ltb_lt in L. rewrite L, E, Nat.eqb_refl. reflexivity.
Qed.
Lemma next_turn : forall k n r1 r2 i g g' u v d, 0 < k -> lowest k n u v d -> Nat.div2 i <> d -> dor_next_torus k n false r1 r2 i g u v = dor_next_torus k n false r1 r2 i g' u v.
Proof.
  intros k n r1 r2 i g g' u v d Hk L E. unfold dor_next_torus. destruct (tor_lowest k n 0 u v d Hk L) as [c [e [-> _]]]. cbn [plus]. destruct L as [L _]. apply Nat.ltb_lt in L. rewrite L. destruct (Nat.eqb_spec (Nat.div2 i) d); [contradiction|]. reflexivity.
Qed.

(** Wherever a packet goes on in the dimension in which it came, the offered channels and whether an assertion fails depend on what the variable holds. *)
Theorem C118_unset : forall k n pick r1 r2 g st x d, 0 < k -> ri_inject x = false -> ri_b x <= ri_vc x <= ri_e x -> 4 <= ri_e x - ri_b x + 1 ->
  (ri_in x < 2 * n)%nat -> 0 <= fst st < 4 -> ~ (fst st < 2 /\ ri_cur x = snd st) -> ri_cur x <> ri_dest x ->
  lowest k n (ri_cur x) (heading st x) d -> Nat.div2 (ri_in x) = d ->
  let ra := (ri_e x - ri_b x + 1) / 2 in let pa := ra / 2 in let phase := fst st / 2 in
  0 < pa /\
  valiant_torus k n pick r1 r2 g st x =
    if (g =? 0) || (g =? 1) then
      Some ([add_range (Z.of_nat (Nat.lxor (ri_in x) 1)) (ri_b x + g * ra + phase * pa) (ri_e x - (1 - g) * ra - (1 - phase) * pa)], (2 * phase + g, snd st))
    else None.
Proof.
  intros k n pick r1 r2 g st x d Hk Hi Hv H4 Hin Hph Hns Hd L Ed ra pa phase.
  assert (Hra : 2 <= ra) by (unfold ra; apply Z.div_le_lower_bound; lia). assert (Hpa : 0 < pa) by (assert (1 <= pa) by (unfold pa; apply Z.div_le_lower_bound; lia); lia). split; auto.
  assert (P : phase = 0 /\ fst st < 2 \/ phase = 1 /\ 2 <= fst st). { unfold phase. pose proof (Z.div_mod (fst st) 2 ltac:(lia)). pose proof (Z.mod_pos_bound (fst st) 2 ltac:(lia)). lia. }
  unfold valiant_torus. rewrite Hi. replace (vc_assert false (ri_vc x) (ri_b x) (ri_e x)) with true by (unfold vc_assert; destruct (Z.leb_spec (ri_b x) (ri_vc x)); [|lia]; destruct (Z.leb_spec (ri_vc x) (ri_e x)); [|lia]; reflexivity). cbn [negb].
  destruct (Nat.eqb_spec (ri_in x) (2 * n)) as [E|_]; [lia|]. rewrite Z.quot_div_nonneg by lia. fold phase. replace ((phase =? 0) && (ri_cur x =? snd st)) with false by (destruct (Z.eqb_spec phase 0), (Z.eqb_spec (ri_cur x) (snd st)); try reflexivity; exfalso; apply Hns; split; auto; lia).
  change (if phase =? 0 then snd st else ri_dest x) with (heading st x). rewrite (next_keep k n r1 r2 (ri_in x) g _ _ d Hk L Ed). destruct (Z.eqb_spec (ri_cur x) (ri_dest x)); [contradiction|]. cbn [negb].
  unfold vt_range. rewrite !Z.quot_div_nonneg by lia. fold ra. fold pa. destruct (Z.leb_spec ra 0); [lia|]. destruct (Z.eqb_spec g 0) as [->|]; [|destruct (Z.eqb_spec g 1) as [->|]]; cbn [orb]; [| |reflexivity]; destruct (Z.leb_spec pa 0); try lia; destruct P as [[-> _]|[-> _]]; cbn [Z.eqb Pos.eqb]; do 4 f_equal; lia.
Qed.
Print Assumptions C118_unset.
(** Router 1 of a ring of 8 nodes, on the way from 0 over 3 to 6. *)
Definition vt_place := {| ri_cur := 1; ri_in := 1; ri_src := 0; ri_dest := 6; ri_vc := 0; ri_b := 0; ri_e := 3; ri_inject := false |}.
Example C118_unset_ex : lowest 8 1 (ri_cur vt_place) (heading (0, 3) vt_place) 0 /\ Nat.div2 (ri_in vt_place) = 0%nat /\ (ri_in vt_place < 2 * 1)%nat /\
  valiant_torus 8 1 0 true true 0 (0, 3) vt_place = Some ([add_range 0 0 0], (0, 3)) /\ valiant_torus 8 1 0 true true 1 (0, 3) vt_place = Some ([add_range 0 2 2], (1, 3)) /\ valiant_torus 8 1 0 true true 7 (0, 3) vt_place = None.
Proof. split; [split; [lia|split; [vm_compute; discriminate|intros i Hi; lia]]|]. split; [reflexivity|]. split; [cbn; lia|]. split; [reflexivity|]. split; reflexivity. Qed.

(** A packet gets there on its second hop, so that an assertion may fail on its way. *)
Theorem C118_fails_refuted : exists k n b e src dest l u i vc st, 1 <= k /\ on_grid k n src /\ on_grid k n dest /\ 4 <= e - b + 1 /\
  gone (rf_vtorus k n) k n b e src dest l u i vc st /\ rf_vtorus k n st (at_router b e src dest u i vc) None.
Proof.
  exists 8, 1%nat, 0, 3, 0, 6, ([] ++ [(0, 0%nat, 0)]), 1, 1%nat, 0, (0, 3). split; [lia|]. split; [unfold on_grid; cbn; lia|]. split; [unfold on_grid; cbn; lia|]. split; [lia|]. split.
  - eapply (gone_hop _ _ _ _ _ _ _ [] 0 2%nat 0 (0, 0) [add_range 0 0 0] (0, 3) (add_range 0 0 0) 0%nat 1 1%nat 0); [constructor; lia| |left; reflexivity|reflexivity|cbn; lia|].
    + exists 3, true, true, 0. split; [cbn; lia|]. reflexivity.
    + apply linked_iff; [lia|]. split; [unfold on_grid; cbn; lia|]. split; [lia|]. split; reflexivity.
  - exists 0, true, true, 7. split; [cbn; lia|]. reflexivity.
Qed.
Print Assumptions C118_fails_refuted.

(** Where a packet turns into another dimension, as at its first router, the variable does not matter. *)
Theorem C118_turns : forall k n pick r1 r2 g g' st x d, 0 < k -> ri_inject x = false ->
  let intm := if Nat.eqb (ri_in x) (2 * n) then pick else snd st in
  let at_between := (Nat.eqb (ri_in x) (2 * n) || (Z.quot (fst st) 2 =? 0)) && (ri_cur x =? intm) in
  let target := if (Nat.eqb (ri_in x) (2 * n) || (Z.quot (fst st) 2 =? 0)) && negb (ri_cur x =? intm) then intm else ri_dest x in
  lowest k n (ri_cur x) target d -> (at_between = true \/ Nat.div2 (ri_in x) <> d) ->
  valiant_torus k n pick r1 r2 g st x = valiant_torus k n pick r1 r2 g' st x.
Proof.
  intros k n pick r1 r2 g g' st x d Hk Hi intm atb target L Ho. unfold valiant_torus. rewrite Hi. destruct (negb (vc_assert false (ri_vc x) (ri_b x) (ri_e x))); [reflexivity|].
  assert (D2 : Nat.div2 (2 * n) <> d) by (rewrite Nat.div2_double; destruct L; lia).
  unfold atb, target, intm in *. destruct (Nat.eqb (ri_in x) (2 * n)) eqn:En; cbn [orb] in *.
  - cbn [Z.eqb andb]. destruct (ri_cur x =? pick); cbn [negb andb Z.eqb] in *; rewrite (next_turn k n r1 r2 _ g g' _ _ d Hk L); auto. destruct Ho as [Ho|Ho]; [discriminate|exact Ho].
  - destruct (Z.quot (fst st) 2 =? 0) eqn:E0; cbn [andb] in *; [destruct (ri_cur x =? snd st); cbn [negb andb Z.eqb] in *; [|rewrite E0]; rewrite (next_turn k n r1 r2 _ g g' _ _ d Hk L); auto; destruct Ho as [Ho|Ho]; [discriminate|exact Ho]|].
    rewrite E0. rewrite (next_turn k n r1 r2 _ g g' _ _ d Hk L); auto. destruct Ho as [Ho|Ho]; [discriminate|exact Ho].
Qed.
Print Assumptions C118_turns.
Example C118_turns_ex : valiant_torus 8 1 3 true true 7 (0, 0) {| ri_cur := 0; ri_in := 2; ri_src := 0; ri_dest := 6; ri_vc := 0; ri_b := 0; ri_e := 3; ri_inject := false |} = Some ([add_range 0 0 0], (0, 3)) /\ lowest 8 1 0 3 0 /\ Nat.div2 2 <> 0%nat.
Proof. split; [reflexivity|]. split; [split; [lia|split; [vm_compute; discriminate|intros i Hi; lia]]|discriminate]. Qed.

(** At the destination in the second phase the packet is offered the ejection port with all its channels, whatever the variable holds. *)
Theorem C118_ejects : forall k n pick r1 r2 g st x, ri_inject x = false -> ri_b x <= ri_vc x <= ri_e x -> (ri_in x < 2 * n)%nat -> 2 <= fst st < 4 \/ (0 <= fst st < 2 /\ snd st = ri_cur x) -> ri_cur x = ri_dest x ->
  exists st', valiant_torus k n pick r1 r2 g st x = Some ([add_range (Z.of_nat (2 * n)) (ri_b x) (ri_e x)], st').
Proof.
  intros k n pick r1 r2 g st x Hi Hv Hin Hp Hd. assert (T : forall i, dor_next_torus k n false r1 r2 i g (ri_dest x) (ri_dest x) = ((2 * n)%nat, g)) by (intros i; unfold dor_next_torus; destruct (tor_same k n 0 (ri_dest x)) as [c ->]; cbn [plus]; rewrite Nat.ltb_irrefl; reflexivity).
  unfold valiant_torus. rewrite Hi. replace (vc_assert false (ri_vc x) (ri_b x) (ri_e x)) with true by (unfold vc_assert; destruct (Z.leb_spec (ri_b x) (ri_vc x)); [|lia]; destruct (Z.leb_spec (ri_vc x) (ri_e x)); [|lia]; reflexivity). cbn [negb].
  destruct (Nat.eqb_spec (ri_in x) (2 * n)) as [E|_]; [lia|]. rewrite Z.quot_div_nonneg by lia. pose proof (Z.div_mod (fst st) 2 ltac:(lia)). pose proof (Z.mod_pos_bound (fst st) 2 ltac:(lia)). rewrite Hd. destruct Hp as [Hp|[Hp Hs]].
  - replace (fst st / 2) with 1 by lia. cbn [Z.eqb andb]. rewrite T, Z.eqb_refl. cbn [negb]. eexists. reflexivity.
  - replace (fst st / 2) with 0 by lia. rewrite Hs, Hd, !Z.eqb_refl. cbn [Z.eqb andb]. rewrite T. cbn [negb]. eexists. reflexivity.
Qed.
Print Assumptions C118_ejects.
Example C118_ejects_ex : valiant_torus 8 1 0 true true 9 (2, 3) {| ri_cur := 6; ri_in := 1; ri_src := 0; ri_dest := 6; ri_vc := 1; ri_b := 0; ri_e := 3; ri_inject := false |} = Some ([add_range 2 0 3], (11, 3)).
Proof. reflexivity. Qed.
