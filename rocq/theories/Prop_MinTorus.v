(** C120: min_adapt_torus delivers over shortest ways and cannot deadlock if a type has four channels; with three or one it offers channels that are not its own. *)
From Coq Require Import ZArith Arith Bool List Lia.
From Verif Require Import RouteModel RouteSpec RouteProofs RouteMeshProofs RoutePhaseProofs RouteTorusProofs ChaosModel ChaosSpec Prop_Chaos Prop_Route MinTorusModel MinTorusSpec MinTorusProofs.
Import ListNotations.
Open Scope Z_scope.

(** With four channels every packet is delivered over a shortest way, on channels of its type; no assertion fails. *)
Theorem C120_delivers : forall k n b e, 1 <= k -> b + 3 <= e -> delivers (rf_mt k n) k n b e (torus_dist k n) (fun _ _ _ => True) (fun _ _ => True).
Proof.
  intros k n b e Hk W src dest l u i vc ph Hs Hd G. destruct (mt_gone _ _ _ _ _ _ _ _ _ _ _ Hk W Hs Hd G) as [I1 [I2 [I3 I4]]].
  split; auto. split; auto. split; auto. split; auto. split; [eexists; exists true; reflexivity|].
  intros r [r1 R]. rewrite mt_offer in R by auto. destruct (Z.eqb_spec u dest) as [E|N].
  { subst r. eexists. exists ph. split; [reflexivity|]. split; [discriminate|]. intros x [<-|[]]. cbn [o_port o_lo o_hi add_range]. lia. }
  assert (TO : forall w i' ph' r1', (exists l' vc', gone (rf_torus k n false) k n b (b + 1) w dest l' u i' vc' ph') -> on_grid k n w ->
    exists v j, linked k n u (fst (dor_next_torus k n false r1' false i' ph' u dest)) v j).
  { intros w i' ph' r1' [l' [vc' Gt]] Hw. destruct (C36_torus k n false b (b + 1) Hk ltac:(lia) w dest l' u i' vc' ph' Hw Hd Gt) as [_ [Q [_ [_ [_ T]]]]].
    destruct (T _ (ex_intro _ r1' (ex_intro _ false eq_refl))) as [es1 [s1 [Q1 [_ T6]]]]. rewrite mt_escape in Q1 by auto. destruct (dor_next_torus k n false r1' false i' ph' u dest) as [p q]. injection Q1 as <- _. destruct (T6 _ (or_introl eq_refl)) as [_ [_ Y]]. destruct (Z.eqb_spec u dest); [contradiction|]. destruct Y as [p' [v [j [P [L _]]]]]. cbn [esc add_range o_port] in P. apply Nat2Z.inj in P. subst p'. exists v, j. exact L. }
  assert (T0 : forall ph' r1', exists v j, linked k n u (fst (dor_next_torus k n false r1' false (2 * n) ph' u dest)) v j).
  { intros. apply (TO u); auto. exists [], b. constructor. lia. }
  assert (TI : exists v j, linked k n u (fst (dor_next_torus k n false r1 false (if is_ad n b e i vc then (2 * n)%nat else i) ph u dest)) v j).
  { destruct (is_ad n b e i vc) eqn:AD; [apply T0|]. destruct I4 as [[[-> | ->] _]|[w [l1 [l2 [Hw [_ [_ [Gt _]]]]]]]].
    - apply T0.
    - unfold is_ad in AD. destruct (Nat.eqb i (2 * n)); apply Z.ltb_ge in AD; lia.
    - apply (TO w); auto. exists l2, vc. exact Gt. }
  specialize (T0 0 false).
  destruct (dor_next_torus k n false r1 false (if is_ad n b e i vc then (2 * n)%nat else i) ph u dest) as [p ph']. cbn [fst] in TI. subst r. eexists. exists ph'. split; [reflexivity|]. split; [destruct (is_ad n b e i vc); discriminate|].
  intros x Hx. apply in_app_or in Hx. destruct Hx as [Hx|[<-|[]]].
  - destruct (is_ad n b e i vc); [|contradiction]. destruct Hx as [<-|[]]. unfold adp, o_port, o_lo, o_hi. split; [lia|]. split; [lia|]. destruct T0 as [v [j T0]]. eexists. exists v, j. split; [reflexivity|]. split; [exact T0|exact I].
  - unfold esc, add_range, o_port, o_lo, o_hi. split; [destruct (ph' =? 0); lia|]. split; [destruct (ph' =? 0); lia|]. destruct TI as [v [j TI]]. exists p, v, j. auto.
Qed.
Print Assumptions C120_delivers.

(** No packets can block one another for ever. *)
Theorem C120_no_deadlock : forall k n b e D, 1 <= k -> b + 3 <= e -> ~ deadlock (rf_mt k n) k n b e D.
Proof.
  intros k n b e D Hk W. revert D. apply no_deadlock with (good := fun c => (b <=? snd c) && (snd c <=? b + 1)) (rank := trank k false (b + 1)).
  intros src dest l u i vc ph es s' Hs Hd G [r1 R]. destruct (mt_gone _ _ _ _ _ _ _ _ _ _ _ Hk W Hs Hd G) as [I1 [I2 [_ I4]]]. rewrite mt_offer in R by auto. destruct (Z.eqb_spec u dest) as [E|N].
  { injection R as -> _. exists (u, (2 * n)%nat, b). split; [|left; reflexivity]. eexists. exists (2 * n)%nat, b. split; [left; reflexivity|]. cbn [o_port o_lo o_hi add_range]. split; [reflexivity|]. split; [lia|reflexivity]. }
  destruct (dor_next_torus k n false r1 false (if is_ad n b e i vc then (2 * n)%nat else i) ph u dest) as [p ph'] eqn:DN. injection R as -> _. set (c := if ph' =? 0 then b else b + 1).
  assert (Hc : c = b \/ c = b + 1) by (unfold c; destruct (ph' =? 0); auto).
  exists (u, p, c). split; [exists (esc b p ph'), p, c; split; [apply in_or_app; right; left; reflexivity|]; unfold esc, add_range, o_port, o_lo, o_hi; fold c; split; [reflexivity|]; split; [lia|reflexivity]|]. right.
  split; [cbn [snd]; apply andb_true_iff; split; apply Z.leb_le; lia|]. intros c0 H0 G0. apply andb_true_iff in G0. destruct G0 as [GA GB]. apply Z.leb_le in GA, GB.
  destruct I4 as [[_ A]|[w [l1 [l2 [Hw [-> [A [Gt Hi]]]]]]]]; [specialize (A c0 H0); lia|]. apply in_app_or in H0. destruct H0 as [H0|H0]; [specialize (A c0 H0); lia|].
  assert (AD : is_ad n b e i vc = false).
  { destruct (C36_torus k n false b (b + 1) Hk ltac:(lia) w dest l2 u i vc ph Hw Hd Gt) as [_ [Q _]]. unfold is_ad. destruct (Nat.eqb_spec i (2 * n)); [lia|]. apply Z.ltb_ge. lia. }
  rewrite AD in DN. pose proof (two_ranks k n b w dest l2 u i vc ph r1 Hk Hw Hd Gt N) as TR. rewrite DN in TR. exact (TR c0 H0).
Qed.
Print Assumptions C120_no_deadlock.

(** Of the ways in the dimensions left only the one in the lowest is offered, on one channel, beside the escape channel. *)
Theorem C120_one : forall k n b e r1 src dest u i vc ph, 1 <= k -> on_grid k n u -> on_grid k n dest -> b <= vc <= e -> u <> dest -> b + 1 < vc -> (i < 2 * n)%nat ->
  exists d y ph', lowest k n u dest d /\
    min_adapt_torus k n r1 ph (at_router b e src dest u i vc) =
      Some ([{| o_port := Z.of_nat (if 2 * ((digit k d dest - digit k d u) mod k) <? k then 2 * d else 2 * d + 1); o_lo := b + 3; o_hi := b + 3; o_pri := 1 |}; y], ph') /\
    o_pri y = 0 /\ o_lo y = o_hi y /\ (o_lo y = b \/ o_lo y = b + 1) /\ (o_port y = Z.of_nat (2 * d) \/ o_port y = Z.of_nat (2 * d + 1)).
Proof.
  intros k n b e r1 src dest u i vc ph Hk Hu Hd V N A Hi. destruct (lowest_ex k n u dest ltac:(lia) Hu Hd N) as [d L]. rewrite mt_offer by auto. destruct (Z.eqb_spec u dest); [contradiction|].
  assert (AD : is_ad n b e i vc = true) by (unfold is_ad; destruct (Nat.eqb_spec i (2 * n)); [lia|]; apply Z.ltb_lt; lia). rewrite AD, (mt_port k n u dest d Hk L Hu Hd 0).
  destruct (torus_next k n false r1 false (2 * n) ph u dest Hk Hu Hd) as [[E _]|[d' [D1 [D2 [D3 E]]]]]; [contradiction|].
  assert (d' = d). { destruct L as [L1 [L2 L3]]. destruct (Nat.lt_trichotomy d d') as [X|[X|X]]; [exfalso; apply L2; apply D3; auto|auto|exfalso; apply D2; apply L3; auto]. }
  subst d'. rewrite E. rewrite Nat.div2_double. destruct (Nat.eqb_spec n d); [lia|]. destruct (entry k false r1 false (digit k d u) (digit k d dest)) as [rt q]. exists d, (esc b (if rt then (2 * d)%nat else (2 * d + 1)%nat) q), q. split; auto. split.
  - unfold adp. cbn [app]. replace (digit k d dest - digit k d u + k) with (digit k d dest - digit k d u + 1 * k) by lia. rewrite Z.mod_add by lia. set (m := (digit k d dest - digit k d u) mod k). replace (0 <? k - 2 * m) with (2 * m <? k) by (destruct (Z.ltb_spec (2 * m) k), (Z.ltb_spec 0 (k - 2 * m)); lia). destruct (2 * m <? k); reflexivity.
  - unfold esc, add_range, o_pri, o_lo, o_hi, o_port. split; [reflexivity|]. split; [reflexivity|]. split; [destruct (q =? 0); auto|destruct rt; auto].
Qed.
Print Assumptions C120_one.
Example C120_one_ex : min_adapt_torus 4 2 true 0 (at_router 0 3 0 5 0 0 3) = Some ([{| o_port := 0; o_lo := 3; o_hi := 3; o_pri := 1 |}; add_range 0 0 0], 0) /\ mt_outs 4 2 0 0 5 0 = [{| o_port := 0; o_lo := 3; o_hi := 3; o_pri := 1 |}; {| o_port := 2; o_lo := 3; o_hi := 3; o_pri := 1 |}].
Proof. split; reflexivity. Qed.

(** On an escape channel a packet is offered what dim_order_torus offers it with the two escape channels, and nothing else. *)
Theorem C120_escape : forall k n b e r1 src dest u i vc ph, 1 <= k -> on_grid k n u -> on_grid k n dest -> b <= vc <= b + 1 -> vc <= e -> u <> dest -> (i < 2 * n)%nat ->
  min_adapt_torus k n r1 ph (at_router b e src dest u i vc) = dim_order_torus k n false r1 false ph (at_router b (b + 1) src dest u i vc).
Proof.
  intros k n b e r1 src dest u i vc ph Hk Hu Hd V Ve N Hi. rewrite mt_offer by (auto; lia). assert (AD : is_ad n b e i vc = false) by (unfold is_ad; destruct (Nat.eqb_spec i (2 * n)); [lia|]; apply Z.ltb_ge; lia). rewrite AD. destruct (Z.eqb_spec u dest); [contradiction|]. rewrite mt_escape by auto. reflexivity.
Qed.
Print Assumptions C120_escape.
Example C120_escape_ex : min_adapt_torus 8 1 true 1 (at_router 0 3 6 1 7 1 1) = Some ([add_range 0 1 1], 1).
Proof. reflexivity. Qed.
(** At the destination it is offered the ejection port with all channels of its type, once. *)
Theorem C120_ejects : forall k n b e r1 src dest i vc ph, 1 <= k -> on_grid k n dest -> b <= vc <= e ->
  min_adapt_torus k n r1 ph (at_router b e src dest dest i vc) = Some ([add_range (Z.of_nat (2 * n)) b e], ph).
Proof. intros k n b e r1 src dest i vc ph Hk Hd V. rewrite mt_offer by auto. rewrite Z.eqb_refl. reflexivity. Qed.
Print Assumptions C120_ejects.
Example C120_ejects_ex : min_adapt_torus 8 1 true 1 (at_router 0 3 6 1 1 1 3) = Some ([add_range 2 0 3], 1).
Proof. reflexivity. Qed.

(** With two channels it is dim_order_torus. *)
Theorem C120_two : forall k n b r1 src dest u i vc ph, 1 <= k -> on_grid k n u -> on_grid k n dest -> b <= vc <= b + 1 ->
  min_adapt_torus k n r1 ph (at_router b (b + 1) src dest u i vc) = dim_order_torus k n false r1 false ph (at_router b (b + 1) src dest u i vc).
Proof.
  intros k n b r1 src dest u i vc ph Hk Hu Hd V. rewrite mt_offer by auto. assert (AD : is_ad n b (b + 1) i vc = false) by (unfold is_ad; destruct (Nat.eqb i (2 * n)); apply Z.ltb_ge; lia). rewrite AD. destruct (Z.eqb_spec u dest) as [->|N].
  - unfold dim_order_torus. cbn [at_router ri_cur ri_in ri_src ri_dest ri_vc ri_b ri_e ri_inject]. rewrite mt_vc_ok by auto. cbn [negb]. destruct (torus_next k n false r1 false i ph dest dest Hk Hd Hd) as [[_ ->]|[d [_ [D2 _]]]]; [|congruence]. rewrite Z.eqb_refl. reflexivity.
  - rewrite mt_escape by auto. reflexivity.
Qed.
Print Assumptions C120_two.
Example C120_two_ex : min_adapt_torus 8 1 true 0 (at_router 0 1 6 1 6 2 0) = Some ([add_range 0 1 1], 1).
Proof. reflexivity. Qed.

(** With three channels or one a packet is offered a channel after the last of its type. *)
Theorem C120_beyond_refuted : forall k n b, 2 <= k -> (1 <= n)%nat -> ~ own_channels (rf_mt k n) k n b (b + 2) /\ ~ own_channels (rf_mt k n) k n b b.
Proof.
  intros k n b Hk Hn. assert (KN : k <= k ^ Z.of_nat n) by (rewrite <- (Z.pow_1_r k) at 1; apply Z.pow_le_mono_r; lia).
  assert (H1 : on_grid k n 1) by (unfold on_grid; lia). assert (H0 : on_grid k n 0) by (unfold on_grid; lia).
  split; intros OC.
  - destruct (OC 1 0 [] 1 (2 * n)%nat b 0 _ H1 H0 ltac:(constructor; lia) (ex_intro _ true eq_refl)) as [es [s' [E [_ T]]]]. rewrite mt_offer in E by (auto; lia). change (1 =? 0) with false in E. cbv iota in E.
    assert (AD : is_ad n b (b + 2) (2 * n) b = true) by (unfold is_ad; rewrite Nat.eqb_refl; apply Z.ltb_lt; lia). rewrite AD in E. destruct (dor_next_torus k n false true false (2 * n) 0 1 0) as [p q]. injection E as <- _. destruct (T _ (or_introl eq_refl)) as [_ Q]. unfold adp, o_hi in Q. lia.
  - destruct (OC 1 0 [] 1 (2 * n)%nat b 0 _ H1 H0 ltac:(constructor; lia) (ex_intro _ true eq_refl)) as [es [s' [E [_ T]]]]. rewrite mt_offer in E by (auto; lia). change (1 =? 0) with false in E. cbv iota in E.
    assert (AD : is_ad n b b (2 * n) b = false) by (unfold is_ad; rewrite Nat.eqb_refl; apply Z.ltb_ge; lia). rewrite AD in E.
    destruct (torus_next k n false true false (2 * n) 0 1 0 ltac:(lia) H1 H0) as [[Q _]|[d [D1 [D2 [D3 Q]]]]]; [lia|].
    assert (d = O). { destruct d as [|d]; [reflexivity|exfalso]. specialize (D3 O ltac:(lia)). rewrite !digit_0, Z.mod_0_l, Z.mod_small in D3 by lia. lia. }
    subst d. rewrite Q in E. rewrite Nat.div2_double in E. destruct (Nat.eqb_spec n 0); [lia|]. rewrite !digit_0, Z.mod_0_l, Z.mod_small in E by lia. unfold entry in E. cbv zeta in E. change (0 <? 1) with true in E. rewrite !andb_true_r in E.
    match type of E with context [if ?x then (2 * 0)%nat else _] => destruct x end; cbn [negb orb] in E; injection E as <- _; destruct (T _ (or_introl eq_refl)) as [_ Q1]; cbn in Q1; lia.
Qed.
Print Assumptions C120_beyond_refuted.
Example C120_beyond_refuted_ex : min_adapt_torus 4 1 true 0 (at_router 0 2 1 0 1 2 0) = Some ([{| o_port := 1; o_lo := 3; o_hi := 3; o_pri := 1 |}; add_range 1 1 1], 1) /\ min_adapt_torus 4 1 true 0 (at_router 0 0 1 0 1 2 0) = Some ([add_range 1 1 1], 1).
Proof. split; reflexivity. Qed.

(** At injection all channels of the type are offered. *)
Theorem C120_injects : forall k n b e, b <= e -> injects (rf_mt k n) k n b e.
Proof.
  intros k n b e Hb s x r Hi Hv <- <- Hd [r1 R]. unfold min_adapt_torus, vc_assert in R. rewrite Hi, Hv in R. change (-1 <? 0) with true in R. rewrite andb_true_l, orb_true_r in R. cbn [negb] in R. subst r. eexists. exists s. split; [reflexivity|]. cbn [o_port o_lo o_hi add_range]. lia.
Qed.
Print Assumptions C120_injects.
Example C120_injects_ex : min_adapt_torus 4 1 true 0 {| ri_cur := 0; ri_in := 2; ri_src := 0; ri_dest := 2; ri_vc := -1; ri_b := 0; ri_e := 3; ri_inject := true |} = Some ([add_range (-1) 0 3], 0).
Proof. reflexivity. Qed.

(** A ring of 8 nodes: from 6 over the dateline to 1, first on the adaptive channel, then on an escape channel. *)
Example C120_delivers_ex : gone (rf_mt 8 1) 8 1 0 3 6 1 (([] ++ [(6, 0%nat, 3)]) ++ [(7, 0%nat, 1)]) 0 1 1 1.
Proof.
  eapply (gone_hop _ _ _ _ _ _ _ ([] ++ [(6, 0%nat, 3)]) 7 1%nat 3 1 [adp 0 0; add_range 0 1 1] 1 (add_range 0 1 1) 0%nat 0 1%nat 1); [|exists true; reflexivity|right; left; reflexivity|reflexivity|cbn; lia|apply linked_iff; [lia|]; split; [unfold on_grid; cbn; lia|]; split; [lia|]; split; reflexivity].
  eapply (gone_hop _ _ _ _ _ _ _ [] 6 2%nat 0 0 [adp 0 0; add_range 0 1 1] 1 (adp 0 0) 0%nat 7 1%nat 3); [constructor; lia|exists true; reflexivity|left; reflexivity|reflexivity|cbn; lia|apply linked_iff; [lia|]; split; [unfold on_grid; cbn; lia|]; split; [lia|]; split; reflexivity].
Qed.
(** A packet on an escape channel waits for one that is held. *)
Example C120_no_deadlock_ex : exists p q, waits (rf_mt 8 1) 8 1 0 3 p q.
Proof.
  exists (mkp 6 1 [] [(6, 0%nat, 1)] 7 1 1 1 [add_range 0 1 1] 1), (mkp 6 1 [] [(6, 0%nat, 3); (7, 0%nat, 1)] 0 1 1 1 [add_range 0 1 1] 1).
  split; [trav; split|].
  - apply (gone_hop _ _ _ _ _ _ _ [] 6 2%nat 0 0 [adp 0 0; add_range 0 1 1] 1 (add_range 0 1 1) 0%nat 7 1%nat 1); [constructor; lia|exists true; reflexivity|right; left; reflexivity|reflexivity|cbn; lia|apply linked_iff; [lia|]; split; [unfold on_grid; cbn; lia|]; split; [lia|]; split; reflexivity].
  - exists true. reflexivity.
  - split; [trav; split; [exact C120_delivers_ex|exists true; reflexivity]|]. split.
    + exists (7, 0%nat, 1). eexists. exists 0%nat, 1. split; [left; reflexivity|]. split; [reflexivity|]. cbn. split; [lia|reflexivity].
    + off 0%nat 1. right. left. reflexivity.
Qed.
