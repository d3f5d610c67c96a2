(** C119: dim_order_ni_torus delivers over shortest ways and cannot deadlock although it has no dateline. *)
From Coq Require Import ZArith Arith Bool List Lia.
From Verif Require Import RouteModel RouteSpec RouteProofs RouteMeshProofs Prop_Route NiTorusModel NiTorusSpec.
Import ListNotations.
Open Scope Z_scope.

Lemma next_port : forall k n r1 r2 r3 i g h u v, fst (dor_next_torus k n false r1 r2 i g u v) = fst (dor_next_torus k n false r1 r3 i h u v).
Proof. intros. unfold dor_next_torus. destruct (tor_dim k n 0 u v) as [[d c] e]. destruct (Nat.ltb d n); [|reflexivity]. destruct (negb _); reflexivity. Qed.
Lemma vc_ok : forall vc b e, b <= vc <= e -> vc_assert false vc b e = true.
Proof. intros. unfold vc_assert. destruct (Z.leb_spec b vc); [|lia]. destruct (Z.leb_spec vc e); [|lia]. reflexivity. Qed.

(** What dim_order_ni_torus offers. *)
Lemma ni_offer : forall k n b e r1 src dest u i vc, 1 <= k -> k ^ Z.of_nat n <= e - b + 1 -> on_grid k n dest -> b <= vc <= e ->
  let w := (e - b + 1) / k ^ Z.of_nat n in
  0 < w /\ b <= b + dest * w /\ b + dest * w + w - 1 <= e /\
  dim_order_ni_torus k n (k ^ Z.of_nat n) r1 (at_router b e src dest u i vc) =
    Some [add_range (Z.of_nat (fst (dor_next_torus k n false r1 false i 0 u dest))) (if u =? dest then b else b + dest * w) (if u =? dest then e else b + dest * w + w - 1)].
Proof.
  intros k n b e r1 src dest u i vc Hk W [D1 D2] V w. set (N := k ^ Z.of_nat n) in *. assert (HN : 0 < N) by lia.
  pose proof (Z.div_mod (e - b + 1) N ltac:(lia)) as DM. pose proof (Z.mod_pos_bound (e - b + 1) N HN) as MB. fold w in DM.
  assert (Hw : 0 < w) by (assert (1 <= w) by (unfold w; apply Z.div_le_lower_bound; lia); lia). split; auto. split; [nia|]. split; [nia|].
  unfold dim_order_ni_torus. cbn [at_router ri_cur ri_in ri_src ri_dest ri_vc ri_b ri_e ri_inject]. rewrite vc_ok by auto. cbn [negb]. destruct (Z.eqb_spec u dest) as [E|E]; cbn [negb]; [reflexivity|].
  rewrite Z.quot_div_nonneg by lia. fold w. destruct (Z.eqb_spec w 0); [lia|]. reflexivity.
Qed.

(** Its way is one of dim_order_torus. *)
Lemma ni_way : forall k n b e src dest l u i vc s, 1 <= k -> k ^ Z.of_nat n <= e - b + 1 -> on_grid k n src -> on_grid k n dest -> gone (rf_ni_torus k n) k n b e src dest l u i vc s ->
  b <= vc <= e /\ (exists l' vc' ph, length l' = length l /\ gone (rf_torus k n false) k n 0 1 src dest l' u i vc' ph) /\
  forall u0 p0 vc0, In (u0, p0, vc0) l -> (vc0 - b) / ((e - b + 1) / k ^ Z.of_nat n) = dest /\ torus_dist k n u dest < torus_dist k n u0 dest.
Proof.
  intros k n b e src dest l u i vc s Hk W Hs Hd G. induction G as [vc s V|l u i vc s es s' x p v j vc' G IH R X P V L].
  - split; auto. split; [exists [], 0, 0; split; [reflexivity|constructor; lia]|]. intros u0 p0 vc0 [].
  - destruct IH as [I1 [[l' [vc1 [ph [E1 G1]]]] I3]]. destruct R as [r1 R]. unfold rf_pure in R.
    destruct (ni_offer k n b e r1 src dest u i vc Hk W Hd I1) as [Hw [B1 [B2 O]]]. set (w := (e - b + 1) / k ^ Z.of_nat n) in *. rewrite O in R. clear O. injection R as -> ->. destruct X as [<-|[]]. cbn [o_port o_lo o_hi add_range] in *. apply Nat2Z.inj in P.
    destruct (C36_torus k n false 0 1 Hk ltac:(lia) src dest l' u i vc1 ph Hs Hd G1) as [T1 [T2 [_ [T4 [_ T5]]]]].
    destruct (T5 _ (ex_intro _ r1 (ex_intro _ false eq_refl))) as [es1 [s1 [Q [_ T6]]]].
    assert (ES : exists y, es1 = [y] /\ o_port y = Z.of_nat p).
    { clear T5 T6. rewrite <- P. unfold dim_order_torus in Q. cbn [at_router ri_cur ri_in ri_src ri_dest ri_vc ri_b ri_e ri_inject] in Q. rewrite vc_ok in Q by auto. cbn [negb] in Q.
      rewrite (next_port k n r1 false false i 0 ph u dest). destruct (dor_next_torus k n false r1 false i ph u dest) as [q ph']. cbn [fst].
      destruct (u =? dest); [injection Q as <- _; eexists; split; reflexivity|]. destruct (_ <=? 0); [discriminate|]. destruct (ph' =? 0); [injection Q as <- _; eexists; split; reflexivity|]. cbn [andb] in Q. injection Q as <- _. eexists; split; reflexivity. }
    destruct ES as [y [-> Py]]. destruct (T6 y (or_introl eq_refl)) as [Y1 [Y2 Y3]].
    assert (Nu : u <> dest). { intros ->. rewrite Z.eqb_refl in Y3. apply linked_iff in L; auto. lia. }
    assert (G2 : gone (rf_torus k n false) k n 0 1 src dest (l' ++ [(u, p, o_lo y)]) v j (o_lo y) s1).
    { apply (gone_hop _ _ _ _ _ _ _ l' u i vc1 ph [y] s1 y p v j (o_lo y)); [exact G1|exists r1, false; symmetry; exact Q|left; reflexivity|exact Py|lia|exact L]. }
    destruct (C36_torus k n false 0 1 Hk ltac:(lia) src dest _ v j _ _ Hs Hd G2) as [_ [_ [_ [T7 _]]]]. rewrite app_length in T7. cbn [length] in T7.
    destruct (Z.eqb_spec u dest); [contradiction|]. split; [lia|]. split.
    + exists (l' ++ [(u, p, o_lo y)]), (o_lo y), s1. split; [rewrite !app_length, E1; reflexivity|exact G2].
    + intros u0 p0 vc0 H0. apply in_app_or in H0. destruct H0 as [H0|[H0|[]]].
      * destruct (I3 _ _ _ H0) as [A B]. split; [exact A|lia].
      * injection H0 as <- <- <-. split; [|lia]. symmetry. apply (Z.div_unique_pos _ _ _ (vc' - b - dest * w)); lia.
Qed.

(** With a channel for every node, every packet is delivered over a shortest way; no assertion fails and every channel is one of its type. *)
Theorem C119_delivers : forall k n b e, 1 <= k -> k ^ Z.of_nat n <= e - b + 1 ->
  delivers (rf_ni_torus k n) k n b e (torus_dist k n) (fun _ _ _ => True) (fun _ _ => True).
Proof.
  intros k n b e Hk W src dest l u i vc s Hs Hd G. destruct (ni_way _ _ _ _ _ _ _ _ _ _ _ Hk W Hs Hd G) as [V [[l' [vc1 [ph [E1 G1]]]] _]].
  destruct (C36_torus k n false 0 1 Hk ltac:(lia) src dest l' u i vc1 ph Hs Hd G1) as [T1 [T2 [_ [T4 [_ T5]]]]]. rewrite E1 in T4.
  split; auto. split; auto. split; auto. split; auto. split; [eexists; exists true; reflexivity|].
  intros r [r1 R]. unfold rf_pure in R. destruct (ni_offer k n b e r1 src dest u i vc Hk W Hd V) as [Hw [B1 [B2 O]]]. rewrite O in R. subst r. eexists. exists tt. split; [reflexivity|]. split; [discriminate|].
  intros x [<-|[]]. cbn [o_port o_lo o_hi add_range]. split; [destruct (u =? dest); lia|]. split; [destruct (u =? dest); lia|].
  destruct (T5 _ (ex_intro _ r1 (ex_intro _ false eq_refl))) as [es1 [s1 [Q [_ T6]]]].
  unfold dim_order_torus in Q. cbn [at_router ri_cur ri_in ri_src ri_dest ri_vc ri_b ri_e ri_inject] in Q. rewrite vc_ok in Q by auto. cbn [negb] in Q.
  rewrite (next_port k n r1 false false i 0 ph u dest). destruct (dor_next_torus k n false r1 false i ph u dest) as [q ph']. cbn [fst].
  assert (ES : exists y, es1 = [y] /\ o_port y = Z.of_nat q).
  { destruct (u =? dest); [injection Q as <- _; eexists; split; reflexivity|]. destruct (_ <=? 0); [discriminate|]. destruct (ph' =? 0); [injection Q as <- _; eexists; split; reflexivity|]. cbn [andb] in Q. injection Q as <- _. eexists; split; reflexivity. }
  destruct ES as [y [-> Py]]. destruct (T6 y (or_introl eq_refl)) as [_ [_ Y3]]. rewrite Py in Y3. exact Y3.
Qed.
Print Assumptions C119_delivers.

(** A packet is offered one port, with the share of its destination, and at its destination with all channels of its type. *)
Theorem C119_share : forall k n b e r1 src dest u i vc, 1 <= k -> k ^ Z.of_nat n <= e - b + 1 -> on_grid k n dest -> b <= vc <= e ->
  exists p, let w := (e - b + 1) / k ^ Z.of_nat n in
  dim_order_ni_torus k n (k ^ Z.of_nat n) r1 (at_router b e src dest u i vc) =
    Some [if u =? dest then add_range p b e else add_range p (b + dest * w) (b + dest * w + w - 1)].
Proof.
  intros k n b e r1 src dest u i vc Hk W Hd V. destruct (ni_offer k n b e r1 src dest u i vc Hk W Hd V) as [_ [_ [_ ->]]]. eexists. cbv zeta. destruct (u =? dest); reflexivity.
Qed.
Print Assumptions C119_share.
Example C119_share_ex : dim_order_ni_torus 4 1 4 true (at_router 2 9 0 3 1 1 5) = Some [add_range 0 8 9] /\ dim_order_ni_torus 4 1 4 true (at_router 2 9 0 3 3 1 9) = Some [add_range 2 2 9].
Proof. split; reflexivity. Qed.

(** Channels of different destinations are different, and no packets can block one another for ever. *)
Theorem C119_no_deadlock : forall k n b e D, 1 <= k -> k ^ Z.of_nat n <= e - b + 1 -> ~ deadlock (rf_ni_torus k n) k n b e D.
Proof.
  intros k n b e D Hk W. revert D. set (w := (e - b + 1) / k ^ Z.of_nat n).
  apply no_deadlock with (good := fun _ => true) (rank := fun c => - torus_dist k n (fst (fst c)) ((snd c - b) / w)).
  intros src dest l u i vc s es s' Hs Hd G [r1 R]. destruct (ni_way _ _ _ _ _ _ _ _ _ _ _ Hk W Hs Hd G) as [V [_ A]]. fold w in A.
  destruct (C119_delivers k n b e Hk W src dest l u i vc s Hs Hd G) as [_ [_ [_ [_ [_ T]]]]]. destruct (T _ (ex_intro _ r1 R)) as [es1 [s1 [Q [_ T6]]]]. injection Q as <- <-.
  unfold rf_pure in R. destruct (ni_offer k n b e r1 src dest u i vc Hk W Hd V) as [Hw [B1 [B2 O]]]. fold w in Hw, B1, B2, O. rewrite O in R. injection R as -> _. specialize (T6 _ (or_introl eq_refl)). cbn [o_port o_lo o_hi add_range] in T6. destruct T6 as [_ [_ T6]].
  set (q := fst (dor_next_torus k n false r1 false i 0 u dest)) in *. destruct (Z.eqb_spec u dest) as [E|E].
  - exists (u, q, b). split; [eexists; exists q, b; split; [left; reflexivity|]; cbn [o_port o_lo o_hi add_range]; split; [reflexivity|]; split; [lia|reflexivity]|]. left. cbn [fst snd]. lia.
  - exists (u, q, b + dest * w). split; [eexists; exists q, (b + dest * w); split; [left; reflexivity|]; cbn [o_port o_lo o_hi add_range]; split; [reflexivity|]; split; [lia|reflexivity]|]. right. split; [reflexivity|].
    intros [[u0 p0] vc0] H0 _. destruct (A _ _ _ H0) as [A1 A2]. cbn [fst snd]. rewrite A1. replace ((b + dest * w - b) / w) with dest by (replace (b + dest * w - b) with (dest * w) by lia; rewrite Z.div_mul by lia; reflexivity). lia.
Qed.
Print Assumptions C119_no_deadlock.

(** With fewer channels than nodes the first packet that is not at its destination fails the assertion. *)
Theorem C119_too_few : forall k n nodes r1 x, ri_inject x = false -> ri_b x <= ri_vc x <= ri_e x -> ri_e x - ri_b x + 1 < nodes -> ri_cur x <> ri_dest x -> dim_order_ni_torus k n nodes r1 x = None.
Proof.
  intros k n nodes r1 x Hi V W N. unfold dim_order_ni_torus. rewrite Hi, vc_ok by auto. cbn [negb]. destruct (Z.eqb_spec (ri_cur x) (ri_dest x)); [contradiction|]. cbn [negb]. rewrite Z.quot_small by lia. reflexivity.
Qed.
Print Assumptions C119_too_few.
Example C119_too_few_ex : dim_order_ni_torus 4 1 4 true (at_router 0 2 0 2 1 1 0) = None /\ dim_order_ni_torus 4 1 4 true (at_router 0 3 0 2 1 1 0) = Some [add_range 0 2 2].
Proof. split; reflexivity. Qed.

(** At injection every channel of the type is offered, those of other destinations too, unlike on the mesh. *)
Theorem C119_injects : forall k n b e, b <= e -> injects (rf_ni_torus k n) k n b e.
Proof.
  intros k n b e Hb s x r Hi Hv <- <- Hd [r1 R]. unfold rf_pure, dim_order_ni_torus, vc_assert in R. rewrite Hi, Hv in R. change (-1 <? 0) with true in R. rewrite andb_true_l, orb_true_r in R. cbn [negb] in R. subst r. eexists. exists tt. split; [reflexivity|]. cbn [o_port o_lo o_hi add_range]. lia.
Qed.
Print Assumptions C119_injects.

(** A ring of 4 nodes: the packet from 0 to 2 waits at 1, and a packet for 2 holds the channel in front of it. *)
Example C119_delivers_ex : 4 ^ Z.of_nat 1 <= 3 - 0 + 1 /\ gone (rf_ni_torus 4 1) 4 1 0 3 0 2 ([] ++ [(0, 0%nat, 2)]) 1 1 2 tt.
Proof.
  split; [cbn; lia|]. eapply (gone_hop _ _ _ _ _ _ _ [] 0 2%nat 0 tt [add_range 0 2 2] tt (add_range 0 2 2) 0%nat 1 1%nat 2); [constructor; lia| |left; reflexivity|reflexivity|cbn; lia|].
  - exists true. reflexivity.
  - apply linked_iff; [lia|]. split; [unfold on_grid; cbn; lia|]. split; [lia|]. split; reflexivity.
Qed.
Example C119_no_deadlock_ex : exists p q, waits (rf_ni_torus 4 1) 4 1 0 3 p q.
Proof.
  exists (mkp 0 2 [] [] 0 2 0 tt [add_range 0 2 2] tt), (mkp 0 2 [] [(0, 0%nat, 2)] 1 1 2 tt [add_range 0 2 2] tt).
  split; [trav; split; [constructor; lia|exists true; reflexivity]|]. split; [trav; split; [exact (proj2 C119_delivers_ex)|exists true; reflexivity]|]. split.
  - exists (0, 0%nat, 2). eexists. exists 0%nat, 2. split; [left; reflexivity|]. split; [reflexivity|]. cbn. split; [lia|reflexivity].
  - off 0%nat 2. left. reflexivity.
Qed.
Example C119_injects_ex : dim_order_ni_torus 4 1 4 true {| ri_cur := 0; ri_in := 2; ri_src := 0; ri_dest := 2; ri_vc := -1; ri_b := 0; ri_e := 3; ri_inject := true |} = Some [add_range (-1) 0 3].
Proof. reflexivity. Qed.
