(** C121: romm_ni_mesh delivers over shortest ways and cannot deadlock. C122: valiant_ni_torus can lead a packet past its destination for ever. *)
From Coq Require Import ZArith Arith Bool List Lia.
From Verif Require Import RouteModel RouteSpec RouteProofs RouteMeshProofs Prop_Route RommNiModel RommNiSpec.
Import ListNotations.
Open Scope Z_scope.

Lemma rn_vc_ok : forall vc b e, b <= vc <= e -> vc_assert false vc b e = true.
Proof. intros. unfold vc_assert. destruct (Z.leb_spec b vc); [|lia]. destruct (Z.leb_spec vc e); [|lia]. reflexivity. Qed.
Definition rn_phase (k : Z) (n : nat) (rnd : nat -> Z -> Z) (src dest u : Z) (i : nat) (st : Z * Z) : Z * Z :=
  let '(ph, intm) := if Nat.eqb i (2 * n) then (0, rand_min_intr k n 0 rnd 1 src dest) else st in (if (ph =? 0) && (u =? intm) then 1 else ph, intm).
Definition rn_port (k : Z) (n : nat) (dest u : Z) (s : Z * Z) : Z := Z.of_nat (dor_next_mesh k n (k ^ Z.of_nat n) false u (if fst s =? 0 then snd s else dest)).
Lemma rn_offer : forall k n b e rnd src dest u i vc st, 1 <= k -> k ^ Z.of_nat n <= e - b + 1 -> on_grid k n dest -> b <= vc <= e ->
  let w := (e - b + 1) / k ^ Z.of_nat n in let s := rn_phase k n rnd src dest u i st in
  0 < w /\ b <= b + dest * w /\ b + dest * w + w - 1 <= e /\
  romm_ni_mesh k n (k ^ Z.of_nat n) rnd st (at_router b e src dest u i vc) = Some ([add_range (rn_port k n dest u s) (if u =? dest then b else b + dest * w) (if u =? dest then e else b + dest * w + w - 1)], s).
Proof.
  intros k n b e rnd src dest u i vc st Hk W [D1 D2] V w s. unfold s, rn_port, rn_phase, romm_ni_mesh, ni_share. set (N := k ^ Z.of_nat n) in *. assert (HN : 0 < N) by lia.
  pose proof (Z.div_mod (e - b + 1) N ltac:(lia)) as DM. pose proof (Z.mod_pos_bound (e - b + 1) N HN) as MB. fold w in DM.
  assert (Hw : 0 < w) by (assert (1 <= w) by (unfold w; apply Z.div_le_lower_bound; lia); lia). split; auto. split; [nia|]. split; [nia|].
  cbn [at_router ri_cur ri_in ri_src ri_dest ri_vc ri_b ri_e ri_inject]. rewrite rn_vc_ok by auto. cbn [negb orb]. destruct (Z.eqb_spec u dest) as [E|E]; cbn [negb].
  - destruct (if Nat.eqb i (2 * n) then _ else st) as [ph intm]. cbn [fst snd]. reflexivity.
  - rewrite Z.quot_div_nonneg by lia. fold w. destruct (Z.leb_spec w 0); [lia|]. destruct (if Nat.eqb i (2 * n) then _ else st) as [ph intm]. cbn [fst snd]. reflexivity.
Qed.
Lemma rn_romm : forall k n rnd src dest u i vc st es s', 0 <= vc <= 1 -> romm_mesh k n (k ^ Z.of_nat n) rnd st (at_router 0 1 src dest u i vc) = Some (es, s') ->
  s' = rn_phase k n rnd src dest u i st /\ exists y, es = [y] /\ o_port y = rn_port k n dest u s'.
Proof.
  intros k n rnd src dest u i vc st es s' V Q. unfold romm_mesh, two_phase_mesh in Q. cbn [at_router ri_cur ri_in ri_src ri_dest ri_vc ri_b ri_e ri_inject] in Q. rewrite rn_vc_ok in Q by auto. cbn [negb] in Q. unfold rn_phase, rn_port. destruct st as [a c]. cbn [fst snd] in Q.
  destruct (if Nat.eqb i (2 * n) then _ else (a, c)) as [ph intm]. destruct (u =? dest); [injection Q as <- <-; cbn [fst snd]; split; [reflexivity|]; eexists; split; reflexivity|].
  destruct (_ <=? 0); [discriminate|]. destruct ((if (ph =? 0) && (u =? intm) then 1 else ph) =? 0) eqn:E0; [injection Q as <- <-; cbn [fst snd]; split; [reflexivity|]; rewrite E0; eexists; split; reflexivity|].
  destruct ((if (ph =? 0) && (u =? intm) then 1 else ph) =? 1); [|discriminate]. injection Q as <- <-. cbn [fst snd]. split; [reflexivity|]. rewrite E0. eexists; split; reflexivity.
Qed.

(** Its way is one of romm_mesh. *)
Lemma rn_way : forall k n b e src dest l u i vc s, 1 <= k -> k ^ Z.of_nat n <= e - b + 1 -> on_grid k n src -> on_grid k n dest -> gone (rf_romm_ni k n) k n b e src dest l u i vc s ->
  b <= vc <= e /\ (exists l' vc', length l' = length l /\ gone (rf_romm k n) k n 0 1 src dest l' u i vc' s) /\
  forall u0 p0 vc0, In (u0, p0, vc0) l -> (vc0 - b) / ((e - b + 1) / k ^ Z.of_nat n) = dest /\ mesh_dist k n u dest < mesh_dist k n u0 dest.
Proof.
  intros k n b e src dest l u i vc s Hk W Hs Hd G. induction G as [vc s V|l u i vc s es s' x p v j vc' G IH R X P V L].
  - split; auto. split; [exists [], 0; split; [reflexivity|constructor; lia]|]. intros u0 p0 vc0 [].
  - destruct IH as [I1 [[l' [vc1 [E1 G1]]] I3]]. destruct R as [rnd [Hr R]].
    destruct (rn_offer k n b e rnd src dest u i vc s Hk W Hd I1) as [Hw [B1 [B2 O]]]. set (w := (e - b + 1) / k ^ Z.of_nat n) in *. rewrite O in R. clear O.
    assert (R1 : es = [add_range (rn_port k n dest u (rn_phase k n rnd src dest u i s)) (if u =? dest then b else b + dest * w) (if u =? dest then e else b + dest * w + w - 1)]) by congruence. assert (R2 : s' = rn_phase k n rnd src dest u i s) by congruence. clear R. subst es. rewrite <- R2 in X. destruct X as [<-|[]]. cbn [o_port o_lo o_hi add_range] in *.
    destruct (C36_romm k n 0 1 Hk ltac:(lia) src dest l' u i vc1 s Hs Hd G1) as [T1 [T2 [_ [T4 [_ T5]]]]].
    destruct (T5 _ (ex_intro _ rnd (conj Hr eq_refl))) as [es1 [s1 [Q [_ T6]]]]. destruct (rn_romm _ _ _ _ _ _ _ _ _ _ _ T2 Q) as [S1 [y [-> Py]]]. rewrite <- R2 in S1. subst s1.
    destruct (T6 y (or_introl eq_refl)) as [Y1 [Y2 Y3]].
    assert (Nu : u <> dest). { intros ->. rewrite Z.eqb_refl in Y3. apply linked_iff in L; auto. lia. }
    assert (G2 : gone (rf_romm k n) k n 0 1 src dest (l' ++ [(u, p, o_lo y)]) v j (o_lo y) s').
    { apply (gone_hop _ _ _ _ _ _ _ l' u i vc1 s [y] s' y p v j (o_lo y)); [exact G1|exists rnd; split; [exact Hr|symmetry; exact Q]|left; reflexivity|congruence|lia|exact L]. }
    destruct (C36_romm k n 0 1 Hk ltac:(lia) src dest _ v j _ _ Hs Hd G2) as [_ [_ [_ [T7 _]]]]. rewrite app_length in T7. cbn [length] in T7.
    destruct (Z.eqb_spec u dest); [contradiction|]. split; [lia|]. split.
    + exists (l' ++ [(u, p, o_lo y)]), (o_lo y). split; [rewrite !app_length, E1; reflexivity|exact G2].
    + intros u0 p0 vc0 H0. apply in_app_or in H0. destruct H0 as [H0|[H0|[]]].
      * destruct (I3 _ _ _ H0) as [A B]. split; [exact A|lia].
      * injection H0 as <- <- <-. split; [|lia]. symmetry. apply (Z.div_unique_pos _ _ _ (vc' - b - dest * w)); lia.
Qed.

(** With a channel for every node, romm_ni_mesh delivers every packet over a shortest way between source and destination. *)
Theorem C121_delivers : forall k n b e, 1 <= k -> k ^ Z.of_nat n <= e - b + 1 -> delivers (rf_romm_ni k n) k n b e (mesh_dist k n) (in_box k n) (mesh_link k n).
Proof.
  intros k n b e Hk W src dest l u i vc s Hs Hd G. destruct (rn_way _ _ _ _ _ _ _ _ _ _ _ Hk W Hs Hd G) as [V [[l' [vc1 [E1 G1]]] _]].
  destruct (C36_romm k n 0 1 Hk ltac:(lia) src dest l' u i vc1 s Hs Hd G1) as [T1 [T2 [T3 [T4 [_ T5]]]]]. rewrite E1 in T4.
  split; auto. split; auto. split; auto. split; auto. split; [eexists; exists (fun _ _ => 0); split; [intros; lia|reflexivity]|].
  intros r [rnd [Hr R]]. destruct (rn_offer k n b e rnd src dest u i vc s Hk W Hd V) as [Hw [B1 [B2 O]]]. rewrite O in R. subst r. eexists. eexists. split; [reflexivity|]. split; [discriminate|].
  intros x [<-|[]]. cbn [o_port o_lo o_hi add_range]. split; [destruct (u =? dest); lia|]. split; [destruct (u =? dest); lia|].
  destruct (T5 _ (ex_intro _ rnd (conj Hr eq_refl))) as [es1 [s1 [Q [_ T6]]]]. destruct (rn_romm _ _ _ _ _ _ _ _ _ _ _ T2 Q) as [-> [y [-> Py]]]. destruct (T6 y (or_introl eq_refl)) as [_ [_ Y3]]. rewrite Py in Y3. exact Y3.
Qed.
Print Assumptions C121_delivers.

(** What is offered: one port, with the share of the destination, and at the destination with all channels of the type. *)
Theorem C121_share : forall k n b e rnd src dest u i vc st, 1 <= k -> k ^ Z.of_nat n <= e - b + 1 -> on_grid k n dest -> b <= vc <= e ->
  exists p s', let w := (e - b + 1) / k ^ Z.of_nat n in
  romm_ni_mesh k n (k ^ Z.of_nat n) rnd st (at_router b e src dest u i vc) = Some ([if u =? dest then add_range p b e else add_range p (b + dest * w) (b + dest * w + w - 1)], s').
Proof.
  intros k n b e rnd src dest u i vc st Hk W Hd V. destruct (rn_offer k n b e rnd src dest u i vc st Hk W Hd V) as [_ [_ [_ ->]]]. eexists. eexists. cbv zeta. destruct (u =? dest); reflexivity.
Qed.
Print Assumptions C121_share.
Example C121_share_ex : romm_ni_mesh 2 2 4 (fun _ d => d) (1, 0) (at_router 0 7 0 3 1 1 6) = Some ([add_range 2 6 7], (1, 0)).
Proof. reflexivity. Qed.

(** No packets can block one another for ever, although both phases use the same channels. *)
Theorem C121_no_deadlock : forall k n b e D, 1 <= k -> k ^ Z.of_nat n <= e - b + 1 -> ~ deadlock (rf_romm_ni k n) k n b e D.
Proof.
  intros k n b e D Hk W. revert D. set (w := (e - b + 1) / k ^ Z.of_nat n).
  apply no_deadlock with (good := fun _ => true) (rank := fun c => - mesh_dist k n (fst (fst c)) ((snd c - b) / w)).
  intros src dest l u i vc s es s' Hs Hd G R. destruct (rn_way _ _ _ _ _ _ _ _ _ _ _ Hk W Hs Hd G) as [V [_ A]]. fold w in A.
  destruct (C121_delivers k n b e Hk W src dest l u i vc s Hs Hd G) as [_ [_ [_ [_ [_ T]]]]]. destruct (T _ R) as [es1 [s1 [Q [_ T6]]]]. assert (Q1 : es1 = es) by congruence. subst es1. clear Q.
  destruct R as [rnd [_ R]]. destruct (rn_offer k n b e rnd src dest u i vc s Hk W Hd V) as [Hw [B1 [B2 O]]]. fold w in Hw, B1, B2, O. rewrite O in R. assert (ES : es = [add_range (rn_port k n dest u (rn_phase k n rnd src dest u i s)) (if u =? dest then b else b + dest * w) (if u =? dest then e else b + dest * w + w - 1)]) by congruence. clear R O. subst es. specialize (T6 _ (or_introl eq_refl)). cbn [o_port o_lo o_hi add_range] in T6. destruct T6 as [_ [_ T6]].
  unfold rn_port in *. set (q := dor_next_mesh k n (k ^ Z.of_nat n) false u (if fst (rn_phase k n rnd src dest u i s) =? 0 then snd (rn_phase k n rnd src dest u i s) else dest)) in *. destruct (Z.eqb_spec u dest) as [E|E].
  - exists (u, q, b). split; [eexists; exists q, b; split; [left; reflexivity|]; cbn [o_port o_lo o_hi add_range]; split; [reflexivity|]; split; [lia|reflexivity]|]. left. cbn [fst snd]. lia.
  - exists (u, q, b + dest * w). split; [eexists; exists q, (b + dest * w); split; [left; reflexivity|]; cbn [o_port o_lo o_hi add_range]; split; [reflexivity|]; split; [lia|reflexivity]|]. right. split; [reflexivity|].
    intros [[u0 p0] vc0] H0 _. destruct (A _ _ _ H0) as [A1 A2]. cbn [fst snd]. rewrite A1. replace ((b + dest * w - b) / w) with dest by (replace (b + dest * w - b) with (dest * w) by lia; rewrite Z.div_mul by lia; reflexivity). lia.
Qed.
Print Assumptions C121_no_deadlock.

(** A new packet is offered the share of its destination at the injection port. *)
Theorem C121_injects : forall k n b e, 1 <= k -> k ^ Z.of_nat n <= e - b + 1 -> injects (rf_romm_ni k n) k n b e.
Proof.
  intros k n b e Hk W s x r Hi Hv <- <- Hd [rnd [_ R]]. destruct (rn_offer k n (ri_b x) (ri_e x) rnd 0 (ri_dest x) 0 0%nat (ri_b x) s Hk W Hd ltac:(destruct Hd; lia)) as [Hw [B1 [B2 _]]].
  unfold romm_ni_mesh, ni_share, vc_assert in R. rewrite Hi, Hv in R. change (-1 <? 0) with true in R. rewrite andb_true_l, orb_true_r in R. cbn [negb orb] in R. rewrite Z.quot_div_nonneg in R by (destruct Hd; lia). destruct (Z.leb_spec ((ri_e x - ri_b x + 1) / k ^ Z.of_nat n) 0); [lia|]. subst r. eexists. exists s. split; [reflexivity|]. cbn [o_port o_lo o_hi add_range]. lia.
Qed.
Print Assumptions C121_injects.
Example C121_injects_ex : romm_ni_mesh 2 2 4 (fun _ d => d) (1, 0) {| ri_cur := 0; ri_in := 4; ri_src := 0; ri_dest := 3; ri_vc := -1; ri_b := 0; ri_e := 7; ri_inject := true |} = Some ([add_range (-1) 6 7], (1, 0)).
Proof. reflexivity. Qed.

(** Exactly that share, with nothing stored. *)
Theorem C121_new : forall k n rnd st x, 1 <= k -> k ^ Z.of_nat n <= ri_e x - ri_b x + 1 -> on_grid k n (ri_dest x) -> ri_inject x = true -> ri_vc x = -1 ->
  let w := (ri_e x - ri_b x + 1) / k ^ Z.of_nat n in
  romm_ni_mesh k n (k ^ Z.of_nat n) rnd st x = Some ([add_range (-1) (ri_b x + ri_dest x * w) (ri_b x + ri_dest x * w + w - 1)], st).
Proof.
  intros k n rnd st x Hk W Hd Hi Hv w. destruct (rn_offer k n (ri_b x) (ri_e x) rnd 0 (ri_dest x) 0 0%nat (ri_b x) st Hk W Hd ltac:(destruct Hd; lia)) as [Hw _]. fold w in Hw.
  unfold romm_ni_mesh, ni_share, vc_assert. rewrite Hi, Hv. change (-1 <? 0) with true. rewrite andb_true_l, orb_true_r. cbn [negb orb]. rewrite Z.quot_div_nonneg by (destruct Hd; lia). fold w. destruct (Z.leb_spec w 0); [lia|]. reflexivity.
Qed.
Print Assumptions C121_new.
Example C121_new_ex : romm_ni_mesh 2 2 4 (fun _ d => d) (1, 0) {| ri_cur := 3; ri_in := 4; ri_src := 3; ri_dest := 2; ri_vc := -1; ri_b := 0; ri_e := 7; ri_inject := true |} = Some ([add_range (-1) 4 5], (1, 0)).
Proof. reflexivity. Qed.

(** The port, the phase and the node between are those of romm_mesh with the same draws. *)
Theorem C121_as_romm : forall k n b e rnd src dest u i vc st vc2 es s', 1 <= k -> k ^ Z.of_nat n <= e - b + 1 -> on_grid k n dest -> b <= vc <= e -> 0 <= vc2 <= 1 ->
  romm_mesh k n (k ^ Z.of_nat n) rnd st (at_router 0 1 src dest u i vc2) = Some (es, s') ->
  exists x y, es = [x] /\ romm_ni_mesh k n (k ^ Z.of_nat n) rnd st (at_router b e src dest u i vc) = Some ([y], s') /\ o_port y = o_port x.
Proof.
  intros k n b e rnd src dest u i vc st vc2 es s' Hk W Hd V V2 R. destruct (rn_romm _ _ _ _ _ _ _ _ _ _ _ V2 R) as [-> [y [-> P]]]. destruct (rn_offer k n b e rnd src dest u i vc st Hk W Hd V) as [_ [_ [_ ->]]]. eexists. eexists. split; [reflexivity|]. split; [reflexivity|]. rewrite P. reflexivity.
Qed.
Print Assumptions C121_as_romm.
(** From 0 over 2 to 3. *)
Example C121_as_romm_ex : let rnd := fun i d => if Nat.eqb i 0 then 0 else d in
  romm_mesh 2 2 4 rnd (-1, -1) (at_router 0 1 0 3 0 4 0) = Some ([add_range 2 0 0], (0, 2)) /\ romm_ni_mesh 2 2 4 rnd (-1, -1) (at_router 0 3 0 3 0 4 0) = Some ([add_range 2 3 3], (0, 2)).
Proof. split; reflexivity. Qed.

(** From 0 to 3 on a mesh of 2 by 2 nodes. *)
Example C121_delivers_ex : gone (rf_romm_ni 2 2) 2 2 0 3 0 3 ([] ++ [(0, 0%nat, 3)]) 1 1 3 (0, 1).
Proof.
  eapply (gone_hop _ _ _ _ _ _ _ [] 0 4%nat 0 (0, 0) [add_range 0 3 3] (0, 1) (add_range 0 3 3) 0%nat 1 1%nat 3); [constructor; lia| |left; reflexivity|reflexivity|cbn; lia|].
  - exists (fun i d => if Nat.eqb i 0 then d else 0). split; [intros i d H; destruct (Nat.eqb i 0); lia|]. reflexivity.
  - apply linked_iff; [lia|]. split; [unfold on_grid; cbn; lia|]. split; [lia|]. split; reflexivity.
Qed.
Example C121_no_deadlock_ex : exists p q, waits (rf_romm_ni 2 2) 2 2 0 3 p q.
Proof.
  assert (A : rf_romm_ni 2 2 (0, 0) (at_router 0 3 0 3 0 4 0) (Some ([add_range 0 3 3], (0, 1)))) by (exists (fun i d => if Nat.eqb i 0 then d else 0); split; [intros i d H; destruct (Nat.eqb i 0); lia|reflexivity]).
  exists (mkp 0 3 [] [] 0 4 0 (0, 0) [add_range 0 3 3] (0, 1)), (mkp 0 3 [] [(0, 0%nat, 3)] 1 1 3 (0, 1) [add_range 2 3 3] (1, 1)).
  split; [trav; split; [constructor; lia|exact A]|]. split; [trav; split; [exact C121_delivers_ex|exists (fun _ _ => 0); split; [intros; lia|reflexivity]]|]. split.
  - exists (0, 0%nat, 3). eexists. exists 0%nat, 3. split; [left; reflexivity|]. split; [reflexivity|]. cbn. split; [lia|reflexivity].
  - off 0%nat 3. left. reflexivity.
Qed.

(** A packet for node 1 of a ring of 3 nodes reaches it after one hop with the partition 0 stored; whatever is drawn and whatever the variable holds, it is not offered the
    ejection port there. *)
Lemma vni_first : gone (rf_vni 3 1) 3 1 0 11 0 1 ([] ++ [(0, 0%nat, 4)]) 1 1 4 (0, 0).
Proof.
  eapply (gone_hop _ _ _ _ _ _ _ [] 0 2%nat 0 (-1, 0) [add_range 0 4 4] (0, 0) (add_range 0 4 4) 0%nat 1 1%nat 4); [constructor; lia| |left; reflexivity|reflexivity|cbn; lia|].
  - exists 0, true, 7. split; [cbn; lia|]. reflexivity.
  - apply linked_iff; [lia|]. split; [unfold on_grid; cbn; lia|]. split; [lia|]. split; reflexivity.
Qed.
Theorem C122_passes_refuted : exists k n b e src dest l i vc st, 1 <= k /\ on_grid k n src /\ on_grid k n dest /\ 4 * k ^ Z.of_nat n <= e - b + 1 /\
  gone (rf_vni k n) k n b e src dest l dest i vc st /\
  forall r, rf_vni k n st (at_router b e src dest dest i vc) r -> exists x s', r = Some ([x], s') /\ o_port x <> Z.of_nat (2 * n).
Proof.
  exists 3, 1%nat, 0, 11, 0, 1, ([] ++ [(0, 0%nat, 4)]), 1%nat, 4, (0, 0). split; [lia|]. split; [unfold on_grid; cbn; lia|]. split; [unfold on_grid; cbn; lia|]. split; [cbn; lia|]. split; [exact vni_first|].
  intros r [pick [r1 [g [_ ->]]]]. exists (add_range 0 0 11), (g, 0). split; [destruct g; reflexivity|cbn; lia].
Qed.
Print Assumptions C122_passes_refuted.

(** If the variable holds 0 the packet goes round the ring for ever. *)
Lemma vni_round : forall N, exists l, length l = (3 * N + 1)%nat /\ gone (rf_vni 3 1) 3 1 0 11 0 1 l 1 1 4 (0, 0).
Proof.
  assert (LK : forall u, on_grid 3 1 u -> linked 3 1 u 0 ((u + 1) mod 3) 1).
  { intros u Hu. apply linked_iff; [lia|]. split; auto. split; [lia|]. unfold on_grid in Hu. cbn in Hu. assert (C : u = 0 \/ u = 1 \/ u = 2) by lia. destruct C as [-> | [-> | ->]]; split; reflexivity. }
  induction N as [|N [l [E G]]]; [exists ([] ++ [(0, 0%nat, 4)]); split; [reflexivity|exact vni_first]|].
  exists (((l ++ [(1, 0%nat, 4)]) ++ [(2, 0%nat, 4)]) ++ [(0, 0%nat, 4)]). split; [rewrite !app_length; cbn [length]; lia|].
  apply (gone_hop _ _ _ _ _ _ _ _ 0 1%nat 4 (0, 0) [add_range 0 4 4] (0, 0) (add_range 0 4 4) 0%nat 1 1%nat 4); [|exists 0, true, 0; split; [cbn; lia|reflexivity]|left; reflexivity|reflexivity|cbn; lia|apply (LK 0); unfold on_grid; cbn; lia].
  apply (gone_hop _ _ _ _ _ _ _ _ 2 1%nat 4 (0, 0) [add_range 0 4 4] (0, 0) (add_range 0 4 4) 0%nat 0 1%nat 4); [|exists 0, true, 0; split; [cbn; lia|reflexivity]|left; reflexivity|reflexivity|cbn; lia|apply (LK 2); unfold on_grid; cbn; lia].
  apply (gone_hop _ _ _ _ _ _ _ _ 1 1%nat 4 (0, 0) [add_range 0 0 11] (0, 0) (add_range 0 0 11) 0%nat 2 1%nat 4); [exact G|exists 0, true, 0; split; [cbn; lia|reflexivity]|left; reflexivity|reflexivity|cbn; lia|apply (LK 1); unfold on_grid; cbn; lia].
Qed.
Theorem C122_livelock_refuted : exists k n b e src dest i vc st, 1 <= k /\ on_grid k n src /\ on_grid k n dest /\ src <> dest /\ 4 * k ^ Z.of_nat n <= e - b + 1 /\
  forall N, exists l, (N <= length l)%nat /\ gone (rf_vni k n) k n b e src dest l dest i vc st.
Proof.
  exists 3, 1%nat, 0, 11, 0, 1, 1%nat, 4, (0, 0). split; [lia|]. split; [unfold on_grid; cbn; lia|]. split; [unfold on_grid; cbn; lia|]. split; [lia|]. split; [cbn; lia|]. intros N. destruct (vni_round N) as [l [E G]]. exists l. split; [lia|exact G].
Qed.
Print Assumptions C122_livelock_refuted.

(** The second phase is never stored: after every hop of a packet the flit holds the part of the ring, as long as the variable holds 0 or 1. *)
Theorem C122_phase : forall k n nodes pick r1 g st x es st', ri_inject x = false -> 0 <= g <= 1 -> (ri_in x = (2 * n)%nat \/ 0 <= fst st <= 1) ->
  valiant_ni_torus k n nodes pick r1 g st x = Some (es, st') -> 0 <= fst st' <= 1.
Proof.
  intros k n nodes pick r1 g st x es st' Hi Hg Hs E. unfold valiant_ni_torus in E. destruct (negb (vc_assert _ _ _ _)); [discriminate|]. destruct (ni_share nodes x) as [[b e]|]; [|discriminate]. rewrite Hi in E.
  assert (P : exists intm, (if Nat.eqb (ri_in x) (2 * n) then (0, pick) else (Z.quot (fst st) 2, snd st)) = (0, intm)).
  { destruct (Nat.eqb_spec (ri_in x) (2 * n)); [eexists; reflexivity|]. destruct Hs as [Hs|Hs]; [contradiction|]. exists (snd st). rewrite Z.quot_small by lia. reflexivity. }
  destruct P as [intm P]. rewrite P in E. destruct (if (fst st =? 0) && _ then _ else _) as [ph inp].
  assert (D : 0 <= snd (dor_next_torus k n false r1 false inp g (ri_cur x) (if ph =? 0 then intm else ri_dest x)) <= 1).
  { unfold dor_next_torus. destruct (tor_dim k n 0 _ _) as [[d c] c']. destruct (Nat.ltb d n); [|exact Hg]. destruct (negb (Nat.eqb (Nat.div2 inp) d)); [|exact Hg]. cbn [snd]. match goal with |- context [if ?y then 1 else 0] => destruct y end; lia. }
  destruct (dor_next_torus k n false r1 false inp g (ri_cur x) (if ph =? 0 then intm else ri_dest x)) as [out part]. cbn [snd] in D. cbv zeta in E.
  assert (Q : st' = (2 * 0 + part, intm)). { destruct (negb (ri_cur x =? ri_dest x)); [|congruence]. destruct (_ <=? 0); [discriminate|]. destruct (if part =? 0 then _ else _) as [[b' e']|]; [|discriminate]. destruct (_ <=? 0); [discriminate|]. change (0 =? 0) with true in E. cbv iota in E. congruence. }
  rewrite Q. cbn [fst]. lia.
Qed.
Print Assumptions C122_phase.
Example C122_phase_ex : valiant_ni_torus 3 1 3 0 true 0 (0, 0) (at_router 0 11 0 1 0 1 4) = Some ([add_range 0 4 4], (0, 0)).
Proof. reflexivity. Qed.
