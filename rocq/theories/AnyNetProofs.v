(** Packets in networks described in a file. *)
From Coq Require Import ZArith Arith Bool List Lia Permutation.
From Verif Require Import Fupd AllocModel AllocSpec BufferModel RouteModel ChannelModel IqRouterModel IqRouterSpec IqRouterInv NetModel NetSpec NetMeshModel NetMeshSpec NetMeshProofs NetProgressSpec
  AnyNetModel AnyNetSpec AnyNetRoute AnyNetWires.
Import ListNotations.
Open Scope nat_scope.

Section Any.
Variables (F : anyfile) (b : bcfg) (rd : bool) (cd ob : Z) (T : traffic).
Hypothesis CL : clean F.
Hypothesis SH : short F.
Hypothesis CN : connected F.
Let n := an_size F.
Let w := any_cfg F b rd cd ob.
Let ok := any_ok F T (bc_vcs b).

Lemma node_of : forall m, m < an_nodes F -> exists R, nm_get m (an_node F) = Some R /\ R < n.
Proof. intros m Hm. destruct (node_router F CL m Hm) as [R [E [H _]]]. eauto. Qed.
Lemma reached_lt : forall a d r, reached F a d r -> a < an_nodes F -> r < n.
Proof.
  intros a d r H Ha. induction H as [r E|u p c v H IH E1 E2 E3 E4]; [destruct (node_of a Ha) as [R [E' H]]; congruence|]. destruct (link_at F CL _ _ _ E4) as [_ [X _]]. exact X.
Qed.
(** The head at an input of a router was led there by the tables. *)
Lemma ok_reached : forall r i f, r < n -> i < radix F r -> ok (any_in F r i) f -> reached F (y_src T (f_id f)) (y_dest T (f_id f)) r.
Proof.
  intros r i f Hr Hi [O1 [O2 [O3 [O4 O5]]]]. pose proof (any_in_at F CL r i Hr Hi) as A. apply (at_in F CL) in A. destruct (any_in F r i) as [m|m|c]; [subst m; apply re_start; auto|destruct A|].
  destruct O5 as [u [p [R [E1 [E2 E3]]]]]. destruct A as [A1 A2]. pose proof (any_out_at F CL u p (reached_lt _ _ _ R O1) E2) as B. rewrite E3 in B. apply (at_out F CL) in B. destruct B as [_ B].
  apply (re_hop F _ _ u p c r R E1 E2 E3). rewrite (nth_some _ _ _ (0, 0) A1). destruct (nth c (links F) (0, 0)) as [x y]. cbn in *. congruence.
Qed.
Lemma any_lawful : forall r i f, r < n -> i < radix F r -> ok (any_in F r i) f -> exists p, any_route F T r f = [add_range (Z.of_nat p) (Z.of_nat (y_b T (f_id f))) (Z.of_nat (y_e T (f_id f)))] /\ lawful w ok r f (any_route F T r f).
Proof.
  intros r i f Hr Hi O. pose proof (ok_reached r i f Hr Hi O) as Re. destruct O as [O1 [O2 [O3 [O4 _]]]]. destruct (node_of _ O2) as [R [ER HR]].
  destruct (step_spec F CL SH CN r _ R Hr ER) as [p [Ep [Hp X]]]. exists p. unfold any_route, min_anynet. rewrite Ep. split; auto. split.
  - split.
    + constructor; [|constructor]. cbn [add_range o_port o_lo o_hi]. change (c_outs (w_cfg w r)) with (radix F r). change (c_vcs (w_cfg w r)) with (bc_vcs b). lia.
    + unfold channels_of. cbn [flat_map]. rewrite app_nil_r. unfold elem_pairs. apply FinFun.Injective_map_NoDup; [intros x y E; injection E; auto|]. apply seq_NoDup.
  - intros o v g Hin Sg Ev. unfold channels_of in Hin. cbn [flat_map] in Hin. rewrite app_nil_r in Hin. unfold elem_pairs in Hin. apply in_map_iff in Hin. destruct Hin as [v' [E Hin]].
    cbn [add_range o_port o_lo o_hi] in *. injection E as <- <-. apply in_seq in Hin. rewrite !Nat2Z.id. change (w_out w r p) with (any_out F r p). unfold ok, any_ok. destruct Sg as [-> _]. split; auto. split; auto. split; auto.
    split; [lia|]. destruct X as [[_ ->]|[_ [c [q [x [y [Ec X]]]]]]]; [reflexivity|]. rewrite Ec. exists r, p. auto.
Qed.
Lemma any_decent : forall ts zs t, adecent F T w ts zs t -> ndecent w ok ts zs t.
Proof.
  intros ts zs t [M1 M2 M3 M4 M5]. constructor; auto.
  - intros r i f Hr Hi Hh O. rewrite M3 by auto. destruct (any_lawful r i f Hr Hi O) as [p [_ X]]. exact X.
  - intros m f r i Et Es. assert (Hm : m < w_nodes w) by (apply (wi_inj w (any_wired F CL b rd cd ob) m); congruence). destruct (M4 m f Hm Et) as [A [B [C D]]]. split; auto. split; auto. split; auto.
    intros Hh. destruct (D Hh) as [D1 [D2 [D3 [D4 D5]]]]. change (bc_vcs (w_b w)) with (bc_vcs b) in D4. change (w_nodes w) with (an_nodes F) in Hm, D2. assert (O : ok (Inj m) f).
    { unfold ok, any_ok. rewrite <- D1. split; auto. split; auto. split; [lia|]. split; [lia|auto]. }
    split; auto. intros Hrd. apply (any_snk F CL) in Es. destruct Es as [E1 [E2 E3]]. pose proof (any_in_at F CL r i E1 E2) as Ai. rewrite E3 in Ai. apply (at_in F CL) in Ai.
    rewrite (D5 Hrd r Ai). destruct (any_lawful r i f E1 E2) as [p [_ X]]; [rewrite E3; auto|exact X].
Qed.
Lemma any_decent_from : forall P ts hts hzs (s : net P), adecent_from F T w hts hzs ts s -> ndecent_from w ok hts hzs ts s.
Proof. intros P ts. induction ts as [|t ts IH]; intros hts hzs s M; [exact Logic.I|]. destruct M as [M1 M2]. split; [apply any_decent; auto|]. intros s' z E. apply IH. auto. Qed.
Lemma any_leads : forall t, (forall r i f, f_head f = true -> t_rf t r i f = any_route F T r f) -> leads w ok t.
Proof. intros t H r i f Hr Hi Hh O. rewrite H by auto. destruct (any_lawful r i f Hr Hi O) as [p [-> _]]. discriminate. Qed.
Lemma any_set_out : forall ts zs t, adecent F T w ts zs t -> set_out w t.
Proof.
  intros ts zs t [M1 M2 M3 M4 M5] m f Hm Et Hh Hrd. destruct (M4 m f Hm Et) as [A [B [C D]]]. destruct (D Hh) as [D1 [D2 [D3 [D4 D5]]]]. change (w_nodes w) with (an_nodes F) in Hm, D2. destruct (node_of m Hm) as [R [ER HR]]. rewrite (D5 Hrd R ER).
  destruct (snk_at F CL (Inj m) R HR) as [i Ei]; [apply (at_in F CL); auto|]. apply (any_snk F CL) in Ei. destruct Ei as [E1 [E2 E3]].
  assert (O : ok (any_in F R i) f) by (rewrite E3; unfold ok, any_ok; rewrite <- D1; change (bc_vcs (w_b w)) with (bc_vcs b) in D4; split; auto; split; auto; split; [lia|]; split; [lia|auto]).
  destruct (any_lawful R i f E1 E2 O) as [p [-> _]]. discriminate.
Qed.

(** ** One way *)
Section Way.
Variables (d R : nat).
Hypothesis ER : nm_get d (an_node F) = Some R.
Lemma HRn : R < n.
Proof. apply (cl_node F CL) in ER. unfold locals, sub in ER. destruct (nm_get R (an_local F)) as [l|] eqn:El; [|destruct ER]. assert (I : In R (map fst (an_local F))) by (apply nm_key; eauto). rewrite (cl_local F CL) in I. apply in_seq in I. unfold n. lia. Qed.
Inductive way : nat -> list cid -> Prop :=
| way_here : forall r p, r < n -> table F r d = Some p -> p < radix F r -> any_out F r p = Ej d -> way r [Ej d]
| way_hop : forall r p c q l, r < n -> table F r d = Some p -> p < radix F r -> any_out F r p = Ch c -> nth_error (links F) c = Some (r, q) -> way q l -> way r (Ch c :: l).
Lemma way_some : forall k r z, r < n -> least F r R z -> (z < Z.of_nat k)%Z -> exists l, way r l.
Proof.
  intros k. induction k as [|k IH]; intros r z Hr Lz Hk; [destruct Lz as [Rz _]; apply (road_ends F CL) in Rz; lia|].
  destruct (step_spec F CL SH CN r d R Hr ER) as [p [E [Hp [[-> X]|[Ns [c [q [x [y [A1 [A2 [A3 [A4 [A5 A6]]]]]]]]]]]]]]; [eexists; eapply way_here; eauto|].
  destruct (hop_less F CL SH CN r d R c q p z Hr ER E A1 A2 Lz) as [x' [Ex' Lq]]. pose proof (cl_pos F CL _ _ _ Ex'). destruct (IH q (z - x')%Z) as [l Hl]; auto; [apply (lat_lt F CL _ _ _ A3)|lia|]. eexists. eapply way_hop; eauto.
Qed.
Lemma src_out : forall r p c u o, r < n -> p < radix F r -> any_out F r p = c -> w_src w c = Some (u, o) -> u = r /\ o = p.
Proof. intros r p c u o Hr Hp E Es. assert (X : w_src w c = Some (r, p)) by (apply (any_src F CL); auto). rewrite X in Es. injection Es as <- <-. auto. Qed.
Lemma snk_link : forall c r q, nth_error (links F) c = Some (r, q) -> exists i, w_snk w (Ch c) = Some (q, i).
Proof.
  intros c r q E. destruct (link_at F CL _ _ _ E) as [_ [Hq [_ [X _]]]]. apply (snk_at F CL); auto. apply (at_in F CL). apply ins_in in X. exact X.
Qed.
Lemma least_zero : forall r z, least F r R z -> (0 <= z)%Z.
Proof. intros r z [X _]. apply (road_ends F CL) in X. tauto. Qed.
Lemma least_one : forall r z z', least F r R z -> least F r R z' -> z = z'.
Proof. intros r z z' [A1 A2] [B1 B2]. apply Z.le_antisymm; auto. Qed.
(** The routers on the way come nearer to the end. *)
Lemma way_src : forall r l, way r l -> forall z, least F r R z -> forall c u o, In c l -> w_src w c = Some (u, o) -> (c = hd (Ej d) l /\ u = r) \/ (exists z', least F u R z' /\ (z' < z)%Z).
Proof.
  intros r l H. induction H as [r p Hr E1 E2 E3|r p c q l Hr E1 E2 E3 E4 H IH]; intros z Lz c' u o Hc Es.
  - destruct Hc as [<-|[]]. left. split; auto. apply (src_out r p _ u o Hr E2 E3 Es).
  - destruct Hc as [<-|Hc]; [left; split; auto; apply (src_out r p _ u o Hr E2 E3 Es)|]. right. destruct (hop_less F CL SH CN r d R c q p z Hr ER E1 E3 E4 Lz) as [x [Ex Lq]]. pose proof (cl_pos F CL _ _ _ Ex).
    destruct (IH _ Lq c' u o Hc Es) as [[_ ->]|[z' [L' Z']]]; [exists (z - x)%Z; split; auto; lia|exists z'; split; auto; lia].
Qed.
Lemma way_snk : forall r l, way r l -> forall z, least F r R z -> forall c u i, In c l -> w_snk w c = Some (u, i) -> exists z', least F u R z' /\ (z' < z)%Z.
Proof.
  intros r l H. induction H as [r p Hr E1 E2 E3|r p c q l Hr E1 E2 E3 E4 H IH]; intros z Lz c' u i Hc Es.
  - destruct Hc as [<-|[]]. rewrite (proj1 (wi_ej w (any_wired F CL b rd cd ob) d)) in Es. discriminate.
  - destruct (hop_less F CL SH CN r d R c q p z Hr ER E1 E3 E4 Lz) as [x [Ex Lq]]. pose proof (cl_pos F CL _ _ _ Ex). destruct Hc as [<-|Hc].
    + destruct (snk_link _ _ _ E4) as [j Ej]. rewrite Ej in Es. injection Es as <- <-. exists (z - x)%Z. split; auto. lia.
    + destruct (IH _ Lq c' u i Hc Es) as [z' [L' Z']]. exists z'. split; auto. lia.
Qed.
Lemma way_out_one : forall r l, way r l -> forall z, least F r R z -> forall a c u i j, In a l -> In c l -> w_src w a = Some (u, i) -> w_src w c = Some (u, j) -> a = c.
Proof.
  intros r l H. induction H as [r p Hr E1 E2 E3|r p k q l Hr E1 E2 E3 E4 H IH]; intros z Lz a c u i j Ha Hc Ea Ec.
  - destruct Ha as [<-|[]], Hc as [<-|[]]. auto.
  - destruct (hop_less F CL SH CN r d R k q p z Hr ER E1 E3 E4 Lz) as [x [Ex Lq]]. pose proof (cl_pos F CL _ _ _ Ex).
    assert (FAR : forall c' j', In c' l -> w_src w c' = Some (r, j') -> False).
    { intros c' j' Hc' Es. destruct (way_src q l H _ Lq c' r j' Hc' Es) as [[_ <-]|[z' [L' Z']]]; [pose proof (least_one _ _ _ Lz Lq); lia|pose proof (least_one _ _ _ Lz L'); lia]. }
    destruct Ha as [<-|Ha], Hc as [<-|Hc]; auto.
    + exfalso. destruct (src_out r p _ u i Hr E2 E3 Ea) as [-> _]. eapply FAR; eauto.
    + exfalso. destruct (src_out r p _ u j Hr E2 E3 Ec) as [-> _]. eapply FAR; eauto.
    + eapply IH; eauto.
Qed.
Lemma way_in_one : forall r l, way r l -> forall z, least F r R z -> forall a c u i j, In a l -> In c l -> w_snk w a = Some (u, i) -> w_snk w c = Some (u, j) -> a = c.
Proof.
  intros r l H. induction H as [r p Hr E1 E2 E3|r p k q l Hr E1 E2 E3 E4 H IH]; intros z Lz a c u i j Ha Hc Ea Ec.
  - destruct Ha as [<-|[]], Hc as [<-|[]]. auto.
  - destruct (hop_less F CL SH CN r d R k q p z Hr ER E1 E3 E4 Lz) as [x [Ex Lq]]. destruct (snk_link _ _ _ E4) as [i0 Ei0].
    assert (FAR : forall c' j', In c' l -> w_snk w c' = Some (q, j') -> False).
    { intros c' j' Hc' Es. destruct (way_snk q l H _ Lq c' q j' Hc' Es) as [z' [L' Z']]. pose proof (least_one _ _ _ Lq L'). lia. }
    destruct Ha as [<-|Ha], Hc as [<-|Hc]; auto.
    + exfalso. rewrite Ei0 in Ea. injection Ea as <- <-. eapply FAR; eauto.
    + exfalso. rewrite Ei0 in Ec. injection Ec as <- <-. eapply FAR; eauto.
    + eapply IH; eauto.
Qed.
Lemma way_next : forall r l, way r l -> forall l1 a c l2, l = l1 ++ a :: c :: l2 -> exists u i o, w_snk w a = Some (u, i) /\ w_src w c = Some (u, o).
Proof.
  intros r l H. induction H as [r p Hr E1 E2 E3|r p k q l Hr E1 E2 E3 E4 H IH]; intros l1 a c l2 E; [destruct l1 as [|? [|? ?]]; discriminate|].
  destruct l1 as [|x l1]; [|injection E as _ E; eapply IH; eauto]. injection E as <- ->. destruct (snk_link _ _ _ E4) as [i Ei]. exists q, i. inversion H; subst.
  - exists p0. split; auto. apply (any_src F CL). auto.
  - exists p0. split; auto. apply (any_src F CL). auto.
Qed.
Lemma way_last : forall r l, way r l -> exists l', l = l' ++ [Ej d].
Proof. intros r l H. induction H as [r p Hr E1 E2 E3|r p k q l Hr E1 E2 E3 E4 H IH]; [exists []; auto|]. destruct IH as [l' ->]. exists (Ch k :: l'). auto. Qed.
Lemma way_reached : forall a r0 l, nm_get a (an_node F) = Some r0 -> way r0 l -> forall u, reached F a d u -> exists l1 l2, l = l1 ++ l2 /\ way u l2.
Proof.
  intros a r0 l E0 H u Re. induction Re as [r E|u p c v Re IH E1 E2 E3 E4]; [assert (r = r0) as -> by congruence; exists [], l; auto|].
  destruct IH as [l1 [l2 [-> H2]]]. inversion H2 as [r' p' Hr' A1 A2 A3|r' p' c' q' l' Hr' A1 A2 A3 A4 A5]; subst; rewrite A1 in E1; injection E1 as ->; [congruence|]. rewrite E3 in A3. injection A3 as <-. rewrite E4 in A4. injection A4 as <-.
  exists (l1 ++ [Ch c]), l'. rewrite <- app_assoc. auto.
Qed.
End Way.

Lemma any_one_way : forall flow q m d v, (forall id, flow id = q -> y_src T id = m /\ y_dest T id = d /\ y_b T id = v /\ y_e T id = v) -> m < an_nodes F -> d < an_nodes F -> exists p, one_way w ok flow q m d p.
Proof.
  intros flow q m d v FL Hm Hd. destruct (node_of m Hm) as [r0 [E0 H0]]. destruct (node_of d Hd) as [R [ER HR]]. destruct (least_some F CL SH CN r0 R H0 HR) as [z Lz].
  destruct (way_some d R ER (S (Z.to_nat z)) r0 z H0 Lz) as [l Wl]; [pose proof (least_zero R r0 z Lz); lia|].
  destruct (snk_at F CL (Inj m) r0 H0) as [i0 Ei0]; [apply (at_in F CL); auto|].
  assert (INr : forall u i, w_snk w (Inj m) = Some (u, i) -> u = r0) by (intros u i E; change (w_snk w (Inj m)) with (any_port F (any_in F) (Inj m)) in E; congruence).
  exists (map (fun c => (c, v)) (Inj m :: l)). constructor.
  - exists v, (map (fun c => (c, v)) l). reflexivity.
  - destruct (way_last d r0 l Wl) as [l' ->]. exists v, (map (fun c => (c, v)) (Inj m :: l')). cbn [map]. rewrite map_app. reflexivity.
  - intros p1 a c p2 E. cbn [map] in E. destruct p1 as [|x p1].
    + injection E as <- E. cbn [fst]. destruct l as [|c' l]; [discriminate|]. injection E as <- _. cbn [fst]. exists r0, i0. inversion Wl; subst.
      * exists p. split; auto. apply (any_src F CL). auto.
      * exists p. split; auto. apply (any_src F CL). auto.
    + injection E as _ E. assert (EM : exists l1 a' c' l2, l = l1 ++ a' :: c' :: l2 /\ fst a = a' /\ fst c = c').
      { clear - E. revert l E. induction p1 as [|y p1 IH]; intros l E.
        - destruct l as [|a' [|c' l]]; try discriminate. injection E as <- <- _. exists [], a', c', l. auto.
        - destruct l as [|y' l]; [discriminate|]. injection E as _ E. destruct (IH l E) as [l1 [a' [c' [l2 [-> X]]]]]. exists (y' :: l1), a', c', l2. auto. }
      destruct EM as [l1 [a' [c' [l2 [-> [-> ->]]]]]]. eapply (way_next d); eauto.
  - intros a c r i j Ha Hc Ea Ec. apply in_map_iff in Ha, Hc. destruct Ha as [a' [<- Ha]], Hc as [c' [<- Hc]]. cbn [fst] in *. f_equal.
    assert (FAR : forall x j', In x l -> w_snk w x = Some (r0, j') -> False).
    { intros x j' Hx Es. destruct (way_snk d R ER r0 l Wl z Lz x r0 j' Hx Es) as [z' [L' Z']]. pose proof (least_one R r0 _ _ Lz L'). lia. }
    destruct Ha as [<-|Ha], Hc as [<-|Hc]; auto.
    + exfalso. pose proof (INr _ _ Ea) as ->. eapply FAR; eauto.
    + exfalso. pose proof (INr _ _ Ec) as ->. eapply FAR; eauto.
    + eapply (way_in_one d R ER); eauto.
  - intros a c r i j Ha Hc Ea Ec. apply in_map_iff in Ha, Hc. destruct Ha as [a' [<- Ha]], Hc as [c' [<- Hc]]. cbn [fst] in *. f_equal.
    assert (NO : w_src w (Inj m) = None) by apply (wi_inj w (any_wired F CL b rd cd ob) m).
    destruct Ha as [<-|Ha]; [congruence|]. destruct Hc as [<-|Hc]; [congruence|]. eapply (way_out_one d R ER); eauto.
  - intros c g Hh Hf [O1 [O2 [O3 [O4 O5]]]]. destruct (FL _ Hf) as [F1 [F2 [F3 F4]]]. assert (Ev : f_vc g = v) by lia. rewrite Ev. apply (in_map (fun c => (c, v))). destruct c as [x|x|c].
    + left. congruence.
    + right. destruct (way_last d r0 l Wl) as [l' ->]. apply in_app_iff. right. left. congruence.
    + right. rewrite F1, F2 in O5. destruct O5 as [u [p [Re [E1 [E2 E3]]]]]. destruct (way_reached d m r0 l E0 Wl u Re) as [l1 [l2 [-> W2]]]. apply in_app_iff. right.
      inversion W2 as [r' p' Hr' A1 A2 A3|r' p' c' q' l' Hr' A1 A2 A3 A4 A5]; subst; rewrite A1 in E1; injection E1 as ->; [congruence|]. rewrite E3 in A3. injection A3 as <-. left. auto.
Qed.
End Any.
