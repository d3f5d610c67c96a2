From Coq Require Import ZArith Bool List Lia Arith Relations.
From Verif Require Import RouteModel RouteSpec RouteProofs RouteMeshProofs.
Import ListNotations.
Open Scope Z_scope.

(** ** Delivery when the flit carries a state with an invariant *)
Definition guides {St} (rf : rfun St) (k : Z) (n : nat) (b e : Z) (dist : Z -> Z -> Z) (box : Z -> Z -> Z -> Prop) (lk : Z -> Z -> Prop)
    (J : Z -> Z -> Z -> nat -> St -> Prop) : Prop :=
  (forall src dest s, on_grid k n src -> on_grid k n dest -> box src dest src /\ J src dest src (2 * n)%nat s) /\
  forall src dest u i vc s, on_grid k n src -> on_grid k n dest -> on_grid k n u -> b <= vc <= e -> box src dest u -> J src dest u i s ->
    (exists r, rf s (at_router b e src dest u i vc) r) /\
    forall r, rf s (at_router b e src dest u i vc) r ->
      exists es s', r = Some (es, s') /\ es <> [] /\
        forall x, In x es -> b <= o_lo x <= o_hi x /\ o_hi x <= e /\
          if u =? dest then o_port x = Z.of_nat (2 * n)
          else exists p, o_port x = Z.of_nat p /\ (p < 2 * n)%nat /\
               forall v j, linked k n u p v j -> lk u v /\ dist v dest = dist u dest - 1 /\ box src dest v /\ J src dest v j s'.

Lemma guides_gone : forall St (rf : rfun St) k n b e dist box lk J src dest l u i vc s, 1 <= k -> guides rf k n b e dist box lk J ->
  on_grid k n src -> on_grid k n dest -> gone rf k n b e src dest l u i vc s ->
  on_grid k n u /\ b <= vc <= e /\ box src dest u /\ Z.of_nat (length l) + dist u dest = dist src dest /\ J src dest u i s.
Proof.
  intros St rf k n b e dist box lk J src dest l u i vc s Hk [S0 S] Hs Hd G. induction G as [vc s V|l u i vc s es s' x p v j vc' G IH R X P V L].
  - destruct (S0 src dest s Hs Hd) as [B0 J0]. split; auto.
  - destruct IH as [I1 [I2 [I3 [I4 I5]]]]. destruct (S src dest u i vc s Hs Hd I1 I2 I3 I5) as [_ S2]. destruct (S2 _ R) as [es1 [s1 [E [_ S3]]]].
    injection E as <- <-. specialize (S3 x X). destruct S3 as [S3 [S4 S5]].
    destruct (Z.eqb_spec u dest) as [->|N].
    + rewrite S5 in P. apply Nat2Z.inj in P. apply linked_iff in L; auto. lia.
    + destruct S5 as [p' [P' [PL PR]]]. assert (p' = p) by lia. subst p'. destruct (PR v j L) as [D1 [D2 [D3 D4]]].
      split; [destruct L as [_ [L _]]; exact L|]. split; [lia|]. split; auto. split; auto.
      rewrite app_length. cbn [length]. lia.
Qed.

Lemma guides_delivers : forall St (rf : rfun St) k n b e dist box lk J, 1 <= k -> guides rf k n b e dist box lk J -> delivers rf k n b e dist box lk.
Proof.
  intros St rf k n b e dist box lk J Hk S src dest l u i vc s Hs Hd G.
  destruct (guides_gone _ rf k n b e dist box lk J src dest l u i vc s Hk S Hs Hd G) as [I1 [I2 [I3 [I4 I5]]]].
  destruct S as [_ S]. destruct (S src dest u i vc s Hs Hd I1 I2 I3 I5) as [S1 S2].
  split; auto. split; auto. split; auto. split; auto. split; auto.
  intros r R. destruct (S2 r R) as [es [s' [E [NE F]]]]. exists es, s'. split; auto. split; auto.
  intros x X. destruct (F x X) as [F1 [F2 F3]]. split; auto. split; auto. destruct (u =? dest); auto.
  destruct F3 as [p [P [PL PR]]].
  destruct (proj1 (wiring k n Hk) u p I1 PL) as [v [j L]]. exists p, v, j. split; auto. split; auto. apply PR with j; auto.
Qed.

Lemma linked_in : forall k n u p v j, 1 <= k -> linked k n u p v j -> (j < 2 * n)%nat.
Proof. intros k n u p v j Hk L. apply linked_iff in L; auto. destruct L as [_ [L [_ ->]]]. apply mate_lt; auto. Qed.

(** ** The intermediate node of ROMM *)
Lemma rand_min_ok : forall k rnd m dim o src dest, 1 <= k -> (forall i d, 0 <= d -> 0 <= rnd i d <= d) ->
  exists y, rand_min_intr k m dim rnd o src dest = o * y /\ on_grid k m y /\ in_box k m src dest y.
Proof.
  intros k rnd m; induction m as [|m IH]; intros dim o src dest Hk HR; cbn [rand_min_intr].
  - exists 0. split; [ring|]. split; [unfold on_grid; cbn; lia|]. intros i Hi; lia.
  - destruct (IH (S dim) (o * k) (src / k) (dest / k) Hk HR) as [y [Y1 [Y2 Y3]]]. rewrite Y1.
    set (g := if 0 <? dest mod k - src mod k then src mod k + rnd dim (dest mod k - src mod k) else dest mod k + rnd dim (- (dest mod k - src mod k))).
    pose proof (Z.mod_pos_bound src k ltac:(lia)) as Bs. pose proof (Z.mod_pos_bound dest k ltac:(lia)) as Bd.
    assert (GB : Z.min (src mod k) (dest mod k) <= g <= Z.max (src mod k) (dest mod k)).
    { unfold g. destruct (Z.ltb_spec 0 (dest mod k - src mod k)) as [L|L].
      - pose proof (HR dim (dest mod k - src mod k) ltac:(lia)). lia.
      - pose proof (HR dim (- (dest mod k - src mod k)) ltac:(lia)). lia. }
    exists (g + k * y). split; [ring|].
    assert (Q : (g + k * y) / k = y) by (symmetry; apply Z.div_unique with (r := g); lia).
    assert (R : (g + k * y) mod k = g) by (symmetry; apply Z.mod_unique with (q := y); lia).
    split.
    + apply on_grid_S; auto. rewrite Q. split; auto. destruct Y2. nia.
    + intros i Hi. destruct i as [|i].
      * rewrite !digit_0, R. exact GB.
      * rewrite !digit_S, Q by auto. apply Y3. lia.
Qed.

Lemma rand_min_box : forall k n rnd src dest, 1 <= k -> (forall i d, 0 <= d -> 0 <= rnd i d <= d) ->
  on_grid k n (rand_min_intr k n 0 rnd 1 src dest) /\ in_box k n src dest (rand_min_intr k n 0 rnd 1 src dest).
Proof.
  intros k n rnd src dest Hk HR. destruct (rand_min_ok k rnd n 0 1 src dest Hk HR) as [y [-> [Y2 Y3]]]. rewrite Z.mul_1_l. auto.
Qed.

(** ** The two phases *)
Lemma two_case : forall k n b e pick ph intm src dest u i vc, b <= vc <= e -> 2 <= e - b + 1 ->
  let nodes := k ^ Z.of_nat n in
  let intm0 := if Nat.eqb i (2 * n) then pick else intm in
  let ph0 := if Nat.eqb i (2 * n) then 0 else ph in
  ph0 = 0 \/ ph0 = 1 ->
  let ph1 := if (ph0 =? 0) && (u =? intm0) then 1 else ph0 in
  let v := (e - b + 1) / 2 in
  let t := if ph1 =? 0 then intm0 else dest in
  (ph1 = 0 \/ ph1 = 1) /\
  two_phase_mesh k n nodes pick ph intm (at_router b e src dest u i vc) =
    Some ([add_range (Z.of_nat (dor_next_mesh k n nodes false u t)) (if u =? dest then b else if ph1 =? 0 then b else b + v)
             (if u =? dest then e else if ph1 =? 0 then e - v else e)], ph1, intm0).
Proof.
  intros k n b e pick ph intm src dest u i vc V W nodes intm0 ph0 H ph1 v t. unfold two_phase_mesh, at_router.
  cbn [ri_cur ri_in ri_src ri_dest ri_vc ri_b ri_e ri_inject]. rewrite vc_ok by auto. cbn [negb].
  replace (if Nat.eqb i (2 * n) then (0, pick) else (ph, intm)) with (ph0, intm0) by (unfold ph0, intm0; destruct (Nat.eqb i (2 * n)); reflexivity).
  assert (P1 : ph1 = 0 \/ ph1 = 1) by (unfold ph1; destruct ((ph0 =? 0) && (u =? intm0)); auto).
  split; auto. fold ph1. fold t. destruct (div_room (e - b + 1) 2 ltac:(lia) W) as [D1 D2]. fold v. fold v in D1.
  destruct (u =? dest); [reflexivity|]. replace (v <=? 0) with false by lia.
  destruct P1 as [->| ->]; reflexivity.
Qed.

Definition romm_J (k : Z) (n : nat) (src dest u : Z) (i : nat) (s : Z * Z) : Prop :=
  i = (2 * n)%nat /\ u = src \/
  (i < 2 * n)%nat /\ (fst s = 0 /\ on_grid k n (snd s) /\ in_box k n src dest (snd s) /\ in_box k n src (snd s) u \/ fst s = 1).

(** A port towards a node between here and the destination is a port towards the destination. *)
Lemma productive_box : forall k n u t dest p, productive k n u t p -> in_box k n u dest t -> productive k n u dest p.
Proof.
  intros k n u t dest p [d [D1 D2]] B. exists d. split; auto. specialize (B d D1). destruct D2 as [[-> D2]|[-> D2]]; [left|right]; split; auto; lia.
Qed.

Lemma box_chain : forall k n src t dest u, in_box k n src dest t -> in_box k n src t u -> in_box k n u dest t.
Proof. intros k n src t dest u H1 H2 i Hi. specialize (H1 i Hi). specialize (H2 i Hi). lia. Qed.

Lemma romm_guides : forall k n b e, 1 <= k -> 2 <= e - b + 1 ->
  guides (rf_romm k n) k n b e (mesh_dist k n) (in_box k n) (mesh_link k n) (romm_J k n).
Proof.
  intros k n b e Hk W. split.
  - intros src dest s Hs Hd. split; [apply in_box_refl|left; auto].
  - intros src dest u i vc [ph intm] Hs Hd Hu V BX J. split.
    { exists (romm_mesh k n (k ^ Z.of_nat n) (fun _ _ => 0) (ph, intm) (at_router b e src dest u i vc)). exists (fun _ _ => 0). split; [intros; lia|reflexivity]. }
    intros r [rnd [HR ->]]. unfold romm_mesh. cbn [fst snd].
    change (ri_src (at_router b e src dest u i vc)) with src. change (ri_dest (at_router b e src dest u i vc)) with dest.
    destruct (rand_min_box k n rnd src dest Hk HR) as [PG PB]. set (pick := rand_min_intr k n 0 rnd 1 src dest) in *.
    assert (H0 : (if Nat.eqb i (2 * n) then 0 else ph) = 0 \/ (if Nat.eqb i (2 * n) then 0 else ph) = 1).
    { destruct J as [[-> _]|[J1 J2]]; [rewrite Nat.eqb_refl; auto|]. replace (Nat.eqb i (2 * n)) with false by (symmetry; apply Nat.eqb_neq; lia). cbn [fst] in J2. tauto. }
    destruct (two_case k n b e pick ph intm src dest u i vc V W H0) as [P1 E].
    rewrite E. clear E. set (intm0 := if Nat.eqb i (2 * n) then pick else intm) in *. set (ph0 := if Nat.eqb i (2 * n) then 0 else ph) in *.
    set (ph1 := if (ph0 =? 0) && (u =? intm0) then 1 else ph0) in *.
    assert (J0 : ph0 = 0 -> on_grid k n intm0 /\ in_box k n src dest intm0 /\ in_box k n src intm0 u).
    { unfold ph0, intm0. destruct J as [[-> ->]|[J1 J2]].
      - rewrite Nat.eqb_refl. intros _. split; auto. split; auto. apply in_box_refl.
      - replace (Nat.eqb i (2 * n)) with false by (symmetry; apply Nat.eqb_neq; lia). cbn [fst snd] in J2. intros ->. destruct J2 as [J2|J2]; [tauto|lia]. }
    do 2 eexists. split; [reflexivity|]. split; [discriminate|]. intros x [<-|[]]. cbn [o_lo o_hi o_port add_range].
    destruct (div_room (e - b + 1) 2 ltac:(lia) W) as [D1 D2].
    split; [destruct (u =? dest), (ph1 =? 0); lia|]. split; [destruct (u =? dest), (ph1 =? 0); lia|].
    assert (Q : ph1 = 0 -> u <> intm0 /\ ph0 = 0).
    { unfold ph1. destruct (Z.eqb_spec ph0 0); destruct (Z.eqb_spec u intm0); cbn [andb]; auto; lia. }
    assert (PR : u <> dest -> productive k n u dest (dor_next_mesh k n (k ^ Z.of_nat n) false u (if ph1 =? 0 then intm0 else dest))).
    { intros N. destruct P1 as [P1|P1]; rewrite P1; cbn [Z.eqb].
      - destruct (Q P1) as [Q1 Q2]. destruct (J0 Q2) as [J3 [J4 J5]].
        apply productive_box with intm0; [apply dor_productive; auto|]. eapply box_chain; eauto.
      - apply dor_productive; auto. }
    destruct (Z.eqb_spec u dest) as [Eu|Nu].
    + assert (ph1 <> 0).
      { intros P0. destruct (Q P0) as [Q1 Q2]. destruct (J0 Q2) as [J3 [J4 J5]]. apply Q1. rewrite Eu in *.
        apply (digits_ext k n); auto. intros i0 Hi0. specialize (J4 i0 Hi0). specialize (J5 i0 Hi0). lia. }
      replace (ph1 =? 0) with false by lia. subst u. rewrite dor_next_dest. reflexivity.
    + eexists. split; [reflexivity|]. split; [eapply productive_lt; apply PR; auto|]. intros v j L.
      destruct (productive_hop k n u dest _ v j Hk (PR Nu) L) as [L1 [L2 L3]]. split; auto. split; auto. split; [apply in_box_trans with u; auto|].
      right. split; [exact (linked_in k n u _ v j Hk L)|]. cbn [fst snd]. destruct P1 as [P1|P1]; [left|right; auto]. split; auto.
      destruct (Q P1) as [Q1 Q2]. destruct (J0 Q2) as [J3 [J4 J5]]. split; auto. split; auto.
      rewrite P1 in L. cbn [Z.eqb] in L. destruct (productive_hop k n u intm0 _ v j Hk (dor_productive k n false u intm0 Hk Hu J3 Q1) L) as [_ [_ L6]].
      apply in_box_trans with u; auto.
Qed.

(** Which channels a packet of the two-phase functions has crossed. *)
Lemma romm_inv : forall k n b e src dest l u i vc s, 1 <= k -> 2 <= e - b + 1 -> on_grid k n src -> on_grid k n dest ->
  gone (rf_romm k n) k n b e src dest l u i vc s -> (i < 2 * n)%nat ->
  let h := b + (e - b + 1) / 2 in let m := e - (e - b + 1) / 2 in
  (fst s = 0 -> forall c, In c l -> snd c <= m /\
     (u <> snd s -> drank k false n (fst (fst c)) (snd (fst c)) < drank k false n u (dor_next_mesh k n (k ^ Z.of_nat n) false u (snd s)))) /\
  (fst s = 1 -> forall c, In c l -> snd c <= m \/
     (h <= snd c /\ (u <> dest -> drank k false n (fst (fst c)) (snd (fst c)) < drank k false n u (dor_next_mesh k n (k ^ Z.of_nat n) false u dest)))).
Proof.
  intros k n b e src dest l u i vc s Hk W Hs Hd G. pose proof (div_room (e - b + 1) 2 ltac:(lia) W) as DR.
  induction G as [|l u i vc s es s' x p v j vc' G IH R X P V L]; intros I h m; [lia|].
  destruct (guides_gone _ _ k n b e _ _ _ _ _ _ _ _ _ _ _ Hk (romm_guides k n b e Hk W) Hs Hd G) as [I1 [I2 [I3 [I4 J]]]].
  assert (Nu : u <> dest).
  { intros ->. destruct (romm_guides k n b e Hk W) as [_ S]. destruct (S src dest dest i vc s Hs Hd I1 I2 I3 J) as [_ S2].
    destruct (S2 _ R) as [es1 [s1 [E [NE F]]]]. injection E as <- <-.
    destruct (F x X) as [_ [_ F3]]. rewrite Z.eqb_refl in F3. apply linked_iff in L; auto. destruct L as [_ [L _]]. lia. }
  destruct R as [rnd [HR R]]. destruct s as [ph intm]. unfold romm_mesh in R. cbn [fst snd] in *.
  change (ri_src (at_router b e src dest u i vc)) with src in R. change (ri_dest (at_router b e src dest u i vc)) with dest in R.
  destruct (rand_min_box k n rnd src dest Hk HR) as [PG PB]. set (pick := rand_min_intr k n 0 rnd 1 src dest) in *.
  assert (H0 : (if Nat.eqb i (2 * n) then 0 else ph) = 0 \/ (if Nat.eqb i (2 * n) then 0 else ph) = 1).
  { destruct J as [[-> _]|[J1 J2]]; [rewrite Nat.eqb_refl; auto|]. replace (Nat.eqb i (2 * n)) with false by (symmetry; apply Nat.eqb_neq; lia). cbn [fst] in J2. tauto. }
  destruct (two_case k n b e pick ph intm src dest u i vc I2 W H0) as [P1 E]. rewrite E in R. clear E. fold h in R. fold m in R.
  remember (if Nat.eqb i (2 * n) then pick else intm) as intm0 eqn:EI. remember (if Nat.eqb i (2 * n) then 0 else ph) as ph0 eqn:EP.
  remember (if (ph0 =? 0) && (u =? intm0) then 1 else ph0) as ph1 eqn:E1.
  injection R as -> ->. cbn [fst snd]. destruct X as [X|[]]. rewrite (proj2 (Z.eqb_neq u dest) Nu) in X.
  pose proof (gone_in _ _ _ _ _ _ _ _ _ _ _ _ _ Hk G) as GI.
  destruct GI as [[GI _]|[GI [-> GU]]].
  - (* on the way *)
    assert (NI : Nat.eqb i (2 * n) = false) by (apply Nat.eqb_neq; lia). rewrite NI in EI, EP. subst ph1 intm0 ph0.
    specialize (IH GI). cbn zeta in IH. fold h m in IH. destruct IH as [IH0 IH1].
    destruct J as [[J1 _]|[_ J]]; [lia|]. cbn [fst snd] in J.
    destruct J as [[-> [J3 [J4 J5]]]| ->].
    + cbn [Z.eqb andb] in *. specialize (IH0 eq_refl). destruct (Z.eqb_spec u intm) as [Ei|Ni]; cbn [Z.eqb] in X; subst x; cbn [o_port o_lo o_hi add_range] in P, V; apply Nat2Z.inj in P; subst p.
      * split; [intros HH; cbn in HH; lia|]. intros _ c Hc. apply in_app_or in Hc. destruct Hc as [Hc|[<-|[]]].
        -- destruct (IH0 c Hc). auto.
        -- cbn [fst snd]. right. split; [unfold h; lia|]. intros Nv. apply drank_step with (q := j); auto.
      * split; [|intros HH; cbn in HH; lia]. intros _ c Hc. apply in_app_or in Hc. destruct Hc as [Hc|[<-|[]]].
        -- destruct (IH0 c Hc) as [A B]. split; auto. intros Nv. specialize (B Ni). pose proof (drank_step k n false u intm v j Hk J3 Ni L Nv). lia.
        -- cbn [fst snd]. split; [unfold m; lia|]. intros Nv. apply drank_step with (q := j); auto.
    + cbn [Z.eqb andb] in *. specialize (IH1 eq_refl). subst x; cbn [o_port o_lo o_hi add_range] in P, V; apply Nat2Z.inj in P; subst p.
      split; [intros HH; cbn in HH; lia|]. intros _ c Hc. apply in_app_or in Hc. destruct Hc as [Hc|[<-|[]]].
      * destruct (IH1 c Hc) as [A|[A B]]; [auto|]. right. split; auto. intros Nv. specialize (B Nu). pose proof (drank_step k n false u dest v j Hk Hd Nu L Nv). lia.
      * cbn [fst snd]. right. split; [unfold h; lia|]. intros Nv. apply drank_step with (q := j); auto.
  - (* the first hop *)
    subst i. rewrite Nat.eqb_refl in EI, EP. subst ph1 intm0 ph0. cbn [Z.eqb andb] in *.
    destruct (Z.eqb_spec u pick) as [Ei|Ni]; cbn [Z.eqb] in X; subst x; cbn [o_port o_lo o_hi add_range] in P, V; apply Nat2Z.inj in P; subst p.
    + split; [intros HH; cbn in HH; lia|]. intros _ c [<-|[]]. cbn [fst snd]. right. split; [unfold h; lia|]. intros Nv. apply drank_step with (q := j); auto.
    + split; [|intros HH; cbn in HH; lia]. intros _ c [<-|[]]. cbn [fst snd]. split; [unfold m; lia|]. intros Nv. apply drank_step with (q := j); auto.
Qed.

Lemma romm_no_deadlock : forall k n b e D, 1 <= k -> 2 <= e - b + 1 -> ~ deadlock (rf_romm k n) k n b e D.
Proof.
  intros k n b e D Hk W. revert D. pose proof (div_room (e - b + 1) 2 ltac:(lia) W) as DR.
  set (h := b + (e - b + 1) / 2). set (m := e - (e - b + 1) / 2).
  apply no_deadlock with (good := fun c => (snd c <? h) || (m <? snd c))
    (rank := fun c => if snd c <? h then drank k false n (fst (fst c)) (snd (fst c)) else k * Z.of_nat n + drank k false n (fst (fst c)) (snd (fst c))).
  intros src dest l u i vc s es s' Hs Hd G R.
  destruct (guides_gone _ _ k n b e _ _ _ _ _ _ _ _ _ _ _ Hk (romm_guides k n b e Hk W) Hs Hd G) as [I1 [I2 [I3 [I4 J]]]].
  destruct (Z.eqb_spec u dest) as [Eu|Nu].
  { destruct (romm_guides k n b e Hk W) as [_ S]. destruct (S src dest u i vc s Hs Hd I1 I2 I3 J) as [_ S2].
    destruct (S2 _ R) as [es1 [s1 [E [NE F]]]]. injection E as <- <-.
    destruct es as [|x es]; [congruence|]. destruct (F x (or_introl eq_refl)) as [F1 [F2 F3]]. rewrite Eu, Z.eqb_refl in F3.
    exists (u, (2 * n)%nat, o_lo x). split; [|left; reflexivity]. exists x, (2 * n)%nat, (o_lo x). repeat split; auto; try lia. left; auto. }
  pose proof (gone_in _ _ _ _ _ _ _ _ _ _ _ _ _ Hk G) as GI.
  assert (PB0 : forall c, In c l -> (snd (fst c) < 2 * n)%nat).
  { clear - G Hk. induction G as [|l u i vc s es0 s0 y p v j vc' G IH R X P V L]; intros c Hc; [contradiction|]. apply in_app_or in Hc.
    destruct Hc as [Hc|[<-|[]]]; auto. cbn [fst snd]. apply linked_iff in L; auto. tauto. }
  destruct R as [rnd [HR R]]. destruct s as [ph intm]. unfold romm_mesh in R. cbn [fst snd] in *.
  change (ri_src (at_router b e src dest u i vc)) with src in R. change (ri_dest (at_router b e src dest u i vc)) with dest in R.
  destruct (rand_min_box k n rnd src dest Hk HR) as [PG PB]. set (pick := rand_min_intr k n 0 rnd 1 src dest) in *.
  assert (H0 : (if Nat.eqb i (2 * n) then 0 else ph) = 0 \/ (if Nat.eqb i (2 * n) then 0 else ph) = 1).
  { destruct J as [[-> _]|[J1 J2]]; [rewrite Nat.eqb_refl; auto|]. replace (Nat.eqb i (2 * n)) with false by (symmetry; apply Nat.eqb_neq; lia). cbn [fst] in J2. tauto. }
  destruct (two_case k n b e pick ph intm src dest u i vc I2 W H0) as [P1 E]. rewrite E in R. clear E. fold h in R. fold m in R.
  remember (if Nat.eqb i (2 * n) then pick else intm) as intm0 eqn:EI. remember (if Nat.eqb i (2 * n) then 0 else ph) as ph0 eqn:EP.
  remember (if (ph0 =? 0) && (u =? intm0) then 1 else ph0) as ph1 eqn:E1.
  injection R as -> _. rewrite (proj2 (Z.eqb_neq u dest) Nu).
  (* what the path looks like from here *)
  assert (INV : (i < 2 * n)%nat -> _) by (intros I; exact (romm_inv k n b e _ _ _ _ _ _ _ Hk W Hs Hd G I)).
  cbn zeta in INV. fold h m in INV. cbn [fst snd] in INV.
  destruct P1 as [P1|P1]; rewrite P1; cbn [Z.eqb].
  - assert (Q : u <> intm0 /\ ph0 = 0). { rewrite P1 in E1. destruct (Z.eqb_spec ph0 0); destruct (Z.eqb_spec u intm0); cbn [andb] in E1; auto; lia. }
    exists (u, dor_next_mesh k n (k ^ Z.of_nat n) false u intm0, b). split.
    + eexists. exists (dor_next_mesh k n (k ^ Z.of_nat n) false u intm0), b. split; [left; reflexivity|]. cbn [o_port o_lo o_hi add_range]. split; auto. split; [unfold m; lia|reflexivity].
    + right. cbn [fst snd]. assert (HB : (b <? h) = true) by (unfold h; lia). rewrite HB. split; [reflexivity|]. intros c0 Hc GC.
      destruct GI as [[GI _]|[_ [-> _]]]; [|contradiction]. assert (NI : Nat.eqb i (2 * n) = false) by (apply Nat.eqb_neq; lia). rewrite NI in EI, EP. subst intm0 ph0.
      destruct (INV GI) as [X1 _]. destruct Q as [Q1 Q2]. destruct (X1 Q2 c0 Hc) as [X2 X3]. replace (snd c0 <? h) with true by lia. auto.
  - exists (u, dor_next_mesh k n (k ^ Z.of_nat n) false u dest, e). split.
    + eexists. exists (dor_next_mesh k n (k ^ Z.of_nat n) false u dest), e. split; [left; reflexivity|]. cbn [o_port o_lo o_hi add_range]. split; auto. split; [unfold h; lia|reflexivity].
    + right. cbn [fst snd]. assert (HB : (e <? h) = false) by (unfold h; lia). assert (HM : (m <? e) = true) by (unfold m; lia). rewrite HB, HM.
      split; [reflexivity|]. intros c0 Hc GC.
      assert (PU : (dor_next_mesh k n (k ^ Z.of_nat n) false u dest < 2 * n)%nat) by (eapply productive_lt; apply dor_productive; auto).
      pose proof (drank_bound k n false u _ Hk PU). pose proof (drank_bound k n false (fst (fst c0)) _ Hk (PB0 c0 Hc)).
      destruct (Z.ltb_spec (snd c0) h) as [LC|LC]; [lia|]. cbn [orb] in GC.
      destruct GI as [[GI _]|[_ [-> _]]]; [|contradiction]. assert (NI : Nat.eqb i (2 * n) = false) by (apply Nat.eqb_neq; lia). rewrite NI in EI, EP. subst intm0 ph0.
      destruct (INV GI) as [X0 X1]. destruct J as [[J1 _]|[_ J]]; [lia|]. cbn [fst snd] in J. destruct J as [[J _]|J].
      * destruct (X0 J c0 Hc) as [X2 _]. lia.
      * destruct (X1 J c0 Hc) as [X2|[_ X2]]; [lia|]. specialize (X2 Nu). lia.
Qed.
