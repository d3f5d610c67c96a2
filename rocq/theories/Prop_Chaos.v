(** C117: routing functions that are meant to offer several ways and offer one. *)
From Coq Require Import ZArith Arith Bool List Lia.
From Verif Require Import RouteModel RouteSpec RouteProofs RouteMeshProofs ChaosModel ChaosSpec.
Import ListNotations.
Open Scope Z_scope.

Lemma adds_one : forall x l, (forall y, In y l -> o_pri y = o_pri x) -> os_adds (x :: l) = [x].
Proof.
  intros x l H. unfold os_adds. cbn [fold_left os_insert]. induction l as [|y l IH]; [reflexivity|]. cbn [fold_left os_insert]. rewrite (H y (or_introl eq_refl)). rewrite Z.ltb_irrefl. apply IH. intros; apply H; right; auto.
Qed.
Lemma digit_S : forall k i x, 0 < k -> digit k (S i) x = digit k i (x / k).
Proof. intros k i x Hk. unfold digit. rewrite Nat2Z.inj_succ, Z.pow_succ_r by lia. rewrite Z.div_div by (try apply Z.pow_pos_nonneg; lia). reflexivity. Qed.
Lemma digit_0 : forall k x, digit k 0 x = x mod k.
Proof. intros k x. unfold digit. change (k ^ Z.of_nat 0) with 1. rewrite Z.div_1_r. reflexivity. Qed.
Lemma lowest_ex : forall k n u v, 0 < k -> 0 <= u < k ^ Z.of_nat n -> 0 <= v < k ^ Z.of_nat n -> u <> v -> exists d, lowest k n u v d.
Proof.
  intros k n. induction n as [|n IH]; intros u v Hk Hu Hv Ne; [cbn in Hu, Hv; lia|]. rewrite Nat2Z.inj_succ, Z.pow_succ_r in Hu, Hv by lia. destruct (Z.eq_dec (u mod k) (v mod k)) as [E|N].
  - destruct (IH (u / k) (v / k) Hk) as [d [D1 [D2 D3]]]; try (split; [apply Z.div_pos; lia|apply Z.div_lt_upper_bound; lia]).
    + intros E2. apply Ne. rewrite (Z.div_mod u k), (Z.div_mod v k) by lia. congruence.
    + exists (S d). split; [lia|]. rewrite !digit_S by auto. split; auto. intros [|i] Hi; [rewrite !digit_0; exact E|]. rewrite !digit_S by auto. apply D3. lia.
  - exists O. split; [lia|]. rewrite !digit_0. split; auto. intros i Hi. lia.
Qed.
Lemma lowest_S : forall k n u v d, 0 < k -> lowest k (S n) u v d -> (d = O /\ u mod k <> v mod k) \/ exists d', d = S d' /\ u mod k = v mod k /\ lowest k n (u / k) (v / k) d'.
Proof.
  intros k n u v d Hk [D1 [D2 D3]]. destruct d as [|d]; [left; rewrite !digit_0 in D2; auto|]. right. exists d. split; auto. split; [specialize (D3 O ltac:(lia)); rewrite !digit_0 in D3; exact D3|]. rewrite !digit_S in D2 by auto. split; [lia|]. split; auto. intros i Hi. specialize (D3 (S i) ltac:(lia)). rewrite !digit_S in D3 by auto. exact D3.
Qed.
Lemma mesh_pri : forall k m dim u v y, In y (chaos_mesh_outs k m dim u v) -> o_pri y = 0.
Proof.
  intros k m. induction m as [|m IH]; intros dim u v y H; [contradiction|]. cbn [chaos_mesh_outs] in H. apply in_app_or in H. destruct H as [H|H]; [|apply (IH _ _ _ _ H)]. destruct (u mod k =? v mod k); [contradiction|]. destruct H as [<-|[]]. reflexivity.
Qed.
Lemma mesh_first : forall k m dim u v d, 0 < k -> lowest k m u v d -> os_adds (chaos_mesh_outs k m dim u v) = [add_range (Z.of_nat (if digit k d u <? digit k d v then 2 * (dim + d) else 2 * (dim + d) + 1)) 0 0].
Proof.
  intros k m. induction m as [|m IH]; intros dim u v d Hk L; [destruct L; lia|]. cbn [chaos_mesh_outs]. destruct (lowest_S _ _ _ _ _ Hk L) as [[-> N]|[d' [-> [E L']]]].
  - destruct (Z.eqb_spec (u mod k) (v mod k)); [contradiction|]. cbn [app]. rewrite adds_one by (intros y Hy; apply (mesh_pri _ _ _ _ _ _ Hy)). rewrite !digit_0, Nat.add_0_r. reflexivity.
  - rewrite E, Z.eqb_refl. cbn [app]. rewrite (IH _ _ _ _ Hk L'). rewrite !digit_S by auto. replace (S dim + d')%nat with (dim + S d')%nat by lia. reflexivity.
Qed.
Lemma torus_pri : forall k m dim u v y, In y (chaos_torus_outs k m dim u v) -> o_pri y = 0.
Proof.
  intros k m. induction m as [|m IH]; intros dim u v y H; [contradiction|]. cbn [chaos_torus_outs] in H. apply in_app_or in H. destruct H as [H|H]; [|apply (IH _ _ _ _ H)]. destruct (u mod k =? v mod k); [contradiction|]. apply in_app_or in H. destruct H as [H|H]; [destruct (0 <=? _) in H|destruct (_ <=? 0) in H]; try contradiction; destruct H as [<-|[]]; reflexivity.
Qed.
Lemma torus_first : forall k m dim u v d, 0 < k -> lowest k m u v d -> os_adds (chaos_torus_outs k m dim u v) = [add_range (Z.of_nat (if 2 * ((digit k d v - digit k d u) mod k) <=? k then 2 * (dim + d) else 2 * (dim + d) + 1)) 0 0].
Proof.
  intros k m. induction m as [|m IH]; intros dim u v d Hk L; [destruct L; lia|]. cbn [chaos_torus_outs]. destruct (lowest_S _ _ _ _ _ Hk L) as [[-> N]|[d' [-> [E L']]]].
  - destruct (Z.eqb_spec (u mod k) (v mod k)); [contradiction|]. cbv zeta. replace (v mod k - u mod k + k) with (v mod k - u mod k + 1 * k) by lia. rewrite Z.mod_add by lia. rewrite !digit_0, Nat.add_0_r. set (w := (v mod k - u mod k) mod k).
    destruct (Z.leb_spec 0 (k - 2 * w)) as [A|A]; destruct (Z.leb_spec (2 * w) k) as [B|B]; try lia.
    + cbn [app]. apply adds_one. intros y Hy. apply in_app_or in Hy. destruct Hy as [Hy|Hy]; [destruct (_ <=? 0) in Hy; [destruct Hy as [<-|[]]; reflexivity|contradiction]|apply (torus_pri _ _ _ _ _ _ Hy)].
    + destruct (Z.leb_spec (k - 2 * w) 0); [|lia]. cbn [app]. apply adds_one. intros y Hy. apply (torus_pri _ _ _ _ _ _ Hy).
  - rewrite E, Z.eqb_refl. cbn [app]. rewrite (IH _ _ _ _ Hk L'). rewrite !digit_S by auto. replace (S dim + d')%nat with (dim + S d')%nat by lia. reflexivity.
Qed.
Lemma planar_first : forall k m dim u v d, 0 < k -> lowest k m u v d -> exists c e, planar_dim k false m dim u v = Some ((dim + d)%nat, c, e) /\ c mod k = digit k d u /\ e mod k = digit k d v.
Proof.
  intros k m. induction m as [|m IH]; intros dim u v d Hk L; [destruct L; lia|]. cbn [planar_dim andb negb]. destruct (lowest_S _ _ _ _ _ Hk L) as [[-> N]|[d' [-> [E L']]]].
  - destruct (Z.eqb_spec (u mod k) (v mod k)); [contradiction|]. cbn [negb andb]. exists u, v. rewrite !digit_0, Nat.add_0_r. auto.
  - rewrite E, Z.eqb_refl. cbn [negb andb]. destruct (IH (S dim) _ _ _ Hk L') as [c [e [P [A B]]]]. exists c, e. rewrite P. rewrite !digit_S by auto. replace (S dim + d')%nat with (dim + S d')%nat by lia. auto.
Qed.

(** chaos_mesh offers the port of dimension-order routing alone. *)
Theorem C117_chaos_mesh : forall k n x, 0 < k -> 0 <= ri_cur x < k ^ Z.of_nat n -> 0 <= ri_dest x < k ^ Z.of_nat n -> ri_inject x = false ->
  (ri_cur x = ri_dest x /\ chaos_mesh k n x = [add_range (Z.of_nat (2 * n)) 0 0]) \/
  exists d, lowest k n (ri_cur x) (ri_dest x) d /\ chaos_mesh k n x = [add_range (Z.of_nat (if digit k d (ri_cur x) <? digit k d (ri_dest x) then 2 * d else 2 * d + 1)) 0 0].
Proof.
  intros k n x Hk Hc Hd Hi. unfold chaos_mesh. rewrite Hi. destruct (Z.eqb_spec (ri_cur x) (ri_dest x)) as [E|N]; [left; auto|]. right. destruct (lowest_ex k n _ _ Hk Hc Hd N) as [d L]. exists d. split; auto. rewrite (mesh_first _ _ 0 _ _ _ Hk L). reflexivity.
Qed.
Print Assumptions C117_chaos_mesh.
(** A packet that could go on in either of two dimensions. *)
Definition ex_place := {| ri_cur := 0; ri_in := 4; ri_src := 0; ri_dest := 6; ri_vc := 0; ri_b := 0; ri_e := 5; ri_inject := false |}.
Example C117_chaos_mesh_ex : chaos_mesh 4 2 ex_place = [add_range 0 0 0] /\ chaos_mesh_outs 4 2 0 0 6 = [add_range 0 0 0; add_range 2 0 0] /\ 0 <= 6 < 4 ^ Z.of_nat 2.
Proof. vm_compute. repeat split; discriminate. Qed.

(** chaos_torus offers one port: in the lowest dimension, up if that is not longer. *)
Theorem C117_chaos_torus : forall k n x, 0 < k -> 0 <= ri_cur x < k ^ Z.of_nat n -> 0 <= ri_dest x < k ^ Z.of_nat n -> ri_inject x = false ->
  (ri_cur x = ri_dest x /\ chaos_torus k n x = [add_range (Z.of_nat (2 * n)) 0 0]) \/
  exists d, lowest k n (ri_cur x) (ri_dest x) d /\ chaos_torus k n x = [add_range (Z.of_nat (if 2 * ((digit k d (ri_dest x) - digit k d (ri_cur x)) mod k) <=? k then 2 * d else 2 * d + 1)) 0 0].
Proof.
  intros k n x Hk Hc Hd Hi. unfold chaos_torus. rewrite Hi. destruct (Z.eqb_spec (ri_cur x) (ri_dest x)) as [E|N]; [left; auto|]. right. destruct (lowest_ex k n _ _ Hk Hc Hd N) as [d L]. exists d. split; auto. rewrite (torus_first _ _ 0 _ _ _ Hk L). reflexivity.
Qed.
Print Assumptions C117_chaos_torus.
Example C117_chaos_torus_ex : chaos_torus 4 2 ex_place = [add_range 0 0 0] /\ chaos_torus_outs 4 2 0 0 6 = [add_range 0 0 0; add_range 1 0 0; add_range 2 0 0] /\ chaos_torus 5 1 {| ri_cur := 0; ri_in := 2; ri_src := 0; ri_dest := 4; ri_vc := 0; ri_b := 0; ri_e := 5; ri_inject := false |} = [add_range 1 0 0].
Proof. vm_compute. auto. Qed.

(** planar_adapt_mesh offers that port alone, with the channels of the last third and the rest, if the port works and the packet did not come in the first dimension on
    another channel. No assertion fails, and the packet does not come so at the next router either. *)
Theorem C117_planar : forall k n faulty rnd x, 0 < k -> 0 <= ri_cur x < k ^ Z.of_nat n -> 0 <= ri_dest x < k ^ Z.of_nat n -> ri_inject x = false ->
  ri_b x <= ri_vc x <= ri_e x -> let mult := (ri_e x - ri_b x + 1) / 3 in
  ((2 <= ri_in x)%nat \/ ri_b x + 2 * mult <= ri_vc x) ->
  (ri_cur x = ri_dest x /\ planar_adapt_mesh k n faulty rnd x = Some [add_range (Z.of_nat (2 * n)) (ri_b x) (ri_e x)]) \/
  exists d, lowest k n (ri_cur x) (ri_dest x) d /\ let p := Z.of_nat (if digit k d (ri_cur x) <? digit k d (ri_dest x) then 2 * d else 2 * d + 1) in
    (faulty p = false -> planar_adapt_mesh k n faulty rnd x = Some [add_range p (ri_b x + 2 * mult) (ri_e x)]).
Proof.
  intros k n faulty rnd x Hk Hc Hd Hi Hv mult Ho. destruct (Z.eq_dec (ri_cur x) (ri_dest x)) as [E|N].
  - left. split; auto. unfold planar_adapt_mesh, vc_assert. rewrite Hi, E, Z.eqb_refl. destruct (Z.leb_spec (ri_b x) (ri_vc x)); [|lia]. destruct (Z.leb_spec (ri_vc x) (ri_e x)); [|lia]. reflexivity.
  - right. destruct (lowest_ex k n _ _ Hk Hc Hd N) as [d L]. exists d. split; auto. intros p Hp. unfold planar_adapt_mesh, vc_assert. rewrite Hi. destruct (Z.leb_spec (ri_b x) (ri_vc x)); [|lia]. destruct (Z.leb_spec (ri_vc x) (ri_e x)); [|lia]. destruct (Z.eqb_spec (ri_cur x) (ri_dest x)); [contradiction|]. cbn [andb orb negb]. rewrite Z.quot_div_nonneg by lia. fold mult. cbv zeta.
    replace (Nat.eqb (Nat.div2 (ri_in x)) 0 && (ri_vc x <? ri_b x + 2 * mult)) with false.
    2:{ symmetry. apply andb_false_iff. destruct Ho as [Ho|Ho]; [left|right; apply Z.ltb_ge; exact Ho]. apply Nat.eqb_neq. destruct (ri_in x) as [|[|i]]; [lia|lia|]. cbn. lia. }
    destruct (planar_first k n 0 _ _ d Hk L) as [c [e [-> [Ec Ed]]]]. rewrite Ec, Ed. cbn [plus]. fold p. rewrite Hp. cbn [app].
    assert (One : forall l, (l = [] \/ exists q b' e', l = [add_range q b' e']) -> os_adds (add_range p (ri_b x + 2 * mult) (ri_e x) :: l) = [add_range p (ri_b x + 2 * mult) (ri_e x)]) by (intros l [-> | [q [b' [e' ->]]]]; [reflexivity|apply adds_one; intros y [<-|[]]; reflexivity]).
    match goal with |- (if negb (?w =? -1) then _ else _) = _ => generalize w end. intros w. destruct (w =? -1); cbn [negb]; [rewrite One by (left; reflexivity); reflexivity|]. destruct (faulty w); cbn [negb]; rewrite One; auto; right; eauto.
Qed.
Print Assumptions C117_planar.
Example C117_planar_ex : planar_adapt_mesh 4 2 (fun _ => false) 0 ex_place = Some [add_range 0 4 5] /\ (2 <= ri_in ex_place)%nat.
Proof. vm_compute. split; [reflexivity|lia]. Qed.

(** If it came so and differs in the first dimension alone, the assertion fails. *)
Theorem C117_planar_refuted : exists k n x, 0 <= ri_cur x < k ^ Z.of_nat n /\ 0 <= ri_dest x < k ^ Z.of_nat n /\ ri_inject x = false /\ ri_b x <= ri_vc x <= ri_e x /\ forall faulty rnd, planar_adapt_mesh k n faulty rnd x = None.
Proof. exists 4, 2%nat, {| ri_cur := 0; ri_in := 1; ri_src := 0; ri_dest := 2; ri_vc := 0; ri_b := 0; ri_e := 5; ri_inject := false |}. vm_compute. repeat split; discriminate. Qed.
Print Assumptions C117_planar_refuted.
(** If the port of the last dimension is faulty, a packet may be sent up in the first although it is at its upper end. *)
Theorem C117_planar_fault_refuted : exists k n faulty x p b e, forall rnd, planar_adapt_mesh k n faulty rnd x = Some [add_range (Z.of_nat (2 * p)) b e] /\ faulty (Z.of_nat (2 * p)) = false /\ digit k p (ri_cur x) = k - 1 /\ 1 < k /\ ri_inject x = false.
Proof.
  exists 4, 2%nat, (fun p => p =? 2), {| ri_cur := 3; ri_in := 4; ri_src := 3; ri_dest := 7; ri_vc := 0; ri_b := 0; ri_e := 5; ri_inject := false |}, O, 0, 1. intros rnd. vm_compute. repeat split.
Qed.
Print Assumptions C117_planar_fault_refuted.

(** ** The way of a packet *)
(** What planar_adapt_mesh comes to on the way of a packet: one port with the upper channels. *)
Definition upper (k : Z) (n : nat) (x : rin) : option (list oelem) :=
  Some [if ri_cur x =? ri_dest x then add_range (Z.of_nat (2 * n)) (ri_b x) (ri_e x)
        else add_range (Z.of_nat (dor_next_mesh k n (k ^ Z.of_nat n) false (ri_cur x) (ri_dest x))) (ri_b x + 2 * ((ri_e x - ri_b x + 1) / 3)) (ri_e x)].
Lemma asc_lowest : forall k m dim u v d, 0 < k -> lowest k (S m) u v d -> dor_asc k m dim u v = ((dim + d)%nat, digit k d u, digit k d v).
Proof.
  intros k m. induction m as [|m IH]; intros dim u v d Hk L; cbn [dor_asc].
  - destruct L as [L _]. assert (d = O) by lia. subst d. rewrite !digit_0, Nat.add_0_r. reflexivity.
  - destruct (lowest_S _ _ _ _ _ Hk L) as [[-> N]|[d' [-> [E L']]]].
    + destruct (Z.eqb_spec (u mod k) (v mod k)); [contradiction|]. cbn [negb]. rewrite !digit_0, Nat.add_0_r. reflexivity.
    + rewrite E, Z.eqb_refl. cbn [negb]. rewrite (IH _ _ _ _ Hk L'). rewrite !digit_S by auto. replace (S dim + d')%nat with (dim + S d')%nat by lia. reflexivity.
Qed.
Lemma next_lowest : forall k n nodes u v d, 0 < k -> lowest k n u v d -> dor_next_mesh k n nodes false u v = if digit k d u <? digit k d v then (2 * d)%nat else (2 * d + 1)%nat.
Proof.
  intros k n nodes u v d Hk L. unfold dor_next_mesh. destruct (Z.eqb_spec u v) as [->|_]; [destruct L as [_ [L _]]; congruence|]. destruct n as [|n]; [destruct L; lia|]. rewrite Nat.sub_succ, Nat.sub_0_r. rewrite (asc_lowest _ _ 0 _ _ _ Hk L). reflexivity.
Qed.
Lemma upper_room : forall b e vc, b <= vc <= e -> b <= b + 2 * ((e - b + 1) / 3) <= e.
Proof. intros b e vc H. pose proof (Z.div_mod (e - b + 1) 3 ltac:(lia)). pose proof (Z.mod_pos_bound (e - b + 1) 3 ltac:(lia)). lia. Qed.
Lemma upper_steers : forall k n b e, 1 <= k -> steers (rf_pure (upper k n)) k n b e.
Proof.
  intros k n b e Hk src dest u i vc s Hd Hu V. split; [apply pure_ex|]. intros r R. unfold rf_pure, upper in R. rsimp R. do 2 eexists. split; [exact R|]. split; [discriminate|]. pose proof (upper_room _ _ _ V). pose proof (dor_port k n u dest Hk Hu Hd false) as P.
  intros x [<-|[]]. destruct (u =? dest); cbn [o_lo o_hi o_port add_range]; (split; [lia|]); (split; [lia|]); auto.
Qed.
Lemma upper_only : forall k n b e, dor_only (rf_pure (upper k n)) k n b e.
Proof.
  intros k n b e src dest u i vc s es s' x N R X. unfold rf_pure, upper in R. rsimp R. destruct (Z.eqb_spec u dest); [contradiction|]. injection R as -> ->. destruct X as [<-|[]]. reflexivity.
Qed.
Lemma planar_is : forall k n b e src dest u i vc s r, 1 <= k -> on_grid k n u -> on_grid k n dest -> b <= vc <= e -> (n = O \/ (2 <= i)%nat \/ b + 2 * ((e - b + 1) / 3) <= vc) ->
  rf_planar k n s (at_router b e src dest u i vc) r <-> rf_pure (upper k n) s (at_router b e src dest u i vc) r.
Proof.
  intros k n b e src dest u i vc s r Hk Hu Hd V H. assert (Z.of_nat n = 0 -> u = dest) as Z0 by (intros E; unfold on_grid in Hu, Hd; rewrite E in Hu, Hd; cbn in Hu, Hd; lia).
  assert (Q : forall rnd, planar_adapt_mesh k n (fun _ => false) rnd (at_router b e src dest u i vc) = upper k n (at_router b e src dest u i vc)).
  { intros rnd. unfold upper. unfold at_router at 2 3 4 5 6 7 8 9 10. cbn [ri_cur ri_dest ri_b ri_e]. destruct (Z.eqb_spec u dest) as [E|N].
    - unfold planar_adapt_mesh. cbn [at_router ri_cur ri_in ri_dest ri_vc ri_b ri_e ri_inject]. rewrite vc_ok by auto. cbn [negb]. rewrite E, Z.eqb_refl. reflexivity.
    - assert (H2 : (2 <= i)%nat \/ b + 2 * ((e - b + 1) / 3) <= vc) by (destruct H as [-> | H]; [elim N; apply Z0; reflexivity|exact H]).
      destruct (C117_planar k n (fun _ => false) rnd (at_router b e src dest u i vc) ltac:(lia) Hu Hd eq_refl V H2) as [[E _]|[d [L P]]]; [elim N; exact E|].
      cbv zeta in P. cbn [at_router ri_cur ri_in ri_dest ri_vc ri_b ri_e ri_inject] in L, P. rewrite P by reflexivity. rewrite (next_lowest k n _ u dest d) by (auto; lia). reflexivity. }
  unfold rf_planar, rf_pure. split; [intros [rnd ->]; rewrite Q; reflexivity|intros ->; exists 0; rewrite Q; reflexivity].
Qed.
Lemma planar_gone : forall k n b e src dest l u i vc s, 1 <= k -> on_grid k n src -> on_grid k n dest -> gone (rf_planar k n) k n b e src dest l u i vc s ->
  gone (rf_pure (upper k n)) k n b e src dest l u i vc s /\ (n = O \/ (2 <= i)%nat \/ b + 2 * ((e - b + 1) / 3) <= vc).
Proof.
  intros k n b e src dest l u i vc s Hk Hs Hd G. induction G as [vc s V|l u i vc s es s' x p v j vc' G IH R X P V L].
  - split; [constructor; auto|]. destruct n; [auto|right; left; lia].
  - destruct IH as [IG II]. destruct (steers_gone _ _ _ _ _ _ _ _ _ _ _ _ _ Hk (upper_steers k n b e Hk) Hs Hd IG) as [Gu [Gv _]]. apply (planar_is k n b e) in R; auto. split; [econstructor; eauto|].
    unfold rf_pure, upper in R. rsimp R. injection R as -> ->. destruct X as [<-|[]]. revert P V. destruct (Z.eqb_spec u dest) as [E|N]; cbn [o_lo o_hi o_port add_range]; intros P V; [|right; right; exact (proj1 V)].
    apply Nat2Z.inj in P. apply linked_iff in L; auto. lia.
Qed.
(** In a mesh without faulty outputs planar_adapt_mesh delivers on shortest ways, and no packets wait for each other for ever. *)
Theorem C117_planar_delivers : forall k n b e, 1 <= k -> delivers (rf_planar k n) k n b e (mesh_dist k n) (in_box k n) (mesh_link k n) /\ forall D, ~ deadlock (rf_planar k n) k n b e D.
Proof.
  intros k n b e Hk. split.
  - intros src dest l u i vc s Hs Hd G. destruct (planar_gone _ _ _ _ _ _ _ _ _ _ _ Hk Hs Hd G) as [G' I]. destruct (steers_delivers _ _ _ _ _ _ Hk (upper_steers k n b e Hk) src dest l u i vc s Hs Hd G') as [A [B [C [D [[r E] F]]]]].
    split; auto. split; auto. split; auto. split; auto. split; [exists r; apply (planar_is k n b e); auto|]. intros r' R. apply (planar_is k n b e) in R; auto.
  - intros D [D1 [D2 [D3 D4]]]. apply (dor_only_no_deadlock _ (rf_pure (upper k n)) k n b e Hk (upper_steers k n b e Hk) (upper_only k n b e) D). split; auto. split; [|split; auto]. rewrite Forall_forall in *. intros p Hp. destruct (D2 p Hp) as [T1 [T2 [T3 T4]]]. destruct (planar_gone _ _ _ _ _ _ _ _ _ _ _ Hk T1 T2 T3) as [G' I].
    destruct (steers_gone _ _ _ _ _ _ _ _ _ _ _ _ _ Hk (upper_steers k n b e Hk) T1 T2 G') as [Gu [Gv _]]. split; auto. split; auto. split; auto. apply (planar_is k n b e) in T4; auto.
Qed.
Print Assumptions C117_planar_delivers.
Example C117_planar_delivers_ex : gone (rf_planar 4 2) 4 2 0 5 0 6 [(0, 0%nat, 4)] 1 1%nat 4 tt.
Proof.
  change [(0, 0%nat, 4)] with ([] ++ [(0, 0%nat, 4)]). eapply (gone_hop _ _ _ _ _ _ _ _ _ 4%nat 0 tt _ _ (add_range 0 4 5)); [constructor; lia|exists 0; vm_compute; reflexivity|left; reflexivity|reflexivity|cbn; lia|]. apply linked_iff; [lia|]. split; [unfold on_grid; cbn; lia|]. split; [lia|]. split; reflexivity.
Qed.

(** chaos_mesh leads a packet to its destination on a shortest way. *)
Theorem C117_chaos_delivers : forall k n b e, 1 <= k -> b <= 0 <= e -> delivers (rf_pure (fun x => Some (chaos_mesh k n x))) k n b e (mesh_dist k n) (in_box k n) (mesh_link k n).
Proof.
  intros k n b e Hk Hb. apply steers_delivers; auto. intros src dest u i vc s Hd Hu V. split; [apply pure_ex|]. intros r R. unfold rf_pure in R. do 2 eexists. split; [exact R|]. pose proof (dor_port k n u dest Hk Hu Hd false) as P.
  destruct (C117_chaos_mesh k n (at_router b e src dest u i vc) ltac:(lia) Hu Hd eq_refl) as [[E Q]|[d [L Q]]]; rewrite Q; cbn [at_router ri_cur ri_dest] in *; (split; [discriminate|]); intros x [<-|[]]; cbn [o_lo o_hi o_port add_range]; (split; [lia|]); (split; [lia|]).
  - rewrite E, Z.eqb_refl. reflexivity.
  - destruct (Z.eqb_spec u dest) as [->|N]; [destruct L as [_ [L _]]; congruence|]. rewrite (next_lowest k n _ u dest d) in P by (auto; lia). exact P.
Qed.
Print Assumptions C117_chaos_delivers.
Example C117_chaos_delivers_ex : gone (rf_pure (fun x => Some (chaos_mesh 4 2 x))) 4 2 0 0 0 6 [(0, 0%nat, 0)] 1 1%nat 0 tt.
Proof.
  change [(0, 0%nat, 0)] with ([] ++ [(0, 0%nat, 0)]). eapply (gone_hop _ _ _ _ _ _ _ _ _ 4%nat 0 tt _ _ (add_range 0 0 0)); [constructor; lia|vm_compute; reflexivity|left; reflexivity|reflexivity|cbn; lia|]. apply linked_iff; [lia|]. split; [unfold on_grid; cbn; lia|]. split; [lia|]. split; reflexivity.
Qed.
