From Coq Require Import ZArith Arith Bool List Lia.
From Verif Require Import RouteModel RouteSpec RouteProofs RouteMeshProofs RoutePhaseProofs RouteTorusProofs ChaosModel ChaosSpec Prop_Chaos Prop_Route MinTorusModel MinTorusSpec.
Import ListNotations.
Open Scope Z_scope.

Lemma mt_vc_ok : forall vc b e, b <= vc <= e -> vc_assert false vc b e = true.
Proof. intros. unfold vc_assert. destruct (Z.leb_spec b vc); [|lia]. destruct (Z.leb_spec vc e); [|lia]. reflexivity. Qed.
Definition adp (p b : Z) : oelem := {| o_port := p; o_lo := b + 3; o_hi := b + 3; o_pri := 1 |}.
Lemma mt_pri : forall k m dim u v b y, In y (mt_outs k m dim u v b) -> o_pri y = 1.
Proof.
  intros k m. induction m as [|m IH]; intros dim u v b y H; [contradiction|]. cbn [mt_outs] in H. apply in_app_or in H. destruct H as [H|H]; [|apply (IH _ _ _ _ _ H)]. destruct (u mod k =? v mod k); [contradiction|]. destruct H as [<-|[]]. reflexivity.
Qed.
Lemma mt_same : forall k m dim u b, mt_outs k m dim u u b = [].
Proof. intros k m. induction m as [|m IH]; intros dim u b; [reflexivity|]. cbn [mt_outs]. rewrite Z.eqb_refl. apply IH. Qed.
Lemma mt_first : forall k m dim u v b d, 0 < k -> lowest k m u v d -> exists l, mt_outs k m dim u v b = adp (Z.of_nat (if 0 <? k - 2 * ((digit k d v - digit k d u + k) mod k) then 2 * (dim + d) else 2 * (dim + d) + 1)) b :: l /\ forall y, In y l -> o_pri y = 1.
Proof.
  intros k m. induction m as [|m IH]; intros dim u v b d Hk L; [destruct L; lia|]. cbn [mt_outs]. destruct (lowest_S _ _ _ _ _ Hk L) as [[-> N]|[d' [-> [E L']]]].
  - destruct (Z.eqb_spec (u mod k) (v mod k)); [contradiction|]. rewrite !digit_0, Nat.add_0_r. eexists. split; [reflexivity|]. intros y Hy. apply (mt_pri _ _ _ _ _ _ _ Hy).
  - rewrite E, Z.eqb_refl. cbn [app]. destruct (IH (S dim) _ _ b _ Hk L') as [l [-> H]]. exists l. split; auto. rewrite !digit_S by auto. replace (S dim + d')%nat with (dim + S d')%nat by lia. reflexivity.
Qed.
(** One output per priority is kept. *)
Lemma adds_two : forall a l z, o_pri a = 1 -> (forall y, In y l -> o_pri y = 1) -> o_pri z = 0 -> os_adds (a :: l ++ [z]) = [a; z].
Proof.
  intros a l z A H Zp. unfold os_adds. cbn [fold_left os_insert]. rewrite fold_left_app. assert (E : fold_left (fun s x => os_insert x s) l [a] = [a]).
  { induction l as [|y l IH]; [reflexivity|]. cbn [fold_left os_insert]. rewrite A, (H y (or_introl eq_refl)). cbn [Z.ltb Z.compare Pos.compare Pos.compare_cont]. apply IH. intros; apply H; right; auto. }
  rewrite E. cbn [fold_left os_insert]. rewrite A, Zp. reflexivity.
Qed.
(** The port that is kept is one of dor_next_torus. *)
Lemma mt_port : forall k n u v d, 1 <= k -> lowest k n u v d -> on_grid k n u -> on_grid k n v -> forall ph,
  fst (dor_next_torus k n false false false (2 * n) ph u v) = if 0 <? k - 2 * ((digit k d v - digit k d u + k) mod k) then (2 * d)%nat else (2 * d + 1)%nat.
Proof.
  intros k n u v d Hk L Hu Hv ph. destruct (torus_next k n false false false (2 * n) ph u v Hk Hu Hv) as [[E _]|[d' [D1 [D2 [D3 E]]]]]; [subst; destruct L as [_ [L _]]; congruence|].
  assert (d' = d). { destruct L as [L1 [L2 L3]]. destruct (Nat.lt_trichotomy d d') as [X|[X|X]]; [exfalso; apply L2; apply D3; auto|auto|exfalso; apply D2; apply L3; auto]. }
  subst d'. rewrite E. rewrite Nat.div2_double. destruct (Nat.eqb_spec n d); [lia|]. unfold entry. cbv zeta. rewrite andb_false_r, orb_false_r. destruct (0 <? _); reflexivity.
Qed.

Definition esc (b : Z) (p : nat) (ph : Z) : oelem := add_range (Z.of_nat p) (if ph =? 0 then b else b + 1) (if ph =? 0 then b else b + 1).
Definition is_ad (n : nat) (b e : Z) (i : nat) (vc : Z) : bool := b + 1 <? (if Nat.eqb i (2 * n) then e else vc).
Lemma mt_offer : forall k n b e r1 src dest u i vc ph, 1 <= k -> on_grid k n u -> on_grid k n dest -> b <= vc <= e ->
  let ad := is_ad n b e i vc in
  min_adapt_torus k n r1 ph (at_router b e src dest u i vc) =
    if u =? dest then Some ([add_range (Z.of_nat (2 * n)) b e], ph)
    else let '(p, ph') := dor_next_torus k n false r1 false (if ad then (2 * n)%nat else i) ph u dest in
      Some ((if ad then [adp (Z.of_nat (fst (dor_next_torus k n false false false (2 * n) 0 u dest))) b] else []) ++ [esc b p ph'], ph').
Proof.
  intros k n b e r1 src dest u i vc ph Hk Hu Hd V ad. unfold min_adapt_torus. cbn [at_router ri_cur ri_in ri_src ri_dest ri_vc ri_b ri_e ri_inject]. rewrite mt_vc_ok by auto. cbn [negb]. fold (is_ad n b e i vc). fold ad.
  destruct (Z.eqb_spec u dest) as [->|N].
  - destruct (torus_next k n false r1 false (if ad then (2 * n)%nat else i) ph dest dest Hk Hd Hd) as [[_ ->]|[d [_ [D2 _]]]]; [|congruence]. rewrite mt_same. cbv zeta. replace (if ad then [] else []) with (@nil oelem) by (destruct ad; reflexivity). cbn [app]. rewrite adds_one by (intros y [<-|[]]; reflexivity). reflexivity.
  - destruct (lowest_ex k n u dest ltac:(lia) Hu Hd N) as [d L]. rewrite (mt_port k n u dest d Hk L Hu Hd 0).
    destruct (dor_next_torus k n false r1 false (if ad then (2 * n)%nat else i) ph u dest) as [p ph']. cbv zeta. destruct ad; cbn [app]; [|reflexivity].
    destruct (mt_first k n 0 u dest b d ltac:(lia) L) as [l [-> H]]. cbn [app]. rewrite adds_two; auto.
Qed.
(** The escape channels are those of dim_order_torus with two channels. *)
Lemma mt_escape : forall k n b r1 w dest u i vc ph, u <> dest -> b <= vc <= b + 1 ->
  dim_order_torus k n false r1 false ph (at_router b (b + 1) w dest u i vc) = let '(p, ph') := dor_next_torus k n false r1 false i ph u dest in Some ([esc b p ph'], ph').
Proof.
  intros k n b r1 w dest u i vc ph N V. unfold dim_order_torus. cbn [at_router ri_cur ri_in ri_src ri_dest ri_vc ri_b ri_e ri_inject]. rewrite mt_vc_ok by auto. cbn [negb]. destruct (dor_next_torus k n false r1 false i ph u dest) as [p ph']. destruct (Z.eqb_spec u dest); [contradiction|].
  replace ((b + 1 - b + 1) / 2) with 1 by (replace (b + 1 - b + 1) with 2 by lia; reflexivity). cbn [Z.leb Z.compare andb]. unfold esc. destruct (ph' =? 0); do 3 f_equal; unfold add_range; f_equal; lia.
Qed.

(** Adaptive channels first, and then the escape channels of a packet injected where the packet left the adaptive ones. *)
Definition mt_way (k : Z) (n : nat) (b : Z) (dest : Z) (l : list chan) (u : Z) (i : nat) (vc : Z) (ph : Z) : Prop :=
  ((i = (2 * n)%nat \/ vc = b + 3) /\ forall c, In c l -> snd c = b + 3) \/
  exists w l1 l2, on_grid k n w /\ l = l1 ++ l2 /\ (forall c, In c l1 -> snd c = b + 3) /\ gone (rf_torus k n false) k n b (b + 1) w dest l2 u i vc ph /\ (i < 2 * n)%nat.

Lemma mt_gone : forall k n b e src dest l u i vc ph, 1 <= k -> b + 3 <= e -> on_grid k n src -> on_grid k n dest -> gone (rf_mt k n) k n b e src dest l u i vc ph ->
  on_grid k n u /\ b <= vc <= e /\ Z.of_nat (length l) + torus_dist k n u dest = torus_dist k n src dest /\ mt_way k n b dest l u i vc ph.
Proof.
  intros k n b e src dest l u i vc ph Hk W Hs Hd G. induction G as [vc s V|l u i vc ph es ph' x p v j vc' G IH R X P V L].
  - split; auto. split; auto. split; [cbn [length]; lia|]. left. split; auto. intros c [].
  - destruct IH as [I1 [I2 [I3 I4]]]. destruct R as [r1 R]. pose proof (proj1 (linked_iff _ _ _ _ _ _ Hk) L) as [_ [Lp [Lv Lj]]]. assert (Hv : on_grid k n v) by (destruct L as [_ [L _]]; exact L). assert (Hj : (j < 2 * n)%nat) by (destruct (gone_in _ _ _ _ _ _ _ _ _ _ _ _ _ Hk (gone_hop _ _ _ _ _ _ _ _ _ _ _ _ _ _ _ _ _ _ _ G (ex_intro _ r1 R) X P V L)) as [[Q _]|[_ [Q _]]]; [exact Q|destruct l; discriminate]).
    rewrite mt_offer in R by auto. destruct (Z.eqb_spec u dest) as [E|N].
    { injection R as -> _. destruct X as [<-|[]]. cbn [o_port add_range] in P. lia. }
    rewrite app_length. cbn [length].
    destruct (is_ad n b e i vc) eqn:AD.
    + assert (A : forall c, In c l -> snd c = b + 3).
      { destruct I4 as [[_ A]|[w [l1 [l2 [Hw [_ [_ [Gt Hi]]]]]]]]; [exact A|exfalso]. destruct (C36_torus k n false b (b + 1) Hk ltac:(lia) w dest l2 u i vc ph Hw Hd Gt) as [_ [Q _]]. unfold is_ad in AD. destruct (Nat.eqb_spec i (2 * n)); [lia|]. apply Z.ltb_lt in AD. lia. }
      destruct (dor_next_torus k n false r1 false (2 * n) ph u dest) as [p0 ph0] eqn:DN. injection R as -> ->. destruct X as [<-|[<-|[]]].
      * cbn [adp o_port o_lo o_hi] in P, V. apply Nat2Z.inj in P. split; auto. split; [lia|].
        assert (GT : exists q, gone (rf_torus k n false) k n b (b + 1) u dest ([] ++ [(u, p, (if q =? 0 then b else b + 1))]) v j (if q =? 0 then b else b + 1) q).
        { change (n + (n + 0))%nat with (2 * n)%nat in P. revert P. destruct (dor_next_torus k n false false false (2 * n) 0 u dest) as [p1 q] eqn:DN1. intros P. cbn [fst] in P. subst p1. exists q. apply (gone_hop _ _ _ _ _ _ _ [] u (2 * n)%nat b 0 [esc b p q] q (esc b p q) p v j); [constructor; lia| |left; reflexivity|reflexivity|cbn; lia|exact L]. exists false, false. rewrite mt_escape by (auto; lia). rewrite DN1. reflexivity. }
        destruct GT as [q GT]. destruct (C36_torus k n false b (b + 1) Hk ltac:(lia) u dest _ _ _ _ _ I1 Hd GT) as [_ [_ [_ [Q _]]]]. cbn [app length] in Q. split; [lia|]. left. split; [right; lia|]. intros c Hc. apply in_app_or in Hc. destruct Hc as [Hc|[<-|[]]]; [auto|cbn [snd]; lia].
      * cbn [esc add_range o_port o_lo o_hi] in P, V. apply Nat2Z.inj in P. subst p0.
        assert (GT : gone (rf_torus k n false) k n b (b + 1) u dest ([] ++ [(u, p, vc')]) v j vc' ph0).
        { apply (gone_hop _ _ _ _ _ _ _ [] u (2 * n)%nat b ph [esc b p ph0] ph0 (esc b p ph0) p v j); [constructor; lia| |left; reflexivity|reflexivity|exact V|exact L]. exists r1, false. rewrite mt_escape by (auto; lia). rewrite DN. reflexivity. }
        destruct (C36_torus k n false b (b + 1) Hk ltac:(lia) u dest _ _ _ _ _ I1 Hd GT) as [_ [Q0 [_ [Q _]]]]. cbn [app length] in Q. split; auto. split; [lia|]. split; [lia|]. right. exists u, l, ([] ++ [(u, p, vc')]). auto.
    + destruct I4 as [[[-> | ->] _]|[w [l1 [l2 [Hw [-> [A [Gt Hi]]]]]]]].
      { unfold is_ad in AD. rewrite Nat.eqb_refl in AD. apply Z.ltb_ge in AD. lia. }
      { unfold is_ad in AD. destruct (Nat.eqb i (2 * n)); apply Z.ltb_ge in AD; lia. }
      destruct (C36_torus k n false b (b + 1) Hk ltac:(lia) w dest l2 u i vc ph Hw Hd Gt) as [_ [Q [_ [Q1 _]]]].
      destruct (dor_next_torus k n false r1 false i ph u dest) as [p0 ph0] eqn:DN. cbn [app] in R. injection R as -> ->. destruct X as [<-|[]]. cbn [esc add_range o_port o_lo o_hi] in P, V. apply Nat2Z.inj in P. subst p0.
      assert (GT : gone (rf_torus k n false) k n b (b + 1) w dest (l2 ++ [(u, p, vc')]) v j vc' ph0).
      { apply (gone_hop _ _ _ _ _ _ _ l2 u i vc ph [esc b p ph0] ph0 (esc b p ph0) p v j); [exact Gt| |left; reflexivity|reflexivity|exact V|exact L]. exists r1, false. rewrite mt_escape by (auto; lia). rewrite DN. reflexivity. }
      destruct (C36_torus k n false b (b + 1) Hk ltac:(lia) w dest _ _ _ _ _ Hw Hd GT) as [_ [Q2 [_ [Q3 _]]]]. rewrite app_length in Q3. cbn [length] in Q3. split; auto. split; [lia|]. split; [lia|]. right. exists w, l1, (l2 ++ [(u, p, vc')]). rewrite app_assoc. auto.
Qed.

(** The rank of the channels of dim_order_torus with two channels rises along every way. *)
Lemma two_ranks : forall k n b w dest l u i vc ph r1, 1 <= k -> on_grid k n w -> on_grid k n dest -> gone (rf_torus k n false) k n b (b + 1) w dest l u i vc ph -> u <> dest ->
  let '(p, ph0) := dor_next_torus k n false r1 false i ph u dest in let c := if ph0 =? 0 then b else b + 1 in
  forall c0, In c0 l -> trank k false (b + 1) c0 < trank k false (b + 1) (u, p, c).
Proof.
  intros k n b w dest l u i vc ph r1 Hk Hw Hd G Nu.
  assert (W : 2 <= b + 1 - b + 1) by lia. assert (H1 : (b + 1 - b + 1) / 2 = 1) by (replace (b + 1 - b + 1) with 2 by lia; reflexivity).
  destruct (guides_gone _ _ k n b (b + 1) _ _ _ _ _ _ _ _ _ _ _ Hk (torus_guides k n false b (b + 1) Hk W) Hw Hd G) as [I1 [I2 [_ [_ J]]]].
  destruct (torus_hop k n false r1 false w dest u i ph Hk I1 Hd Nu J) as [d [rt [ph1 [E [D1 [D2 [D3 [D4 [D5 D6]]]]]]]]]. rewrite E. cbv zeta. intros c Hc.
  set (p := if rt then (2 * d)%nat else (2 * d + 1)%nat).
  pose proof (gone_in _ _ _ _ _ _ _ _ _ _ _ _ _ Hk G) as GI. destruct GI as [[GI _]|[_ [-> _]]]; [|contradiction].
  assert (DV : Nat.div2 p = d) by (subst p; destruct rt; [apply div2_2|apply div2_21]).
  assert (EV : Nat.even p = rt) by (subst p; destruct rt; [apply even_2|apply even_21]).
  assert (TW : trank k false (b + 1) (u, p, if ph1 =? 0 then b else b + 1) = 2 * k * Z.of_nat d + crank k rt (wkind false rt ph1) (digit k d u)).
  { unfold trank. cbn [fst snd]. rewrite DV, EV. f_equal. f_equal. f_equal. destruct D2 as [->| ->]; cbn [Z.eqb]; [destruct (Z.ltb_spec b (b + 1))|destruct (Z.ltb_spec (b + 1) (b + 1))]; lia. }
  rewrite TW. pose proof (torus_inv k n false b (b + 1) w dest l u i vc ph Hk W Hw Hd G GI) as TI. cbn zeta in TI. rewrite H1 in TI.
  destruct (TI c Hc ltac:(lia)) as [TA TB].
  pose proof (crank_bound k rt (wkind false rt ph1) (digit k d u) (digit_bound k d u Hk)) as CBu.
  destruct D6 as [D6|[_ [D6|[D6 [D7 D8]]]]]; [lia|nia|]. rewrite D6, D8, <- D7 in TB. apply TB. exact D3.
Qed.
