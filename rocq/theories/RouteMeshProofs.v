From Coq Require Import ZArith Bool List Lia Arith Relations.
From Verif Require Import RouteModel RouteSpec RouteProofs.
Import ListNotations.
Open Scope Z_scope.

(** ** Deadlock freedom by ranks *)
Lemma rank_max : forall (A : Type) (rank : A -> Z) (l : list A), l <> [] -> exists m, In m l /\ forall x, In x l -> rank x <= rank m.
Proof.
  intros A rank l; induction l as [|a l IH]; intros H; [congruence|].
  destruct l as [|b l].
  - exists a. split; [left; auto|]. intros x [->|[]]; lia.
  - destruct IH as [m [M1 M2]]; [congruence|]. destruct (Z.le_gt_cases (rank a) (rank m)) as [L|L].
    + exists m. split; [right; auto|]. intros x [<-|Hx]; auto.
    + exists a. split; [left; auto|]. intros x [<-|Hx]; [lia|]. specialize (M2 x Hx). lia.
Qed.

Lemma no_deadlock : forall St (rf : rfun St) k n b e (good : chan -> bool) (rank : chan -> Z),
  (forall src dest l u i vc s es s', on_grid k n src -> on_grid k n dest -> gone rf k n b e src dest l u i vc s ->
     rf s (at_router b e src dest u i vc) (Some (es, s')) ->
     exists c, offers es u c /\ (snd (fst c) = (2 * n)%nat \/ good c = true /\ forall c0, In c0 l -> good c0 = true -> rank c0 < rank c)) ->
  forall D, ~ deadlock rf k n b e D.
Proof.
  intros St rf k n b e good rank H D [N [T [_ B]]]. rewrite Forall_forall in T.
  assert (S : forall p, In p D -> exists c, In c (flat_map (@pk_held St) D) /\ good c = true /\ forall c0, In c0 (pk_held p) -> good c0 = true -> rank c0 < rank c).
  { intros p Hp. destruct (T p Hp) as [G1 [G2 [G3 G4]]]. destruct (H _ _ _ _ _ _ _ _ _ G1 G2 G3 G4) as [c [O C]].
    destruct (B p c Hp O) as [B1 B2]. destruct C as [C|[C1 C2]]; [congruence|]. exists c. split; auto. split; auto.
    intros c0 Hc. apply C2. apply in_or_app. auto. }
  set (G := filter good (flat_map (@pk_held St) D)).
  assert (GN : G <> []).
  { destruct D as [|p D]; [congruence|]. destruct (S p) as [c [C1 [C2 _]]]; [left; auto|].
    intros E. assert (In c G) as HC by (apply filter_In; auto). rewrite E in HC. contradiction. }
  destruct (rank_max _ rank G GN) as [m [M1 M2]]. apply filter_In in M1. destruct M1 as [M1 M3].
  apply in_flat_map in M1. destruct M1 as [p [P1 P2]]. destruct (S p P1) as [c [C1 [C2 C3]]].
  specialize (C3 m P2 M3). assert (In c G) as HC by (apply filter_In; auto). specialize (M2 c HC). lia.
Qed.

(** ** Packets moving along productive ports *)
Definition steers {St} (rf : rfun St) (k : Z) (n : nat) (b e : Z) : Prop :=
  forall src dest u i vc s, on_grid k n dest -> on_grid k n u -> b <= vc <= e ->
    (exists r, rf s (at_router b e src dest u i vc) r) /\
    forall r, rf s (at_router b e src dest u i vc) r ->
      exists es s', r = Some (es, s') /\ es <> [] /\
        forall x, In x es -> b <= o_lo x <= o_hi x /\ o_hi x <= e /\
          if u =? dest then o_port x = Z.of_nat (2 * n) else exists p, o_port x = Z.of_nat p /\ productive k n u dest p.

Lemma steers_gone : forall St (rf : rfun St) k n b e src dest l u i vc s, 1 <= k -> steers rf k n b e -> on_grid k n src -> on_grid k n dest ->
  gone rf k n b e src dest l u i vc s ->
  on_grid k n u /\ b <= vc <= e /\ in_box k n src dest u /\ Z.of_nat (length l) + mesh_dist k n u dest = mesh_dist k n src dest.
Proof.
  intros St rf k n b e src dest l u i vc s Hk S Hs Hd G. induction G as [vc s V|l u i vc s es s' x p v j vc' G IH R X P V L].
  - split; auto. split; auto. split; [apply in_box_refl|]. cbn [length]. lia.
  - destruct IH as [I1 [I2 [I3 I4]]]. destruct (S src dest u i vc s Hd I1 I2) as [_ S2]. destruct (S2 _ R) as [es1 [s1 [E [_ S3]]]].
    injection E as <- <-. specialize (S3 x X). destruct S3 as [S3 [S4 S5]].
    destruct (Z.eqb_spec u dest) as [->|N].
    + rewrite S5 in P. apply Nat2Z.inj in P. apply linked_iff in L; auto. lia.
    + destruct S5 as [p' [P' PR]]. assert (p' = p) by lia. subst p'.
      destruct (productive_hop k n u dest p v j Hk PR L) as [D1 [D2 D3]].
      split; [destruct L as [_ [L _]]; exact L|]. split; [lia|]. split; [eapply in_box_trans; eauto|].
      rewrite app_length. cbn [length]. lia.
Qed.

Lemma steers_delivers : forall St (rf : rfun St) k n b e, 1 <= k -> steers rf k n b e ->
  delivers rf k n b e (mesh_dist k n) (in_box k n) (mesh_link k n).
Proof.
  intros St rf k n b e Hk S src dest l u i vc s Hs Hd G.
  destruct (steers_gone _ rf k n b e src dest l u i vc s Hk S Hs Hd G) as [I1 [I2 [I3 I4]]].
  destruct (S src dest u i vc s Hd I1 I2) as [S1 S2].
  split; auto. split; auto. split; auto. split; auto. split; auto.
  intros r R. destruct (S2 r R) as [es [s' [E [NE F]]]]. exists es, s'. split; auto. split; auto.
  intros x X. destruct (F x X) as [F1 [F2 F3]]. split; auto. split; auto. destruct (u =? dest); auto.
  destruct F3 as [p [P PR]]. pose proof (productive_lt _ _ _ _ _ PR) as PL.
  destruct (proj1 (wiring k n Hk) u p I1 PL) as [v [j L]]. exists p, v, j. split; auto. split; auto.
  apply (productive_hop k n u dest p v j Hk PR L).
Qed.

Ltac rsimp H := unfold at_router in H; cbn [ri_cur ri_in ri_src ri_dest ri_vc ri_b ri_e ri_inject orb negb] in H.

Lemma vc_ok : forall inj vc b e, b <= vc <= e -> vc_assert inj vc b e = true.
Proof. intros. unfold vc_assert. replace (b <=? vc) with true by lia. replace (vc <=? e) with true by lia. reflexivity. Qed.

Lemma pure_ex : forall f s x, exists r, rf_pure f s x r.
Proof. intros. eexists. reflexivity. Qed.

Lemma dor_port : forall k n u dest, 1 <= k -> on_grid k n u -> on_grid k n dest -> forall desc,
  if u =? dest then Z.of_nat (dor_next_mesh k n (k ^ Z.of_nat n) desc u dest) = Z.of_nat (2 * n)
  else exists p, Z.of_nat (dor_next_mesh k n (k ^ Z.of_nat n) desc u dest) = Z.of_nat p /\ productive k n u dest p.
Proof.
  intros k n u dest Hk Hu Hd desc. destruct (Z.eqb_spec u dest) as [->|N]; [rewrite dor_next_dest; reflexivity|].
  eexists. split; [reflexivity|]. apply dor_productive; auto.
Qed.

Lemma dor_steers : forall k n b e, 1 <= k -> steers (rf_dor k n) k n b e.
Proof.
  intros k n b e Hk src dest u i vc s Hd Hu V. split; [apply pure_ex|]. intros r R. unfold rf_dor, rf_pure, dim_order_mesh in R. rsimp R.
  rewrite vc_ok in R by auto. cbn [negb] in R. do 2 eexists. split; [exact R|]. split; [discriminate|].
  intros x [<-|[]]. cbn [o_lo o_hi o_port add_range]. split; [lia|]. split; [lia|]. apply dor_port; auto.
Qed.

Lemma div_room : forall N m, 1 <= m -> m <= N -> 1 <= N / m /\ m * (N / m) <= N.
Proof. intros N m H1 H2. split; [apply Z.div_le_lower_bound; lia|apply Z.mul_div_le; lia]. Qed.

Lemma ni_steers : forall k n b e, 1 <= k -> k ^ Z.of_nat n <= e - b + 1 -> steers (rf_ni k n) k n b e.
Proof.
  intros k n b e Hk W src dest u i vc s Hd Hu V. split; [apply pure_ex|]. intros r R. unfold rf_ni, rf_pure, dim_order_ni_mesh in R. rsimp R.
  rewrite vc_ok in R by auto. cbn [negb] in R. pose proof (pow_pos k n Hk) as P. destruct (div_room (e - b + 1) (k ^ Z.of_nat n) P W) as [D1 D2].
  pose proof (dor_port k n u dest Hk Hu Hd false) as PP.
  destruct (Z.eqb_spec u dest) as [E|N]; cbn [negb] in R.
  - do 2 eexists. split; [exact R|]. split; [discriminate|].
    intros x [<-|[]]. cbn [o_lo o_hi o_port add_range]. split; [lia|]. split; [lia|]. exact PP.
  - destruct (Z.leb_spec ((e - b + 1) / k ^ Z.of_nat n) 0) as [Q|Q]; [lia|].
    do 2 eexists. split; [exact R|]. split; [discriminate|].
    intros x [<-|[]]. cbn [o_lo o_hi o_port add_range]. unfold on_grid in Hd. split; [nia|]. split; [nia|]. exact PP.
Qed.

Lemma pni_steers : forall k n b e, 1 <= k -> k <= e - b + 1 -> steers (rf_pni k n) k n b e.
Proof.
  intros k n b e Hk W src dest u i vc s Hd Hu V. split; [apply pure_ex|]. intros r R. unfold rf_pni, rf_pure, dim_order_pni_mesh in R. rsimp R.
  rewrite vc_ok in R by auto. cbn [negb] in R. destruct (div_room (e - b + 1) k Hk W) as [D1 D2].
  pose proof (dor_port k n u dest Hk Hu Hd false) as PP.
  destruct (Z.eqb_spec u dest) as [E|N]; cbn [negb] in R.
  - do 2 eexists. split; [exact R|]. split; [discriminate|].
    intros x [<-|[]]. cbn [o_lo o_hi o_port add_range]. split; [lia|]. split; [lia|]. exact PP.
  - destruct (Z.leb_spec ((e - b + 1) / k) 0) as [Q|Q]; [lia|]. cbn zeta in R.
    match type of R with context [Nat.iter ?m ?f dest mod k] => set (y := Nat.iter m f dest) in *; pose proof (Z.mod_pos_bound y k ltac:(lia)) as MB end.
    do 2 eexists. split; [exact R|]. split; [discriminate|].
    intros x [<-|[]]. cbn [o_lo o_hi o_port add_range]. split; [nia|]. split; [nia|]. exact PP.
Qed.

Lemma xy_steers : forall k n b e, 1 <= k -> 2 <= e - b + 1 -> steers (rf_xy k n) k n b e.
Proof.
  intros k n b e Hk W src dest u i vc s Hd Hu V. split; [exists (match xy_yx_mesh k n (k ^ Z.of_nat n) true (at_router b e src dest u i vc) with Some es => Some (es, tt) | None => None end), true; reflexivity|].
  intros r [xy R]. unfold rf_pure, xy_yx_mesh in R. rsimp R.
  rewrite vc_ok in R by auto. cbn [negb] in R. destruct (div_room (e - b + 1) 2 ltac:(lia) W) as [D1 D2].
  destruct (Z.eqb_spec u dest) as [E|N].
  - do 2 eexists. split; [exact R|]. split; [discriminate|].
    intros x [<-|[]]. cbn [o_lo o_hi o_port add_range]. split; [lia|]. split; [lia|]. lia.
  - destruct (Z.leb_spec ((e - b + 1) / 2) 0) as [Q|Q]; [lia|].
    destruct (if Nat.ltb i (2 * n) then vc <? b + (e - b + 1) / 2 else xy).
    + do 2 eexists. split; [exact R|]. split; [discriminate|].
      intros x [<-|[]]. cbn [o_lo o_hi o_port add_range]. split; [lia|]. split; [lia|].
      eexists. split; [reflexivity|]. apply dor_productive; auto.
    + do 2 eexists. split; [exact R|]. split; [discriminate|].
      intros x [<-|[]]. cbn [o_lo o_hi o_port add_range]. split; [lia|]. split; [lia|].
      eexists. split; [reflexivity|]. apply dor_productive; auto.
Qed.

Lemma adapt_outs_ok : forall k m dim cur dest b e x, 1 <= k -> In x (adapt_outs k m dim cur dest b e) ->
  o_lo x = b + 1 /\ o_hi x = e /\ exists d, (d < m)%nat /\
    (o_port x = Z.of_nat (2 * (dim + d)) /\ digit k d cur < digit k d dest \/ o_port x = Z.of_nat (2 * (dim + d) + 1) /\ digit k d dest < digit k d cur).
Proof.
  intros k m; induction m as [|m IH]; intros dim cur dest b e x Hk H; cbn [adapt_outs] in H; [contradiction|].
  apply in_app_or in H. destruct H as [H|H].
  - destruct (Z.eqb_spec (cur mod k) (dest mod k)) as [E|E]; [contradiction|]. destruct H as [<-|[]]. cbn [o_lo o_hi o_port].
    split; auto. split; auto. exists 0%nat. split; [lia|]. rewrite !digit_0, Nat.add_0_r. destruct (Z.ltb_spec (cur mod k) (dest mod k)); [left|right]; split; auto; lia.
  - apply IH in H; auto. destruct H as [H1 [H2 [d [H3 H4]]]]. split; auto. split; auto. exists (S d). split; [lia|].
    rewrite !digit_S by auto. replace (dim + S d)%nat with (S dim + d)%nat by lia. exact H4.
Qed.

Lemma os_insert_in : forall x l y, In y (os_insert x l) -> y = x \/ In y l.
Proof.
  intros x l; induction l as [|z l IH]; intros y Y; cbn [os_insert] in Y; [destruct Y as [<-|[]]; auto|].
  destruct (o_pri z <? o_pri x); [destruct Y as [<-|Y]; auto|]. destruct (o_pri x <? o_pri z); [|auto].
  destruct Y as [<-|Y]; [right; left; auto|]. destruct (IH y Y) as [->|]; [auto|right; right; auto].
Qed.
Lemma os_insert_keep : forall x l y, In y l -> In y (os_insert x l).
Proof.
  intros x l; induction l as [|z l IH]; intros y Y; [contradiction|]. cbn [os_insert].
  destruct (o_pri z <? o_pri x); [right; auto|]. destruct (o_pri x <? o_pri z); [|auto]. destruct Y as [<-|Y]; [left; auto|right; auto].
Qed.
Lemma os_fold_in : forall l s y, In y (fold_left (fun s x => os_insert x s) l s) -> In y l \/ In y s.
Proof.
  intros l; induction l as [|x l IH]; intros s y Y; cbn [fold_left] in Y; [auto|]. apply IH in Y. destruct Y as [Y|Y]; [left; right; auto|].
  apply os_insert_in in Y. destruct Y as [->|Y]; [left; left; auto|auto].
Qed.
Lemma os_fold_keep : forall l s y, In y s -> In y (fold_left (fun s x => os_insert x s) l s).
Proof. intros l; induction l as [|x l IH]; intros s y Y; cbn [fold_left]; auto. apply IH, os_insert_keep; auto. Qed.
Lemma os_adds_in : forall l y, In y (os_adds l) -> In y l.
Proof. intros l y Y. apply os_fold_in in Y. destruct Y as [|[]]; auto. Qed.
Lemma os_adds_first : forall x l, In x (os_adds (x :: l)).
Proof. intros. unfold os_adds. cbn [fold_left os_insert]. apply os_fold_keep. left; auto. Qed.
Lemma os_adds_ne : forall x l, os_adds (x :: l) <> [].
Proof. intros x l E. pose proof (os_adds_first x l) as I. rewrite E in I. contradiction. Qed.

Lemma adapt_steers : forall k n e, 1 <= k -> 0 <= e -> steers (rf_adapt k n) k n 0 e.
Proof.
  intros k n e Hk W src dest u i vc s Hd Hu V. split; [apply pure_ex|]. intros r R. unfold rf_adapt, rf_pure, min_adapt_mesh in R. rsimp R.
  rewrite vc_ok in R by auto. cbn [negb] in R.
  destruct (Z.eqb_spec u dest) as [E|N].
  - do 2 eexists. split; [exact R|]. split; [discriminate|].
    intros x [<-|[]]. cbn [o_lo o_hi o_port add_range]. split; [lia|]. split; [lia|]. lia.
  - do 2 eexists. split; [exact R|]. split; [apply os_adds_ne|].
    intros x X. apply os_adds_in in X. destruct X as [<-|X].
    + cbn [o_lo o_hi o_port]. split; [lia|]. split; [lia|]. eexists. split; [reflexivity|]. apply dor_productive; auto.
    + match type of X with context [if ?c =? 0 then _ else _] => destruct (Z.eqb_spec c 0) as [Q|Q]; [contradiction|]; assert (1 <= e) by (destruct (Nat.eqb i (2 * n)); lia) end.
      apply adapt_outs_ok in X; auto. destruct X as [X1 [X2 [d [X3 X4]]]]. split; [lia|]. split; [lia|].
      destruct X4 as [[X4 X5]|[X4 X5]].
      * exists (2 * d)%nat. split; auto. exists d. auto.
      * exists (2 * d + 1)%nat. split; auto. exists d. auto.
Qed.

(** ** Ranks of mesh channels *)
Definition drank (k : Z) (desc : bool) (n : nat) (u : Z) (p : nat) : Z :=
  let d := Nat.div2 p in
  k * (if desc then Z.of_nat (n - 1 - d) else Z.of_nat d) + (if Nat.even p then digit k d u else k - 1 - digit k d u).

Lemma drank_step : forall k n desc u dest v q, 1 <= k -> on_grid k n dest -> u <> dest ->
  linked k n u (dor_next_mesh k n (k ^ Z.of_nat n) desc u dest) v q -> v <> dest ->
  drank k desc n u (dor_next_mesh k n (k ^ Z.of_nat n) desc u dest) < drank k desc n v (dor_next_mesh k n (k ^ Z.of_nat n) desc v dest).
Proof.
  intros k n desc u dest v q Hk Hd N L Nv. pose proof L as [Gu [Gv _]].
  destruct (dor_next_ok k n desc u dest Hk Gu Hd N) as [d [D1 [D2 [D3 D4]]]].
  destruct (dor_next_ok k n desc v dest Hk Gv Hd Nv) as [d' [D1' [D2' [D3' D4']]]].
  rewrite D3 in *. rewrite D3'. apply linked_moved in L; auto. destruct L as [x [[L1 [_ L]]|[L1 [_ L]]]].
  - assert (LT : digit k d u < digit k d dest).
    { destruct (Z.ltb_spec (digit k d u) (digit k d dest)); auto; lia. }
    replace (digit k d u <? digit k d dest) with true in * by lia. assert (x = d) by lia. subst x. clear L1.
    pose proof (digit_bound k d dest Hk) as Bd. rewrite Z.mod_small in L by (pose proof (digit_bound k d u Hk); lia).
    destruct L as [_ [L2 L3]]. unfold drank. rewrite div2_2, even_2.
    destruct (Nat.eq_dec d' d) as [->|ND].
    + replace (digit k d v <? digit k d dest) with true by lia. rewrite div2_2, even_2. lia.
    + pose proof (digit_bound k d u Hk). pose proof (digit_bound k d' v Hk).
      assert (HR : (if desc then Z.of_nat (n - 1 - d) else Z.of_nat d) + 1 <= (if desc then Z.of_nat (n - 1 - d') else Z.of_nat d')).
      { destruct desc.
        - destruct (Nat.lt_ge_cases d d') as [LL|LL]; [exfalso; apply D2'; rewrite L3 by lia; apply D4; lia|lia].
        - destruct (Nat.lt_ge_cases d' d) as [LL|LL]; [exfalso; apply D2'; rewrite L3 by lia; apply D4; lia|lia]. }
      destruct (digit k d' v <? digit k d' dest); rewrite ?div2_2, ?div2_21, ?even_2, ?even_21; nia.
  - assert (LT : digit k d dest < digit k d u).
    { destruct (Z.ltb_spec (digit k d u) (digit k d dest)); auto; lia. }
    replace (digit k d u <? digit k d dest) with false in * by lia. assert (x = d) by lia. subst x. clear L1.
    pose proof (digit_bound k d dest Hk) as Bd. rewrite Z.mod_small in L by (pose proof (digit_bound k d u Hk); lia).
    destruct L as [_ [L2 L3]]. unfold drank. rewrite div2_21, even_21.
    destruct (Nat.eq_dec d' d) as [->|ND].
    + replace (digit k d v <? digit k d dest) with false by lia. rewrite div2_21, even_21. lia.
    + pose proof (digit_bound k d u Hk). pose proof (digit_bound k d' v Hk).
      assert (HR : (if desc then Z.of_nat (n - 1 - d) else Z.of_nat d) + 1 <= (if desc then Z.of_nat (n - 1 - d') else Z.of_nat d')).
      { destruct desc.
        - destruct (Nat.lt_ge_cases d d') as [LL|LL]; [exfalso; apply D2'; rewrite L3 by lia; apply D4; lia|lia].
        - destruct (Nat.lt_ge_cases d' d) as [LL|LL]; [exfalso; apply D2'; rewrite L3 by lia; apply D4; lia|lia]. }
      destruct (digit k d' v <? digit k d' dest); rewrite ?div2_2, ?div2_21, ?even_2, ?even_21; nia.
Qed.

Lemma drank_bound : forall k n desc u p, 1 <= k -> (p < 2 * n)%nat -> 0 <= drank k desc n u p < k * Z.of_nat n.
Proof.
  intros k n desc u p Hk Hp. assert (Nat.div2 p < n)%nat by (destruct (mate_cases p) as [[_ [E _]]|[_ [E _]]]; lia).
  unfold drank. pose proof (digit_bound k (Nat.div2 p) u Hk). destruct desc, (Nat.even p); nia.
Qed.

(** The functions that always take the dimension-order port. *)
Definition dor_only {St} (rf : rfun St) (k : Z) (n : nat) (b e : Z) : Prop :=
  forall src dest u i vc s es s' x, u <> dest -> rf s (at_router b e src dest u i vc) (Some (es, s')) -> In x es ->
    o_port x = Z.of_nat (dor_next_mesh k n (k ^ Z.of_nat n) false u dest).

Lemma dor_only_no_deadlock : forall St (rf : rfun St) k n b e, 1 <= k -> steers rf k n b e -> dor_only rf k n b e ->
  forall D, ~ deadlock rf k n b e D.
Proof.
  intros St rf k n b e Hk S DO.
  apply no_deadlock with (good := fun _ => true) (rank := fun c => drank k false n (fst (fst c)) (snd (fst c))).
  intros src dest l u i vc s es s' Hs Hd G R.
  destruct (steers_gone _ rf k n b e _ _ _ _ _ _ _ Hk S Hs Hd G) as [I1 [I2 _]].
  destruct (S src dest u i vc s Hd I1 I2) as [_ S2]. destruct (S2 _ R) as [es1 [s1 [E [NE F]]]]. injection E as <- <-.
  destruct es as [|x es]; [congruence|]. destruct (F x (or_introl eq_refl)) as [F1 [F2 F3]].
  assert (INV : u <> dest -> forall c, In c l -> drank k false n (fst (fst c)) (snd (fst c)) < drank k false n u (dor_next_mesh k n (k ^ Z.of_nat n) false u dest)).
  { clear R S2 NE F F1 F2 F3 I1 I2. induction G as [|l u i vc s es0 s0 y p v j vc' G IH R X P V L]; intros N c Hc; [contradiction|].
    destruct (steers_gone _ rf k n b e _ _ _ _ _ _ _ Hk S Hs Hd G) as [I1 [I2 _]].
    destruct (Z.eq_dec u dest) as [Eu|Nu].
    { subst u. destruct (S src dest dest i vc s Hd I1 I2) as [_ S2]. destruct (S2 _ R) as [es1 [s1 [E [NE F]]]]. injection E as <- <-.
      destruct (F y X) as [_ [_ F3]]. rewrite Z.eqb_refl in F3. apply linked_iff in L; auto. destruct L as [_ [L _]]. lia. }
    pose proof (DO src dest u i vc s es0 s0 y Nu R X) as PP. assert (p = dor_next_mesh k n (k ^ Z.of_nat n) false u dest) by lia. subst p.
    pose proof (drank_step k n false u dest v j Hk Hd Nu L N) as ST.
    apply in_app_or in Hc. destruct Hc as [Hc|[<-|[]]]; [specialize (IH Nu c Hc); lia|exact ST]. }
  destruct (Z.eqb_spec u dest) as [Eu|Nu].
  - exists (u, (2 * n)%nat, o_lo x). split; [|left; reflexivity]. exists x, (2 * n)%nat, (o_lo x). repeat split; auto; try lia. left; auto.
  - pose proof (DO src dest u i vc s _ s' x Nu R (or_introl eq_refl)) as PP.
    exists (u, dor_next_mesh k n (k ^ Z.of_nat n) false u dest, o_lo x). split.
    + exists x, (dor_next_mesh k n (k ^ Z.of_nat n) false u dest), (o_lo x). split; [left; reflexivity|]. split; [exact PP|]. split; [lia|reflexivity].
    + right. split; [reflexivity|]. intros c0 Hc _. cbn [fst snd]. apply INV; auto.
Qed.

Lemma dor_dor_only : forall k n b e, dor_only (rf_dor k n) k n b e.
Proof.
  intros k n b e src dest u i vc s es s' x N R X. unfold rf_dor, rf_pure, dim_order_mesh in R. rsimp R.
  destruct (negb (vc_assert false vc b e)); [discriminate|]. injection R as -> _. destruct X as [<-|[]]. reflexivity.
Qed.

Lemma ni_dor_only : forall k n b e, dor_only (rf_ni k n) k n b e.
Proof.
  intros k n b e src dest u i vc s es s' x N R X. unfold rf_ni, rf_pure, dim_order_ni_mesh in R. rsimp R.
  destruct (negb (vc_assert false vc b e)); [discriminate|]. destruct (Z.eqb_spec u dest) as [E|_]; [congruence|]. cbn [negb] in R.
  destruct (_ <=? 0); [discriminate|]. injection R as -> _. destruct X as [<-|[]]. reflexivity.
Qed.

Lemma pni_dor_only : forall k n b e, dor_only (rf_pni k n) k n b e.
Proof.
  intros k n b e src dest u i vc s es s' x N R X. unfold rf_pni, rf_pure, dim_order_pni_mesh in R. rsimp R.
  destruct (negb (vc_assert false vc b e)); [discriminate|]. destruct (Z.eqb_spec u dest) as [E|_]; [congruence|]. cbn [negb] in R.
  destruct (_ <=? 0); [discriminate|]. injection R as -> _. destruct X as [<-|[]]. reflexivity.
Qed.

(** ** xy_yx_mesh and adaptive_xy_yx_mesh *)
Lemma gone_in : forall St (rf : rfun St) k n b e src dest l u i vc s, 1 <= k -> gone rf k n b e src dest l u i vc s ->
  (i < 2 * n)%nat /\ l <> [] \/ i = (2 * n)%nat /\ l = [] /\ u = src.
Proof.
  intros St rf k n b e src dest l u i vc s Hk G. destruct G as [|l u i vc s es s' x p v j vc' G R X P V L]; [right; auto|left].
  apply linked_iff in L; auto. destruct L as [_ [L [_ ->]]]. split; [apply mate_lt; auto|]. intros E. apply app_eq_nil in E. destruct E; discriminate.
Qed.

Lemma xy_case : forall k n b e xy s src dest u i vc es s', u <> dest ->
  rf_pure (xy_yx_mesh k n (k ^ Z.of_nat n) xy) s (at_router b e src dest u i vc) (Some (es, s')) ->
  1 <= (e - b + 1) / 2 /\
  es = [if (if Nat.ltb i (2 * n) then vc <? b + (e - b + 1) / 2 else xy)
        then add_range (Z.of_nat (dor_next_mesh k n (k ^ Z.of_nat n) false u dest)) b (e - (e - b + 1) / 2)
        else add_range (Z.of_nat (dor_next_mesh k n (k ^ Z.of_nat n) true u dest)) (b + (e - b + 1) / 2) e].
Proof.
  intros k n b e xy s src dest u i vc es s' N R. unfold rf_pure, xy_yx_mesh in R. rsimp R.
  destruct (vc_assert false vc b e); cbn [negb] in R; [|discriminate]. destruct (Z.eqb_spec u dest) as [E|_]; [congruence|].
  destruct (Z.leb_spec ((e - b + 1) / 2) 0) as [Q|Q]; [discriminate|].
  destruct (if Nat.ltb i (2 * n) then vc <? b + (e - b + 1) / 2 else xy); injection R as -> _; split; auto; lia.
Qed.

Lemma xy_inv : forall k n b e src dest l u i vc s, 1 <= k -> 2 <= e - b + 1 -> on_grid k n src -> on_grid k n dest ->
  gone (rf_xy k n) k n b e src dest l u i vc s -> u <> dest -> (i < 2 * n)%nat ->
  let h := b + (e - b + 1) / 2 in
  (vc < h -> forall c, In c l -> snd c < h /\ drank k false n (fst (fst c)) (snd (fst c)) < drank k false n u (dor_next_mesh k n (k ^ Z.of_nat n) false u dest)) /\
  (h <= vc -> forall c, In c l -> snd c < h \/ snd c <= e - (e - b + 1) / 2 \/
     drank k true n (fst (fst c)) (snd (fst c)) < drank k true n u (dor_next_mesh k n (k ^ Z.of_nat n) true u dest)).
Proof.
  intros k n b e src dest l u i vc s Hk W Hs Hd G. pose proof (div_room (e - b + 1) 2 ltac:(lia) W) as DR.
  induction G as [|l u i vc s es s' x p v j vc' G IH R X P V L]; intros N I h; [lia|].
  destruct (steers_gone _ _ k n b e _ _ _ _ _ _ _ Hk (xy_steers k n b e Hk W) Hs Hd G) as [I1 [I2 _]].
  assert (Nu : u <> dest).
  { intros ->. destruct (xy_steers k n b e Hk W src dest dest i vc s Hd I1 I2) as [_ S2]. destruct (S2 _ R) as [es1 [s1 [E [NE F]]]]. injection E as <- <-.
    destruct (F x X) as [_ [_ F3]]. rewrite Z.eqb_refl in F3. apply linked_iff in L; auto. destruct L as [_ [L _]]. lia. }
  destruct R as [xy R]. destruct (xy_case _ _ _ _ _ _ _ _ _ _ _ _ _ Nu R) as [H1 ->]. destruct X as [X|[]].
  pose proof (gone_in _ _ _ _ _ _ _ _ _ _ _ _ _ Hk G) as GI.
  destruct (Nat.ltb_spec i (2 * n)) as [LI|LI].
  - specialize (IH Nu LI). cbn zeta in IH. destruct IH as [IHl IHh]. fold h in IHl, IHh, X.
    destruct (Z.ltb_spec vc h) as [LV|LV]; subst x; cbn [o_port o_lo o_hi add_range] in P, V; apply Nat2Z.inj in P; subst p.
    + specialize (IHl LV). split.
      * intros LV' c Hc. pose proof (drank_step k n false u dest v j Hk Hd Nu L N) as ST. apply in_app_or in Hc. destruct Hc as [Hc|[<-|[]]].
        -- destruct (IHl c Hc). lia.
        -- cbn [fst snd]. lia.
      * intros LV' c Hc. apply in_app_or in Hc. destruct Hc as [Hc|[<-|[]]].
        -- destruct (IHl c Hc). auto.
        -- cbn [fst snd]. right. left. lia.
    + split; [intros; lia|]. intros _ c Hc. pose proof (drank_step k n true u dest v j Hk Hd Nu L N) as ST. apply in_app_or in Hc. destruct Hc as [Hc|[<-|[]]].
      * destruct (IHh LV c Hc) as [Q|[Q|Q]]; [left; auto|right; left; auto|right; right; lia].
      * cbn [fst snd]. right. right. lia.
  - destruct GI as [[GI _]|[_ [-> _]]]; [lia|]. fold h in X. destruct xy; subst x; cbn [o_port o_lo o_hi add_range] in P, V; apply Nat2Z.inj in P; subst p.
    + split; intros LV' c [<-|[]]; cbn [fst snd].
      * split; auto. apply drank_step with (q := j); auto.
      * right. left. lia.
    + split; intros LV' c [<-|[]]; cbn [fst snd]; [lia|]. right. right. apply drank_step with (q := j); auto.
Qed.

Lemma xy_no_deadlock : forall k n b e D, 1 <= k -> 2 <= e - b + 1 -> ~ deadlock (rf_xy k n) k n b e D.
Proof.
  intros k n b e D Hk W. revert D. pose proof (div_room (e - b + 1) 2 ltac:(lia) W) as DR.
  set (h := b + (e - b + 1) / 2). set (m := e - (e - b + 1) / 2).
  apply no_deadlock with (good := fun c => (snd c <? h) || (m <? snd c))
    (rank := fun c => if snd c <? h then drank k false n (fst (fst c)) (snd (fst c)) else k * Z.of_nat n + drank k true n (fst (fst c)) (snd (fst c))).
  intros src dest l u i vc s es s' Hs Hd G R.
  destruct (steers_gone _ _ k n b e _ _ _ _ _ _ _ Hk (xy_steers k n b e Hk W) Hs Hd G) as [I1 [I2 _]].
  destruct (Z.eqb_spec u dest) as [Eu|Nu].
  { destruct (xy_steers k n b e Hk W src dest u i vc s Hd I1 I2) as [_ S2]. destruct (S2 _ R) as [es1 [s1 [E [NE F]]]]. injection E as <- <-.
    destruct es as [|x es]; [congruence|]. destruct (F x (or_introl eq_refl)) as [F1 [F2 F3]]. rewrite Eu, Z.eqb_refl in F3.
    exists (u, (2 * n)%nat, o_lo x). split; [|left; reflexivity]. exists x, (2 * n)%nat, (o_lo x). repeat split; auto; try lia. left; auto. }
  pose proof (gone_in _ _ _ _ _ _ _ _ _ _ _ _ _ Hk G) as GI.
  assert (PB : forall c, In c l -> (snd (fst c) < 2 * n)%nat).
  { clear - G Hk. induction G as [|l u i vc s es0 s0 y p v j vc' G IH R X P V L]; intros c Hc; [contradiction|]. apply in_app_or in Hc.
    destruct Hc as [Hc|[<-|[]]]; auto. cbn [fst snd]. apply linked_iff in L; auto. tauto. }
  destruct R as [xy R]. destruct (xy_case _ _ _ _ _ _ _ _ _ _ _ _ _ Nu R) as [H1 ->].
  destruct (if Nat.ltb i (2 * n) then vc <? b + (e - b + 1) / 2 else xy) eqn:C.
  - exists (u, dor_next_mesh k n (k ^ Z.of_nat n) false u dest, b). split.
    + eexists. exists (dor_next_mesh k n (k ^ Z.of_nat n) false u dest), b. split; [left; reflexivity|]. cbn [o_port o_lo o_hi add_range]. split; auto. split; [lia|reflexivity].
    + right. cbn [fst snd]. assert (HB : (b <? h) = true) by (unfold h; lia). rewrite HB. split; auto. intros c0 Hc _.
      destruct GI as [[GI _]|[_ [-> _]]]; [|contradiction]. replace (Nat.ltb i (2 * n)) with true in C by (symmetry; apply Nat.ltb_lt; auto).
      destruct (xy_inv k n b e _ _ _ _ _ _ _ Hk W Hs Hd G Nu GI) as [X1 _]. destruct (X1 ltac:(lia) c0 Hc) as [X2 X3]. fold h in X2.
      replace (snd c0 <? h) with true by lia. exact X3.
  - exists (u, dor_next_mesh k n (k ^ Z.of_nat n) true u dest, e). split.
    + eexists. exists (dor_next_mesh k n (k ^ Z.of_nat n) true u dest), e. split; [left; reflexivity|]. cbn [o_port o_lo o_hi add_range]. split; auto. split; [lia|reflexivity].
    + right. cbn [fst snd]. assert (HB : (e <? h) = false) by (unfold h; lia). assert (HM : (m <? e) = true) by (unfold m; lia). rewrite HB, HM.
      split; auto. intros c0 Hc GC.
      assert (PU : (dor_next_mesh k n (k ^ Z.of_nat n) true u dest < 2 * n)%nat) by (eapply productive_lt; apply dor_productive; auto).
      pose proof (drank_bound k n true u _ Hk PU). pose proof (drank_bound k n false (fst (fst c0)) _ Hk (PB c0 Hc)).
      destruct (Z.ltb_spec (snd c0) h) as [LC|LC]; [lia|]. cbn [orb] in GC.
      destruct GI as [[GI _]|[_ [-> _]]]; [|contradiction]. replace (Nat.ltb i (2 * n)) with true in C by (symmetry; apply Nat.ltb_lt; auto).
      destruct (xy_inv k n b e _ _ _ _ _ _ _ Hk W Hs Hd G Nu GI) as [_ X1]. destruct (X1 ltac:(lia) c0 Hc) as [X|[X|X]]; fold h m in X; lia.
Qed.

(** ** min_adapt_mesh with one type of packet *)
Lemma adapt_case : forall k n e s src dest u i vc es s', u <> dest ->
  rf_adapt k n s (at_router 0 e src dest u i vc) (Some (es, s')) ->
  es = os_adds ({| o_port := Z.of_nat (dor_next_mesh k n (k ^ Z.of_nat n) false u dest); o_lo := 0; o_hi := 0; o_pri := 0 |}
       :: if (if Nat.eqb i (2 * n) then e else vc) =? 0 then [] else adapt_outs k n 0 u dest 0 e).
Proof.
  intros k n e s src dest u i vc es s' N R. unfold rf_adapt, rf_pure, min_adapt_mesh in R. rsimp R.
  destruct (vc_assert false vc 0 e); cbn [negb] in R; [|discriminate]. destruct (Z.eqb_spec u dest) as [E|_]; [congruence|].
  injection R as -> _. reflexivity.
Qed.

Lemma adapt_inv : forall k n e src dest l u i vc s, 1 <= k -> 0 <= e -> on_grid k n src -> on_grid k n dest ->
  gone (rf_adapt k n) k n 0 e src dest l u i vc s -> u <> dest -> (i < 2 * n)%nat -> forall c, In c l -> snd c = 0 ->
  vc = 0 /\ drank k false n (fst (fst c)) (snd (fst c)) < drank k false n u (dor_next_mesh k n (k ^ Z.of_nat n) false u dest).
Proof.
  intros k n e src dest l u i vc s Hk W Hs Hd G.
  induction G as [|l u i vc s es s' x p v j vc' G IH R X P V L]; intros N I c Hc C0; [contradiction|].
  destruct (steers_gone _ _ k n 0 e _ _ _ _ _ _ _ Hk (adapt_steers k n e Hk W) Hs Hd G) as [I1 [I2 _]].
  assert (Nu : u <> dest).
  { intros ->. destruct (adapt_steers k n e Hk W src dest dest i vc s Hd I1 I2) as [_ S2]. destruct (S2 _ R) as [es1 [s1 [E [NE F]]]]. injection E as <- <-.
    destruct (F x X) as [_ [_ F3]]. rewrite Z.eqb_refl in F3. apply linked_iff in L; auto. destruct L as [_ [L _]]. lia. }
  rewrite (adapt_case _ _ _ _ _ _ _ _ _ _ _ Nu R) in X. apply os_adds_in in X. pose proof (gone_in _ _ _ _ _ _ _ _ _ _ _ _ _ Hk G) as GI.
  apply in_app_or in Hc. destruct Hc as [Hc|[<-|[]]].
  - destruct GI as [[GI _]|[_ [-> _]]]; [|contradiction]. destruct (IH Nu GI c Hc C0) as [-> D].
    replace (Nat.eqb i (2 * n)) with false in X by (symmetry; apply Nat.eqb_neq; lia). cbn [Z.eqb] in X.
    destruct X as [<-|[]]. cbn [o_port o_lo o_hi] in P, V. apply Nat2Z.inj in P. subst p. split; [lia|].
    pose proof (drank_step k n false u dest v j Hk Hd Nu L N). lia.
  - cbn [fst snd] in *. subst vc'. destruct X as [<-|X].
    + cbn [o_port o_lo o_hi] in P, V. apply Nat2Z.inj in P. subst p. split; auto. apply drank_step with (q := j); auto.
    + destruct (_ =? 0) in X; [contradiction|]. apply adapt_outs_ok in X; auto. lia.
Qed.

Lemma adapt_no_deadlock : forall k n e D, 1 <= k -> 0 <= e -> ~ deadlock (rf_adapt k n) k n 0 e D.
Proof.
  intros k n e D Hk W. revert D.
  apply no_deadlock with (good := fun c => snd c =? 0) (rank := fun c => drank k false n (fst (fst c)) (snd (fst c))).
  intros src dest l u i vc s es s' Hs Hd G R.
  destruct (steers_gone _ _ k n 0 e _ _ _ _ _ _ _ Hk (adapt_steers k n e Hk W) Hs Hd G) as [I1 [I2 _]].
  destruct (Z.eqb_spec u dest) as [Eu|Nu].
  { destruct (adapt_steers k n e Hk W src dest u i vc s Hd I1 I2) as [_ S2]. destruct (S2 _ R) as [es1 [s1 [E [NE F]]]]. injection E as <- <-.
    destruct es as [|x es]; [congruence|]. destruct (F x (or_introl eq_refl)) as [F1 [F2 F3]]. rewrite Eu, Z.eqb_refl in F3.
    exists (u, (2 * n)%nat, o_lo x). split; [|left; reflexivity]. exists x, (2 * n)%nat, (o_lo x). repeat split; auto; try lia. left; auto. }
  rewrite (adapt_case _ _ _ _ _ _ _ _ _ _ _ Nu R). clear R es.
  exists (u, dor_next_mesh k n (k ^ Z.of_nat n) false u dest, 0). split.
  - eexists. exists (dor_next_mesh k n (k ^ Z.of_nat n) false u dest), 0. split; [apply os_adds_first|]. cbn [o_port o_lo o_hi]. split; auto. split; [lia|reflexivity].
  - right. cbn [fst snd]. split; auto. intros c0 Hc GC. pose proof (gone_in _ _ _ _ _ _ _ _ _ _ _ _ _ Hk G) as GI.
    destruct GI as [[GI _]|[_ [-> _]]]; [|contradiction]. apply (adapt_inv k n e _ _ _ _ _ _ _ Hk W Hs Hd G Nu GI c0 Hc). lia.
Qed.

(** The set is sorted, and each of its elements is the first that was added with its priority. *)
Fixpoint falling (l : list oelem) : Prop :=
  match l with [] => True | x :: r => (forall y, In y r -> o_pri y < o_pri x) /\ falling r end.
Lemma os_insert_falling : forall x l, falling l -> falling (os_insert x l).
Proof.
  intros x l; induction l as [|z l IH]; intros F; [split; [intros ? []|exact I]|]. cbn [os_insert]. destruct F as [F1 F2].
  destruct (Z.ltb_spec (o_pri z) (o_pri x)) as [L|L].
  - split; [|split; auto]. intros y [<-|Y]; auto. specialize (F1 y Y). lia.
  - destruct (Z.ltb_spec (o_pri x) (o_pri z)) as [M|M]; [|split; auto]. split; [|auto]. intros y Y. apply os_insert_in in Y. destruct Y as [->|Y]; auto.
Qed.
Lemma os_insert_new : forall x l y, falling l -> In y l -> o_pri y = o_pri x -> os_insert x l = l.
Proof.
  intros x l; induction l as [|z l IH]; intros y F Y E; [contradiction|]. cbn [os_insert]. destruct F as [F1 F2].
  destruct Y as [->|Y].
  - replace (o_pri y <? o_pri x) with false by lia. replace (o_pri x <? o_pri y) with false by lia. auto.
  - specialize (F1 y Y). replace (o_pri z <? o_pri x) with false by lia. replace (o_pri x <? o_pri z) with true by lia. f_equal. eapply IH; eauto.
Qed.
Lemma os_fold_first : forall l s x, falling s -> In x (fold_left (fun s x => os_insert x s) l s) -> In x s \/
  exists l1 l2, l = l1 ++ x :: l2 /\ (forall y, In y l1 -> o_pri y <> o_pri x) /\ forall y, In y s -> o_pri y <> o_pri x.
Proof.
  intros l; induction l as [|a l IH]; intros s x F X; cbn [fold_left] in X; [auto|].
  destruct (IH (os_insert a s) x (os_insert_falling a s F) X) as [Y|[l1 [l2 [E [N1 N2]]]]].
  - destruct (Exists_dec (fun z => o_pri z = o_pri a) s (fun z => Z.eq_dec _ _)) as [EX|NE].
    + apply Exists_exists in EX. destruct EX as [z [Z1 Z2]]. rewrite (os_insert_new a s z F Z1 Z2) in Y. auto.
    + apply os_insert_in in Y. destruct Y as [->|Y]; [|auto]. right. exists [], l. split; [reflexivity|]. split; [intros ? []|].
      intros y Y E. apply NE, Exists_exists. exists y; auto.
  - right. exists (a :: l1), l2. subst l. split; [reflexivity|]. split.
    + intros y [<-|Y]; [|auto]. destruct (Exists_dec (fun z => o_pri z = o_pri a) s (fun z => Z.eq_dec _ _)) as [EX|NE].
      * apply Exists_exists in EX. destruct EX as [z [Z1 Z2]]. rewrite <- Z2. apply N2, os_insert_keep; auto.
      * apply N2. clear - NE. induction s as [|z s IH]; [left; auto|]. cbn [os_insert].
        destruct (Z.ltb_spec (o_pri z) (o_pri a)); [left; auto|]. destruct (Z.ltb_spec (o_pri a) (o_pri z)).
        -- right. apply IH. intros E. apply NE. right; auto.
        -- exfalso. apply NE. left. lia.
    + intros y Y. apply N2, os_insert_keep; auto.
Qed.
Lemma os_adds_sole : forall l x, In x (os_adds l) -> exists l1 l2, l = l1 ++ x :: l2 /\ forall y, In y l1 -> o_pri y <> o_pri x.
Proof.
  intros l x X. destruct (os_fold_first l [] x I X) as [[]|[l1 [l2 [E [N _]]]]]. exists l1, l2. auto.
Qed.

Lemma adapt_outs_pri : forall k m dim cur dest b e x, In x (adapt_outs k m dim cur dest b e) -> o_pri x = 1.
Proof.
  intros k m; induction m as [|m IH]; intros dim cur dest b e x X; cbn [adapt_outs] in X; [contradiction|].
  apply in_app_or in X. destruct X as [X|X]; [|eapply IH; eauto]. destruct (_ =? _); [contradiction|]. destruct X as [<-|[]]; reflexivity.
Qed.
Lemma adapt_outs_head : forall k m dim cur dest b e x r, adapt_outs k m dim cur dest b e = x :: r ->
  let '(d, c, c') := dor_asc k (m - 1) dim cur dest in o_port x = Z.of_nat (if c <? c' then 2 * d else 2 * d + 1).
Proof.
  intros k m; induction m as [|m IH]; intros dim cur dest b e x r E; cbn [adapt_outs] in E; [discriminate|].
  destruct (Z.eqb_spec (cur mod k) (dest mod k)) as [Q|Q].
  - cbn [app] in E. destruct m as [|m]; [discriminate|]. replace (S (S m) - 1)%nat with (S m) by lia. cbn [dor_asc]. rewrite Q, Z.eqb_refl. cbn [negb].
    specialize (IH (S dim) (cur / k) (dest / k) b e x r E). replace (S m - 1)%nat with m in IH by lia. exact IH.
  - cbn [app] in E. injection E as <- _. cbn [o_port]. replace (S m - 1)%nat with m by lia. destruct m as [|m]; cbn [dor_asc]; [reflexivity|].
    destruct (Z.eqb_spec (cur mod k) (dest mod k)) as [?|_]; [contradiction|]. reflexivity.
Qed.
Lemma adapt_one_port : forall k n nodes x es y, min_adapt_mesh k n nodes x = Some es -> ri_inject x = false -> ri_cur x <> ri_dest x -> In y es ->
  o_port y = Z.of_nat (dor_next_mesh k n nodes false (ri_cur x) (ri_dest x)).
Proof.
  intros k n nodes x es y E I N Y. unfold min_adapt_mesh in E. rewrite I in E. destruct (vc_assert _ _ _ _); [|discriminate]. cbn [negb] in E.
  destruct (Z.eqb_spec (ri_cur x) (ri_dest x)) as [?|_]; [contradiction|]. injection E as <-. apply os_adds_sole in Y. destruct Y as [l1 [l2 [E P]]].
  destruct l1 as [|z l1]; [injection E as <- _; reflexivity|]. injection E as <- E. destruct (_ =? _) in E; [destruct l1; discriminate|].
  assert (Y1 : o_pri y = 1) by (eapply adapt_outs_pri; rewrite E; apply in_or_app; right; left; reflexivity).
  destruct l1 as [|w l1].
  - cbn [app] in E. apply adapt_outs_head in E. unfold dor_next_mesh. replace (ri_cur x =? ri_dest x) with false by lia.
    destruct (dor_asc k (n - 1) 0 (ri_cur x) (ri_dest x)) as [[d c] c']. rewrite E. destruct (c <? c'); reflexivity.
  - exfalso. apply (P w); [right; left; auto|]. rewrite Y1. eapply adapt_outs_pri. rewrite E. left; reflexivity.
Qed.
