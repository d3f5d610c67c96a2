(** Packets that keep to one virtual channel and one output per router have one way through a mesh. *)
From Coq Require Import ZArith Arith Bool List Lia Permutation.
From Verif Require Import Fupd AllocModel AllocSpec BufferModel RouteModel RouteSpec RouteProofs ChannelModel IqRouterModel IqRouterSpec NetModel NetSpec NetMeshModel NetMeshSpec NetMeshProofs.
Import ListNotations.
Open Scope nat_scope.

Section Gone.
Variables (rf : rfun unit) (k : Z) (n : nat) (b : Z) (src dest : Z) (port : Z -> Z -> nat).
Hypothesis K : (1 <= k)%Z.
Hypothesis PORT : forall u i vc es s x, rf tt (at_router b b src dest u i vc) (Some (es, s)) -> In x es -> o_port x = Z.of_nat (port u dest).
Hypothesis OWN : forall l u i vc, gone rf k n b b src dest l u i vc tt -> vc = b.
Let gn l u i := gone rf k n b b src dest l u i b tt.

Lemma gone_last : forall l u i vc, gone rf k n b b src dest l u i vc tt ->
  (l = [] /\ u = src /\ i = 2 * n) \/ (exists l' u' i', l = l' ++ [(u', port u' dest, b)] /\ gn l' u' i' /\ linked k n u' (port u' dest) u i).
Proof.
  intros l u i vc G. pose proof (OWN _ _ _ _ G) as ->. inversion G as [vc s B | l0 u0 i0 vc0 s0 es s' x p v j vc' G0 R Hx Hp Hv Lk]; subst; [auto|]. right.
  destruct s0. pose proof (OWN _ _ _ _ G0) as ->. pose proof (PORT _ _ _ _ _ _ R Hx) as E. assert (p = port u0 dest) by lia. subst p. exists l0, u0, i0. auto.
Qed.
Lemma gone_pre : forall l2 l1 u i, gn (l1 ++ l2) u i -> exists u' i', gn l1 u' i'.
Proof.
  intros l2. induction l2 as [|a l2 IH] using rev_ind; intros l1 u i G; [rewrite app_nil_r in G; eauto|]. rewrite app_assoc in G.
  destruct (gone_last _ _ _ _ G) as [[E _]|[l' [u' [i' [E [G' _]]]]]]; [destruct (l1 ++ l2); discriminate|]. apply app_inj_tail in E. destruct E as [<- _]. eauto.
Qed.
Lemma gone_det : forall m l1 l2 u1 i1 u2 i2, length l1 = m -> length l2 = m -> gn l1 u1 i1 -> gn l2 u2 i2 -> l1 = l2 /\ u1 = u2 /\ i1 = i2.
Proof.
  intros m. induction m as [|m IH]; intros l1 l2 u1 i1 u2 i2 L1 L2 G1 G2;
    destruct (gone_last _ _ _ _ G1) as [[E1 [E1' E1'']]|[m1 [v1 [j1 [E1 [H1 K1]]]]]], (gone_last _ _ _ _ G2) as [[E2 [E2' E2'']]|[m2 [v2 [j2 [E2 [H2 K2]]]]]]; subst;
    try (rewrite app_length in *; cbn in *; lia); try (cbn in *; lia); auto.
  rewrite app_length in *. cbn in *. assert (A1 : length m1 = m) by lia. assert (A2 : length m2 = m) by lia. destruct (IH m1 m2 v1 j1 v2 j2 A1 A2 H1 H2) as [-> [-> ->]]. split; auto.
  apply linked_iff in K1, K2; auto. destruct K1 as [_ [_ [-> ->]]], K2 as [_ [_ [-> ->]]]. auto.
Qed.
(** A shorter way is a beginning of a longer one. *)
Lemma gone_prefix : forall l1 l2 u1 i1 u2 i2, gn l1 u1 i1 -> gn l2 u2 i2 -> length l1 <= length l2 -> exists q, l2 = l1 ++ q.
Proof.
  intros l1 l2 u1 i1 u2 i2 G1 G2 L. rewrite <- (firstn_skipn (length l1) l2) in G2. destruct (gone_pre _ _ _ _ G2) as [u' [i' G']].
  destruct (gone_det (length l1) l1 (firstn (length l1) l2) _ _ _ _ eq_refl ltac:(apply firstn_length_le; auto) G1 G') as [E _].
  exists (skipn (length l1) l2). rewrite E at 1. symmetry. apply firstn_skipn.
Qed.
End Gone.

Section Way.
Variables (k : Z) (n : nat) (mesh nl : bool) (b : bcfg) (rd : bool) (cd ob : Z) (rf : rfun unit) (T : traffic) (dist : Z -> Z -> Z) (box : Z -> Z -> Z -> Prop) (lk : Z -> Z -> Prop) (port : Z -> Z -> nat).
Hypothesis K : (1 <= k)%Z.
Let w := cube mesh nl k n b rd cd ob.
Let size := Z.to_nat (powi k n).
Let ok := head_ok rf k n T (bc_vcs b).
Hypothesis PORT : forall x es s e, ri_inject x = false -> rf tt x (Some (es, s)) -> In e es -> o_port e = Z.of_nat (port (ri_cur x) (ri_dest x)).
Hypothesis D0 : forall a c, on_grid k n a -> on_grid k n c -> (0 <= dist a c)%Z.
Hypothesis D1 : forall a, on_grid k n a -> dist a a = 0%Z.

Variables (flow : Z -> nat) (q m d v : nat).
Hypothesis FLOW : forall id, flow id = q -> y_src T id = m /\ y_dest T id = d /\ y_b T id = v /\ y_e T id = v.
Hypothesis DV : delivers rf k n (Z.of_nat v) (Z.of_nat v) dist box lk.
Hypothesis M : m < size.
Hypothesis D : d < size.
Let Gm : on_grid k n (Z.of_nat m) := proj1 (grid_nat k n K m) M.
Let Gd : on_grid k n (Z.of_nat d) := proj1 (grid_nat k n K d) D.
Let gn l u i := gone rf k n (Z.of_nat v) (Z.of_nat v) (Z.of_nat m) (Z.of_nat d) l u i (Z.of_nat v) tt.

Lemma own_vc : forall l u i vc, gone rf k n (Z.of_nat v) (Z.of_nat v) (Z.of_nat m) (Z.of_nat d) l u i vc tt -> vc = Z.of_nat v.
Proof. intros l u i vc G. destruct (DV _ _ _ _ _ _ _ Gm Gd G) as [_ [E _]]. lia. Qed.
Lemma own_port : forall u i vc es s x, rf tt (at_router (Z.of_nat v) (Z.of_nat v) (Z.of_nat m) (Z.of_nat d) u i vc) (Some (es, s)) -> In x es -> o_port x = Z.of_nat (port u (Z.of_nat d)).
Proof. intros u i vc es s x R Hx. refine (PORT _ _ _ _ _ R Hx). reflexivity. Qed.

Lemma whole_way : exists L i, gn L (Z.of_nat d) i.
Proof.
  assert (A : forall N l u i, gn l u i -> Z.to_nat (dist u (Z.of_nat d)) <= N -> exists L i, gn L (Z.of_nat d) i).
  { intros N. induction N as [|N IH]; intros l u i G HN; destruct (DV _ _ _ _ _ _ _ Gm Gd G) as [Gu [_ [_ [El [[res R] Dr]]]]]; destruct (Dr res R) as [es [[] [-> [NE X]]]]; destruct es as [|x es]; try congruence;
      specialize (X x (or_introl eq_refl)); destruct X as [B1 [B2 X]]; destruct (Z.eqb_spec u (Z.of_nat d)) as [->|Ne]; eauto; destruct X as [p [u' [j [Ep [Lk _]]]]];
      assert (G' : gn (l ++ [(u, p, Z.of_nat v)]) u' j) by (eapply gone_hop; [exact G|exact R|left; reflexivity|exact Ep|lia|exact Lk]);
      destruct (DV _ _ _ _ _ _ _ Gm Gd G') as [Gu' [_ [_ [El' _]]]]; rewrite app_length in El'; cbn [length] in El'; pose proof (D0 u' _ Gu' Gd).
    - lia.
    - apply (IH _ _ _ G'). lia. }
  apply (A _ [] (Z.of_nat m) (2 * n) ltac:(apply gone_nil; lia) (le_n _)).
Qed.

Definition step (c : RouteSpec.chan) : cid * nat := (cube_out n (Z.to_nat (fst (fst c))) (snd (fst c)), Z.to_nat (snd c)).
Definition way_of (L : list RouteSpec.chan) : list (cid * nat) := (Inj m, v) :: map step L ++ [(Ej d, v)].

Lemma nth_split2 : forall A (l : list A) j a, nth_error l j = Some a -> exists l1 l2, l = l1 ++ a :: l2 /\ length l1 = j.
Proof. intros. apply nth_error_split. auto. Qed.

Lemma way_at : forall L I, gn L (Z.of_nat d) I -> forall j, j <= length L ->
  exists u i a, gn (firstn j L) (Z.of_nat u) i /\ nth_error (way_of L) j = Some a /\ w_snk w (fst a) = Some (u, i) /\
    exists o c, nth_error (way_of L) (S j) = Some c /\ w_src w (fst c) = Some (u, o).
Proof.
  intros L I G j Hj. rewrite <- (firstn_skipn j L) in G. destruct (gone_pre _ _ _ _ _ _ _ own_port own_vc _ _ _ _ G) as [u [i Gu]]. rewrite (firstn_skipn j L) in G.
  destruct (DV _ _ _ _ _ _ _ Gm Gd Gu) as [Gru _]. destruct (grid_back k n K u Gru) as [Eu Lu]. exists (Z.to_nat u), i.
  assert (S1 : exists a, nth_error (way_of L) j = Some a /\ w_snk w (fst a) = Some (Z.to_nat u, i)).
  { destruct (gone_last _ _ _ _ _ _ _ own_port own_vc _ _ _ _ Gu) as [[E [E1 E2]]|[l' [u' [i' [E [G' Lk]]]]]].
    - assert (j = 0) by (apply (f_equal (@length _)) in E; rewrite firstn_length_le in E by auto; exact E). subst j. exists (Inj m, v). split; auto. apply cube_snk; auto. subst u i. rewrite Nat2Z.id.
      split; auto. split; [lia|]. apply cube_in_ge. auto.
    - assert (Ej : j = S (length l')). { apply (f_equal (@length _)) in E. rewrite firstn_length_le, app_length in E by auto. cbn in E. lia. }
      set (e := (u', port u' (Z.of_nat d), Z.of_nat v)) in *. exists (step e). split.
      + subst j. cbn [way_of nth_error]. rewrite nth_error_app1 by (rewrite map_length; lia). rewrite <- (firstn_skipn (S (length l')) L), map_app, E, map_app, <- app_assoc.
        rewrite nth_error_app2 by (rewrite map_length; lia). rewrite map_length, Nat.sub_diag. reflexivity.
      + apply cube_snk; auto. pose proof Lk as Lk'. apply linked_iff in Lk; auto. destruct Lk as [Gu' [Hp [Ev Eq]]]. destruct (grid_back k n K u' Gu') as [Eu' Lu'].
        destruct (cube_link k n K (Z.to_nat u') _ Lu' Hp) as [C _]. rewrite Eu', <- Ev, <- Eq in C. split; auto. split; [pose proof (mate_lt _ _ Hp); lia|]. unfold e, step. cbn [fst snd]. auto. }
  destruct S1 as [a [A1 A2]]. exists a. rewrite Eu. split; auto. split; auto. split; auto.
  destruct (nth_error L j) as [e|] eqn:En.
  - destruct (nth_split2 _ _ _ _ En) as [l1 [l2 [EL Ll]]]. assert (Fj : firstn j L = l1) by (rewrite EL, <- Ll, firstn_app, firstn_all, Nat.sub_diag; cbn; apply app_nil_r).
    pose proof G as Ge. rewrite EL in Ge. change (l1 ++ e :: l2) with (l1 ++ [e] ++ l2) in Ge. rewrite app_assoc in Ge. destruct (gone_pre _ _ _ _ _ _ _ own_port own_vc _ _ _ _ Ge) as [u1 [i1 G1]].
    destruct (gone_last _ _ _ _ _ _ _ own_port own_vc _ _ _ _ G1) as [[E _]|[l' [u' [i' [E [G' Lk]]]]]]; [destruct l1; discriminate|]. apply app_inj_tail in E. destruct E as [<- ->].
    rewrite Fj in Gu. destruct (gone_det _ _ _ _ _ _ _ K own_port own_vc _ _ _ _ _ _ _ eq_refl eq_refl Gu G') as [_ [-> _]].
    apply linked_iff in Lk; auto. destruct Lk as [_ [Hp _]]. exists (port u' (Z.of_nat d)), (step (u', port u' (Z.of_nat d), Z.of_nat v)). split.
    + cbn [way_of nth_error]. rewrite nth_error_app1 by (rewrite map_length; apply nth_error_Some; congruence). apply map_nth_error. exact En.
    + apply cube_src. split; auto. split; [lia|reflexivity].
  - apply nth_error_None in En. assert (j = length L) by lia. subst j. rewrite firstn_all in Gu. destruct (gone_det _ _ _ _ _ _ _ K own_port own_vc _ _ _ _ _ _ _ eq_refl eq_refl Gu G) as [_ [-> _]].
    exists (2 * n), (Ej d, v). split.
    + cbn [way_of nth_error]. rewrite nth_error_app2 by (rewrite map_length; lia). rewrite map_length, Nat.sub_diag. reflexivity.
    + apply cube_src. split; auto. split; [lia|]. rewrite Nat2Z.id. apply cube_out_ge. auto.
Qed.

Lemma way_len : forall L, length (way_of L) = S (S (length L)).
Proof. intros. cbn. rewrite app_length, map_length. cbn. lia. Qed.
Lemma way_snk : forall L I, gn L (Z.of_nat d) I -> forall j a r i, nth_error (way_of L) j = Some a -> w_snk w (fst a) = Some (r, i) -> (Z.of_nat j + dist (Z.of_nat r) (Z.of_nat d) = dist (Z.of_nat m) (Z.of_nat d))%Z.
Proof.
  intros L I G j a r i Ea Es. assert (Hj : j < length (way_of L)) by (apply nth_error_Some; congruence). rewrite way_len in Hj.
  destruct (Nat.eq_dec j (S (length L))) as [->|Nj].
  - exfalso. cbn [way_of nth_error] in Ea. rewrite nth_error_app2 in Ea by (rewrite map_length; lia). rewrite map_length, Nat.sub_diag in Ea. injection Ea as <-. cbn [fst] in Es.
    pose proof (proj1 (wi_ej _ (cube_wired k n K mesh nl b rd cd ob) d)) as X. fold w in X. congruence.
  - destruct (way_at L I G j ltac:(lia)) as [u [i' [a' [Gu [Ea' [Es' _]]]]]]. rewrite Ea in Ea'. injection Ea' as <-. rewrite Es in Es'. injection Es' as <- <-.
    destruct (DV _ _ _ _ _ _ _ Gm Gd Gu) as [_ [_ [_ [E _]]]]. rewrite firstn_length_le in E by lia. exact E.
Qed.
Lemma way_src : forall L I, gn L (Z.of_nat d) I -> forall j a r i, nth_error (way_of L) j = Some a -> w_src w (fst a) = Some (r, i) -> (Z.of_nat j - 1 + dist (Z.of_nat r) (Z.of_nat d) = dist (Z.of_nat m) (Z.of_nat d))%Z.
Proof.
  intros L I G j a r i Ea Es. assert (Hj : j < length (way_of L)) by (apply nth_error_Some; congruence). rewrite way_len in Hj. destruct j as [|j].
  - exfalso. cbn in Ea. injection Ea as <-. cbn [fst] in Es. pose proof (proj1 (wi_inj _ (cube_wired k n K mesh nl b rd cd ob) m)) as X. fold w in X. congruence.
  - destruct (way_at L I G j ltac:(lia)) as [u [i' [a' [Gu [_ [_ [o [c [Ec Eo]]]]]]]]]. rewrite Ea in Ec. injection Ec as <-. rewrite Es in Eo. injection Eo as <- <-.
    destruct (DV _ _ _ _ _ _ _ Gm Gd Gu) as [_ [_ [_ [E _]]]]. rewrite firstn_length_le in E by lia. lia.
Qed.

Lemma cube_one_way : exists p, one_way w ok flow q m d p.
Proof.
  destruct whole_way as [L [I G]]. exists (way_of L). constructor.
  - exists v. eexists. reflexivity.
  - exists v, ((Inj m, v) :: map step L). reflexivity.
  - intros p1 a c p2 E. assert (Lp : S (length p1) < length (way_of L)) by (rewrite E, app_length; cbn; lia). rewrite way_len in Lp.
    destruct (way_at L I G (length p1) ltac:(lia)) as [u [i [a' [_ [Ea [Es [o [c' [Ec Eo]]]]]]]]].
    rewrite E, nth_error_app2, Nat.sub_diag in Ea by lia. injection Ea as <-. rewrite E, nth_error_app2 in Ec by lia. replace (S (length p1) - length p1) with 1 in Ec by lia. injection Ec as <-. eauto.
  - intros a c r i j Ha Hc Ea Ec. apply In_nth_error in Ha, Hc. destruct Ha as [x Ha], Hc as [y Hc]. pose proof (way_snk L I G _ _ _ _ Ha Ea). pose proof (way_snk L I G _ _ _ _ Hc Ec). assert (x = y) by lia. congruence.
  - intros a c r i j Ha Hc Ea Ec. apply In_nth_error in Ha, Hc. destruct Ha as [x Ha], Hc as [y Hc]. pose proof (way_src L I G _ _ _ _ Ha Ea). pose proof (way_src L I G _ _ _ _ Hc Ec). assert (x = y) by lia. congruence.
  - intros c g Hh Ef O. destruct (FLOW _ Ef) as [F1 [F2 [F3 F4]]]. unfold ok, head_ok, under_way in O. rewrite F1, F2, F3, F4 in O. destruct O as [_ [_ [_ [Ev O]]]]. assert (Eg : f_vc g = v) by lia. rewrite Eg in *.
    destruct c as [c|c|c].
    + subst c. left. reflexivity.
    + subst c. right. apply in_app_iff. right. left. reflexivity.
    + destruct O as [l [u [p [r [i [Gl [Lk Ec]]]]]]]. right. apply in_app_iff. left. apply in_map_iff. exists (Z.of_nat u, p, Z.of_nat v). split.
      * unfold step. cbn [fst snd]. rewrite !Nat2Z.id. apply linked_iff in Lk; auto. rewrite cube_out_lt by tauto. congruence.
      * assert (Len : length (l ++ [(Z.of_nat u, p, Z.of_nat v)]) <= length L).
        { destruct (DV _ _ _ _ _ _ _ Gm Gd Gl) as [Gr [_ [_ [E1 _]]]]. destruct (DV _ _ _ _ _ _ _ Gm Gd G) as [_ [_ [_ [E2 _]]]]. rewrite D1 in E2 by auto. pose proof (D0 _ _ Gr Gd). unfold RouteSpec.chan in *. lia. }
        destruct (gone_prefix _ _ _ _ _ _ _ K own_port own_vc _ _ _ _ _ _ Gl G Len) as [t ->]. apply in_app_iff. left. apply in_app_iff. right. left. reflexivity.
Qed.
End Way.
