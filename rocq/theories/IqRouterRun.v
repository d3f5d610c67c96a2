(** Whole steps and runs of the router. *)
From Coq Require Import ZArith Arith Bool List Lia Permutation.
From Verif Require Import Fupd ArbiterModel AllocModel AllocSpec BufferModel BufferSpec BufferProofs RouteModel IqRouterModel IqRouterSpec IqRouterProofs IqRouterInv.
Import ListNotations.
Open Scope nat_scope.

Lemma vcok_mono : forall c xs xs' i v b rx gone, (forall x, In x xs -> In x xs') -> vcok c xs i v b rx gone -> vcok c xs' i v b rx gone.
Proof.
  intros c xs xs' i v b rx gone M [V1 V2 V3 V4 V5 [gs [G S]]]. constructor; auto.
  - eapply Forall_impl; [|exact V5]. intros [f [o g]] T. unfold trip_ok in *. destruct T as [T1 [T2 [T3 [T4 [T5 [T6 [T7 T8]]]]]]]. repeat (split; [auto; fail|]). split.
    + intros Hd. specialize (T7 Hd). destruct (c_rdelay c); auto. destruct T7 as [x [X Y]]. eauto.
    + destruct (_ || _); auto. destruct T8 as [x [X Y]]. eauto.
  - exists gs. split; auto. unfold stok in *. destruct (v_state b); auto.
    + destruct S as [S1 [S2 [f [r [E O]]]]]. split; auto. split; auto. exists f, r. split; auto. unfold offered in *. destruct (c_rdelay c); auto. destruct O as [x [X Y]]. eauto.
    + destruct S as [o [w [S1 [S2 [S3 S4]]]]]. exists o, w. repeat (split; [auto; fail|]). destruct gs as [[p ow]|]; auto. destruct S4 as [f [r [E O]]]. exists f, r. split; auto. unfold chosen in *. destruct (c_rdelay c); auto. destruct O as [x [X Y]]. eauto.
Qed.

Section Run.
Variables (c : iqcfg) (P : bpolicy) (I : bst -> po_st P -> Prop).
Hypothesis HP : policy_ok (c_b c) P I.
Variable Rm : Z -> bst -> nat -> po_st P -> Prop.
Hypothesis HR : room_ok (c_b c) P I Rm.

Lemma inv_mono : forall xs xs' pr pv ps px s g, (forall x, In x xs -> In x xs') -> Inv c P I xs pr pv ps px s g -> Inv c P I xs' pr pv ps px s g.
Proof. intros xs xs' pr pv ps px s g M [K1 K2 K3 K4 K5 K6 K7 K8]. constructor; auto. intros i v Hi Hv. eapply vcok_mono; eauto. Qed.

(** Between steps. *)
Record Rest (xs : list rin) (s : router P) (g : gh) : Prop := {
  rt_inv : Inv c P I xs [] [] [] [] s g;
  rt_out : forall o, o < c_outs c -> r_out s o = [];
  rt_cb : forall i, i < c_in c -> r_cb s i = [];
  rt_oc : forall i, r_oc s i = [];
  rt_act : r_act s = false -> r_proc s = [] /\ r_rq s = [] /\ r_va s = [] /\ r_sa s = [] /\ r_xb s = [] }.
Record link (hx : list rin) (hy : list rout) (g : gh) : Prop := {
  ln_rx : forall i v, i < c_in c -> v < c_vcs c -> g_rx g i v = on_vc v (rx hx i);
  ln_tx : forall o, o < c_outs c -> g_tx g o = tx hy o;
  ln_cr : forall o, o < c_outs c -> g_cr g o = crx hx o;
  ln_ct : forall i, i < c_in c -> g_ct g i = ctx hy i }.

(** ** Arrivals *)
Definition arr (i : nat) (fs : list (nat * flit)) : list flit := flat_map (fun e => if Nat.eqb (fst e) i then [snd e] else []) fs.
Lemma arr_none : forall i fs, ~ In i (map fst fs) -> arr i fs = [].
Proof. intros i fs. induction fs as [|[j f] fs IH]; intros N; [reflexivity|]. cbn [arr flat_map fst snd map In] in *. rewrite (proj2 (Nat.eqb_neq j i)) by tauto. apply IH. tauto. Qed.
Lemma arrivals_gen : forall x i l, NoDup l -> arr i (flat_map (fun i => match i_flit x i with Some f => [(i, f)] | None => [] end) l) = if in_dec Nat.eq_dec i l then match i_flit x i with Some f => [f] | None => [] end else [].
Proof.
  intros x i l N. induction N as [|a l Na N IH]; [reflexivity|]. cbn [flat_map]. unfold arr in *. rewrite flat_map_app, IH. destruct (Nat.eq_dec a i) as [->|E].
  - destruct (in_dec Nat.eq_dec i l) as [X|X]; [contradiction|]. rewrite app_nil_r. destruct (in_dec Nat.eq_dec i (i :: l)) as [Y|Y]; [|exfalso; apply Y; left; auto].
    destruct (i_flit x i); cbn [flat_map fst snd]; [rewrite Nat.eqb_refl; reflexivity|reflexivity].
  - assert (Z1 : flat_map (fun e : nat * flit => if fst e =? i then [snd e] else []) match i_flit x a with Some f => [(a, f)] | None => [] end = []).
    { destruct (i_flit x a); cbn [flat_map fst snd]; [rewrite (proj2 (Nat.eqb_neq a i)) by auto; reflexivity|reflexivity]. }
    rewrite Z1. cbn [app]. destruct (in_dec Nat.eq_dec i l) as [X|X], (in_dec Nat.eq_dec i (a :: l)) as [Y|Y]; auto; exfalso; [apply Y; right; auto|]. destruct Y as [Y|Y]; congruence.
Qed.
Lemma arrivals_arr : forall x i, i < c_in c -> arr i (arrivals c x) = match i_flit x i with Some f => [f] | None => [] end.
Proof. intros x i Hi. unfold arrivals. rewrite arrivals_gen by apply seq_NoDup. destruct (in_dec Nat.eq_dec i (seq 0 (c_in c))) as [X|X]; auto. exfalso. apply X. apply in_seq. lia. Qed.
Lemma arrivals_in : forall x i f, In (i, f) (arrivals c x) -> i < c_in c /\ i_flit x i = Some f.
Proof. intros x i f H. unfold arrivals in H. apply in_flat_map in H. destruct H as [j [A B]]. apply in_seq in A. destruct (i_flit x j) eqn:E; [destruct B as [B|[]]|destruct B]. injection B as -> ->. split; [lia|auto]. Qed.
Lemma arrivals_nodup : forall x, NoDup (map fst (arrivals c x)).
Proof.
  intros x. unfold arrivals. pose proof (seq_NoDup (c_in c) 0) as N. revert N. generalize (seq 0 (c_in c)). intros l N. induction N as [|a l Na N IH]; [constructor|]. cbn [flat_map]. rewrite map_app.
  apply NoDup_app; auto; [destruct (i_flit x a); cbn; repeat constructor; auto|]. intros y Hy Hz. destruct (i_flit x a); cbn in Hy; [|auto]. destruct Hy as [<-|[]]. apply Na. apply in_map_iff in Hz. destruct Hz as [[j f0] [E1 E2]]. cbn in E1. subst j.
  apply in_flat_map in E2. destruct E2 as [k [K1 K2]]. destruct (i_flit x k); [destruct K2 as [K2|[]]|destruct K2]. congruence.
Qed.
Lemma in_queues_ok : forall xs pr pv ps px fs s g, Inv c P I xs pr pv ps px s g -> NoDup (map fst fs) ->
  (forall i f, In (i, f) fs -> i < c_in c /\ f_vc f < c_vcs c /\ (r_occ s i < bc_size (c_b c))%Z /\ well_formed (g_rx g i (f_vc f) ++ [f]) /\ (c_rdelay c = false -> f_head f = true -> good_route c (f_la f))) ->
  exists s' g', fold_opt (in_queue c) fs s = Some s' /\ Inv c P I xs pr pv ps px s' g' /\ others P s s' /\
    (forall i v, g_rx g' i v = g_rx g i v ++ on_vc v (arr i fs)) /\ g_tx g' = g_tx g /\ g_cr g' = g_cr g /\ g_ct g' = g_ct g.
Proof.
  intros xs pr pv ps px fs. induction fs as [|[i f] fs IH]; intros s g H N A.
  - exists s, g. split; [reflexivity|]. split; auto. split; [repeat split|]. split; [intros; rewrite app_nil_r; reflexivity|auto].
  - cbn [map fst] in N. inversion N as [|? ? N1 N2]; subst. destruct (A i f (or_introl eq_refl)) as [Hi [Hv [Hs [W La]]]]. destruct (in_queue_ok _ _ _ _ _ _ _ _ _ _ _ _ H Hi Hv Hs W La) as [s1 [E1 [H1 [O1 C1]]]].
    cbn [fold_opt]. rewrite E1. destruct (IH s1 _ H1 N2) as [s' [g' [E' [H' [O' [R' G']]]]]].
    + intros j f' Hj. assert (NE : j <> i) by (intros ->; apply N1; apply in_map_iff; exists (i, f'); auto). destruct (A j f' (or_intror Hj)) as [X1 [X2 [X3 [X4 X5]]]]. split; auto. split; auto. rewrite C1, fupd_other by auto. split; auto. split; auto.
      cbn [with_rx g_rx]. rewrite upd2_row by auto. auto.
    + exists s', g'. split; auto. split; auto. split; [|split; [|exact G']].
      * unfold others in *. destruct O1 as [? [? [? [? [? [? [? ?]]]]]]], O' as [? [? [? [? [? [? [? ?]]]]]]]. repeat split; congruence.
      * intros a y. rewrite R'. cbn [with_rx g_rx arr flat_map fst snd]. fold (arr a fs). destruct (Nat.eqb_spec i a) as [->|NE].
        -- cbn [app on_vc filter]. fold (on_vc y (arr a fs)). rewrite (arr_none a fs) by auto. destruct (Nat.eqb_spec (f_vc f) y) as [<-|NY]; [rewrite upd2_same, <- app_assoc; reflexivity|]. rewrite upd2_other by congruence. reflexivity.
        -- rewrite upd2_row by auto. reflexivity.
Qed.

(** ** Occupancy of an input buffer *)
Lemma total_on_vc : forall l n, (total (fun v => Z.of_nat (length (on_vc v l))) n <= Z.of_nat (length l))%Z.
Proof.
  intros l n. induction l as [|f l IH]; [cbn; rewrite total_zero; lia|].
  rewrite (total_ext _ (fun v => (Z.of_nat (length (on_vc v l)) + (if Nat.eqb (f_vc f) v then 1 else 0))%Z)).
  - rewrite total_add. destruct (Nat.lt_ge_cases (f_vc f) n) as [H|H]; [rewrite total_one by auto; cbn [length]; lia|].
    rewrite (total_ext (fun v => if Nat.eqb (f_vc f) v then 1%Z else 0%Z) (fun _ => 0%Z) n); [rewrite total_zero; cbn [length]; lia|]. intros v Hv. destruct (Nat.eqb_spec (f_vc f) v); [lia|auto].
  - intros v _. cbn [on_vc filter]. destruct (Nat.eqb (f_vc f) v); fold (on_vc v l); cbn [length]; lia.
Qed.
Lemma total_count : forall l n, Forall (fun v => v < n) l -> total (fun v => Z.of_nat (count_occ Nat.eq_dec l v)) n = Z.of_nat (length l).
Proof.
  intros l n F. induction F as [|a l Ha F IH]; [cbn; apply total_zero|].
  rewrite (total_ext _ (fun v => (Z.of_nat (count_occ Nat.eq_dec l v) + (if Nat.eqb a v then 1 else 0))%Z)); [rewrite total_add, IH, total_one by auto; cbn [length]; lia|].
  intros v _. cbn [count_occ]. destruct (Nat.eq_dec a v), (Nat.eqb_spec a v); try congruence; lia.
Qed.
Lemma occ_room : forall xs s g hx hy i, Rest xs s g -> link hx hy g -> i < c_in c -> (r_occ s i <= Z.of_nat (length (rx hx i)) - Z.of_nat (length (ctx hy i)))%Z.
Proof.
  intros xs s g hx hy i [H R1 R2 R3 R4] L Hi. rewrite (iv_occ _ _ _ _ _ _ _ _ _ _ H i Hi). destruct (iv_ct _ _ _ _ _ _ _ _ _ _ H i Hi) as [F [_ C]]. rewrite (R2 i Hi), R3 in F, C. cbn [concat app] in F, C. rewrite app_nil_r in F, C.
  pose proof (total_on_vc (rx hx i) (c_vcs c)) as X. rewrite (ln_ct _ _ _ L i Hi) in F, C. pose proof (total_count _ _ F) as Y.
  assert (Z1 : total (fun v => (Z.of_nat (length (v_buf (r_vc s i v))) + Z.of_nat (count_occ Nat.eq_dec (ctx hy i) v))%Z) (c_vcs c) = total (fun v => Z.of_nat (length (on_vc v (rx hx i)))) (c_vcs c)).
  { apply total_ext. intros v Hv. rewrite (C v Hv), <- (ln_rx _ _ _ L i v Hi Hv), (vk_rx _ _ _ _ _ _ _ (iv_vc _ _ _ _ _ _ _ _ _ _ H i v Hi Hv)), app_length, map_length. lia. }
  rewrite total_add in Z1. lia.
Qed.

(** ** Credits that arrive *)
Lemma held_app : forall o w a b, held o w (a ++ b) = held o w a + held o w b.
Proof. intros o w a b. induction a as [|[t [vs o']] a IH]; cbn [app held]; auto. lia. Qed.
Lemma held_gen : forall x o w l, NoDup l -> held o w (flat_map (fun o => match i_cred x o with Some vs => [((i_now x + c_cdelay c)%Z, (vs, o))] | None => [] end) l) =
  if in_dec Nat.eq_dec o l then match i_cred x o with Some vs => count_occ Nat.eq_dec vs w | None => 0 end else 0.
Proof.
  intros x o w l N. induction N as [|a l Na N IH]; [reflexivity|]. cbn [flat_map]. rewrite held_app, IH. destruct (Nat.eq_dec a o) as [->|E].
  - destruct (in_dec Nat.eq_dec o l) as [X|X]; [contradiction|]. destruct (in_dec Nat.eq_dec o (o :: l)) as [Y|Y]; [|exfalso; apply Y; left; auto].
    destruct (i_cred x o); cbn [held]; [rewrite Nat.eqb_refl; lia|lia].
  - assert (Z1 : held o w match i_cred x a with Some vs => [((i_now x + c_cdelay c)%Z, (vs, a))] | None => [] end = 0) by (destruct (i_cred x a); cbn [held]; [rewrite (proj2 (Nat.eqb_neq a o)) by auto; reflexivity|reflexivity]).
    rewrite Z1. cbn [plus]. destruct (in_dec Nat.eq_dec o l) as [X|X], (in_dec Nat.eq_dec o (a :: l)) as [Y|Y]; auto; exfalso; [apply Y; right; auto|]. destruct Y as [Y|Y]; congruence.
Qed.
Lemma held_in : forall x o w, o < c_outs c -> held o w (credits_in c x) = count_occ Nat.eq_dec (match i_cred x o with Some vs => vs | None => [] end) w.
Proof. intros x o w Ho. unfold credits_in. rewrite held_gen by apply seq_NoDup. destruct (in_dec Nat.eq_dec o (seq 0 (c_outs c))) as [X|X]; [destruct (i_cred x o); auto|]. exfalso. apply X. apply in_seq. lia. Qed.
Definition with_cr (x : rin) (g : gh) : gh :=
  {| g_rx := g_rx g; g_gone := g_gone g; g_L := g_L g; g_h := g_h g; g_tx := g_tx g; g_cr := fun o => g_cr g o ++ match i_cred x o with Some vs => vs | None => [] end; g_ct := g_ct g |}.
Lemma credits_in_ok : forall xs s g hx hy x a, Inv c P I xs [] [] [] [] s g -> link hx hy g -> decent c hx hy x -> Inv c P I xs [] [] [] [] (set_act a (set_proc (r_proc s ++ credits_in c x) s)) (with_cr x g).
Proof.
  intros xs s g hx hy x a [K1 K2 K3 K4 K5 K6 K7 K8] L D. constructor; rs; cbn [with_cr g_rx g_gone g_L g_h g_tx g_cr g_ct]; auto. destruct K6 as [C1 C2 C3]. constructor.
  - intros o w Ho. rewrite count_occ_app, held_app, held_in by auto. specialize (C1 o w Ho). lia.
  - intros o w Ho. rewrite count_occ_app. pose proof (C2 o w Ho). destruct (i_cred x o) as [vs|] eqn:E; [|cbn; lia]. destruct (de_cred _ _ _ _ D o vs Ho E) as [Nd B]. rewrite (ln_cr _ _ _ L o Ho), (ln_tx _ _ _ L o Ho) in *.
    destruct (in_dec Nat.eq_dec w vs) as [X|X]; [|apply (count_occ_not_In Nat.eq_dec) in X; lia]. destruct (B w X) as [_ Y]. pose proof (proj1 (NoDup_count_occ Nat.eq_dec vs) Nd w). lia.
  - apply Forall_app. split; auto. apply Forall_forall. intros [t [vs o]] Hin. unfold credits_in in Hin. apply in_flat_map in Hin. destruct Hin as [o' [A B]]. apply in_seq in A. destruct (i_cred x o') as [vs'|] eqn:E; [destruct B as [B|[]]|destruct B].
    assert (vs' = vs /\ o' = o) by (split; congruence). destruct H as [-> ->]. cbn [fst snd]. destruct (de_cred _ _ _ _ D o vs) as [Nd F]; [lia|auto|]. split; [lia|]. split; auto. apply Forall_forall. intros v Hv. apply F. auto.
Qed.

(** ** A step *)
Lemma rx_snoc : forall hx x i, rx (hx ++ [x]) i = rx hx i ++ match i_flit x i with Some f => [f] | None => [] end.
Proof. intros. unfold rx. rewrite flat_map_app. cbn [flat_map]. rewrite app_nil_r. reflexivity. Qed.
Lemma tx_snoc : forall hy y o, tx (hy ++ [y]) o = tx hy o ++ match x_flit y o with Some f => [f] | None => [] end.
Proof. intros. unfold tx. rewrite flat_map_app. cbn [flat_map]. rewrite app_nil_r. reflexivity. Qed.
Lemma crx_snoc : forall hx x o, crx (hx ++ [x]) o = crx hx o ++ match i_cred x o with Some vs => vs | None => [] end.
Proof. intros. unfold crx. rewrite flat_map_app. cbn [flat_map]. rewrite app_nil_r. reflexivity. Qed.
Lemma ctx_snoc : forall hy y i, ctx (hy ++ [y]) i = ctx hy i ++ match x_cred y i with Some vs => vs | None => [] end.
Proof. intros. unfold ctx. rewrite flat_map_app. cbn [flat_map]. rewrite app_nil_r. reflexivity. Qed.
Definition flush (s : router P) (g : gh) : gh :=
  {| g_rx := g_rx g; g_gone := g_gone g; g_L := g_L g; g_h := g_h g; g_tx := fun o => g_tx g o ++ r_out s o; g_cr := g_cr g; g_ct := fun i => g_ct g i ++ concat (r_cb s i) |}.
Lemma filled_false : forall A (l : list A), filled l = false -> l = [].
Proof. intros A [|]; auto. discriminate. Qed.

Lemma internal_ok : forall xs x s g, In x xs -> Inv c P I xs [] [] [] [] s g ->
  (forall o, o < c_outs c -> r_out s o = []) -> (forall i, i < c_in c -> r_cb s i = []) -> (forall i, r_oc s i = []) ->
  (forall l, legal_asks (c_in c * c_vcs c) (c_outs c * c_vcs c) l -> matching l (i_va x l)) -> (forall l, legal_asks (c_in c) (c_outs c) l -> matching l (i_sa x l)) ->
  (c_rdelay c = true -> forall j v f, j < c_in c -> v < c_vcs c -> In f (g_rx g j v ++ on_vc v (arr j (arrivals c x))) -> f_head f = true -> good_route c (i_rf x j f)) ->
  (forall i f, In (i, f) (arrivals c x) -> i < c_in c /\ f_vc f < c_vcs c /\ (r_occ s i < bc_size (c_b c))%Z /\ well_formed (g_rx g i (f_vc f) ++ [f]) /\ (c_rdelay c = false -> f_head f = true -> good_route c (f_la f))) ->
  exists s' g', internal c x (arrivals c x) s = Some s' /\ Inv c P I xs [] [] [] [] s' g' /\ (forall i, r_oc s' i = []) /\ (forall i, i < c_in c -> length (r_cb s' i) <= 1) /\
    (forall i l, i < c_in c -> In l (r_cb s' i) -> length l <= 1) /\
    (r_act s' = false -> r_proc s' = [] /\ r_rq s' = [] /\ r_va s' = [] /\ r_sa s' = [] /\ r_xb s' = []) /\
    (forall i v, g_rx g' i v = g_rx g i v ++ on_vc v (arr i (arrivals c x))) /\ g_tx g' = g_tx g /\ g_cr g' = g_cr g /\ g_ct g' = g_ct g.
Proof.
  intros xs x s g Hx H Ro Rc Roc Va Sa Rf Ar.
  destruct (in_queues_ok _ _ _ _ _ (arrivals c x) s g H (arrivals_nodup x) Ar) as [s1 [g1 [E1 [H1 [O1 [R1 [T1 [C1 CT1]]]]]]]].
  destruct O1 as [Ox [Oo [_ [_ [Oc [Ob _]]]]]].
  assert (H1' : Inv c P I xs [] [] [] [] (set_proc (r_proc s1) s1) g1) by (destruct H1; constructor; auto).
  destruct (proc_credits_ok c P I HP _ _ _ _ _ (i_now x) (r_proc s1) s1 g1 H1') as [s2 [g2 [E2 [H2 [S2 G2]]]]].
  destruct S2 as [_ [_ [_ [_ [Sx [So [Soc [Scb _]]]]]]]]. destruct G2 as [Gr [_ [_ [Gt [Gc Gct]]]]].
  destruct (va_evaluate_ok c P I _ _ _ _ _ _ _ x H2 Va) as [Dv [Ev HDv]]. destruct (sa_evaluate_ok c P I HP Rm HR _ _ _ _ _ _ _ x H2 Sa) as [rr [Ds [Es HDs]]].
  unfold internal. rewrite E1, E2, Ev, Es. set (s3 := set_rr rr (set_xb [] (r_out s2) (set_qs [] [] [] s2))).
  assert (H3 : Inv c P I xs (r_rq s2) (r_va s2) (r_sa s2) (r_xb s2) s3 g2).
  { destruct H2 as [K1 K2 K3 K4 K5 K6 K7 K8]. constructor; subst s3; rs; auto.
    - rewrite !app_nil_r in K2. exact K2.
    - destruct K5 as [B1 B2 B3 B4 B5 B6 B7]. constructor; auto.
      + intros o Ho. rewrite (B1 o Ho). cbn [sel flat_map app]. rewrite app_nil_r. reflexivity.
      + intros o Ho. destruct (B2 o Ho) as [_ Y]. assert (Z1 : r_out s2 o = []) by (rewrite So, Oo; auto). rewrite Z1. cbn [app sel flat_map length]. split; auto. }
  destruct (route_updates_ok c P I Rm xs _ _ _ g2 x Dv Ds (r_rq s2) s3 H3 Hx) as [s4 [E4 [H4 [Dv4 [Ds4 [K4 [X4 [Oc4 Q4]]]]]]]]; [intros R j v f Hj Hv Hf; apply (Rf R j v f Hj Hv); rewrite <- R1, <- Gr; auto|exact HDv|exact HDs|].
  rewrite E4. destruct (va_updates_ok c P I HP Rm HR xs _ _ (i_now x) Ds Dv _ s4 g2 H4 Dv4 Ds4) as [s5 [g5 [E5 [H5 [Ds5 [K5 [X5 [Oc5 [Q5 G5]]]]]]]]].
  rewrite E5. destruct (sa_updates_ok c P I Rm HR xs _ x Ds _ s5 g5 Hx H5 Ds5) as [s6 [g6 [E6 [H6 [K6 [G6 A6]]]]]].
  { intros i v o _. rewrite X5, X4, Oc5, Oc4. subst s3. rs. split; [reflexivity|]. rewrite Soc, Oc. auto. }
  rewrite E6. destruct (xb_updates_ok c P I xs (r_xb s2) s6 g6 H6) as [s7 [E7 [H7 [Pr7 [Cb7 [Xb7 [Rq7 [Va7 Sa7]]]]]]]]. rewrite E7.
  destruct K4 as [_ [P4 B4]], K5 as [_ [P5 B5]], K6 as [_ [P6 B6]].
  assert (CB : forall i, i < c_in c -> r_cb s7 i = []). { intros i Hi. rewrite Cb7, B6, B5, B4. subst s3. rs. rewrite Scb, Ob. auto. }
  eexists _, g6. split; [reflexivity|]. split; [|split; [|split; [|split; [|split]]]]; rs.
  - destruct H7 as [J1 J2 J3 J4 J5 J6 J7 J8]. constructor; rs; auto. intros i Hi. destruct (J7 i Hi) as [F [F1 C]]. rewrite (CB i Hi) in *. cbn [concat app] in F, C.
    assert (F2 : Forall (fun l : list nat => length l <= 1) ([] :: match r_oc s7 i with [] => [] | cr => [] ++ [cr] end)) by (inversion F1; destruct (r_oc s7 i); cbn [app]; constructor; auto; cbn; lia).
    split; [|split; [exact F2|]]; clear F1 F2; destruct (r_oc s7 i) as [|a r]; cbn [concat app] in *; rewrite ?app_nil_r in *; auto.
  - auto.
  - intros i Hi. rewrite (CB i Hi). destruct (r_oc s7 i); cbn; lia.
  - intros i l Hi. rewrite (CB i Hi). destruct (iv_ct _ _ _ _ _ _ _ _ _ _ H7 i Hi) as [_ [F1 _]]. inversion F1. destruct (r_oc s7 i); cbn [app In]; [tauto|]. intros [<-|[]]. auto.
  - intros F. apply orb_false_iff in F. destruct F as [F F4]. apply orb_false_iff in F. destruct F as [F F3]. apply orb_false_iff in F. destruct F as [F1 F2]. apply filled_false in F1, F2, F3, F4.
    rewrite Xb7 in F4. destruct (A6 F4) as [_ [Y2 Y3]]. rewrite Pr7, P6, P5, P4, Rq7, Y2, Q5, Q4, Va7, Y3, Sa7, Xb7. subst s3. rs. auto.
  - destruct G5 as [U1 [_ [_ [U2 [U3 U4]]]]], G6 as [W1 [W2 [W3 W4]]]. split; [intros; rewrite W1, U1, Gr; auto|]. split; [congruence|]. split; congruence.
Qed.

Lemma tl_short : forall A (l : list A), length l <= 1 -> tl l = [] /\ l = match hd_error l with Some a => [a] | None => [] end.
Proof. intros A [|a [|b l]] H; cbn in *; auto. lia. Qed.

Lemma flush_inv : forall xs s g, Inv c P I xs [] [] [] [] s g -> (forall i, r_oc s i = []) -> (forall o, o < c_outs c -> tl (r_out s o) = []) -> (forall i, i < c_in c -> tl (r_cb s i) = []) ->
  Inv c P I xs [] [] [] [] (set_creds (r_oc s) (fun i => tl (r_cb s i)) (set_xb (r_xb s) (fun o => tl (r_out s o)) s)) (flush s g).
Proof.
  intros xs s g [K1 K2 K3 K4 K5 K6 K7 K8] Oc To Tc. constructor; rs; cbn [flush g_rx g_gone g_L g_h g_tx g_cr g_ct]; auto.
  - destruct K5 as [B1 B2 B3 B4 B5 B6 B7]. constructor; auto.
    + intros o Ho. rewrite (B1 o Ho), (To o Ho). cbn [app]. rewrite <- app_assoc. reflexivity.
    + intros o Ho. rewrite (To o Ho). destruct (B2 o Ho). cbn. split; auto.
  - destruct K6 as [C1 C2 C3]. constructor; auto. intros o w Ho. rewrite on_vc_len. specialize (C2 o w Ho). lia.
  - intros i Hi. rewrite (Tc i Hi), Oc. cbn [concat app]. rewrite app_nil_r. destruct (K7 i Hi) as [X [_ Y]]. rewrite Oc, app_nil_r in X, Y. split; [exact X|]. split; [constructor; auto|exact Y].
Qed.

Lemma iq_step_ok : forall hx hy x s g, Rest hx s g -> link hx hy g -> decent c hx hy x ->
  exists s' y g', iq_step c x s = Some (s', y) /\ Rest (hx ++ [x]) s' g' /\ link (hx ++ [x]) (hy ++ [y]) g' /\ forall i vs, i < c_in c -> x_cred y i = Some vs -> NoDup vs.
Proof.
  intros hx hy x s g R L D. pose proof R as [H Ro Rc Roc Ra]. assert (M : forall z, In z hx -> In z (hx ++ [x])) by (intros; apply in_app_iff; auto).
  assert (Hx : In x (hx ++ [x])) by (apply in_app_iff; right; left; auto).
  set (s1 := set_act (r_act s || filled (arrivals c x) || filled (credits_in c x)) (set_proc (r_proc s ++ credits_in c x) s)).
  assert (H1 : Inv c P I (hx ++ [x]) [] [] [] [] s1 (with_cr x g)) by (apply inv_mono with (xs := hx); auto; eapply credits_in_ok; eauto).
  unfold iq_step. fold s1. destruct (r_act s1) eqn:A.
  - destruct (internal_ok (hx ++ [x]) x s1 (with_cr x g) Hx H1) as [s2 [g2 [E [H2 [Oc [Cb [Cn [Ac [Rx [Tx [Cr Ct]]]]]]]]]]].
    + exact Ro.
    + exact Rc.
    + exact Roc.
    + apply D.
    + apply D.
    + intros Rd j v f Hj Hv Hf Hd. apply (de_rf _ _ _ _ D Rd j f Hj); auto. rewrite arrivals_arr in Hf by auto. cbn [with_cr g_rx] in Hf. rewrite (ln_rx _ _ _ L j v Hj Hv) in Hf. rewrite rx_snoc. unfold on_vc in Hf.
      apply in_app_iff in Hf. apply in_app_iff. destruct Hf as [Hf|Hf]; apply filter_In in Hf; tauto.
    + intros i f Hin. destruct (arrivals_in _ _ _ Hin) as [Hi Ef]. destruct (de_flit _ _ _ _ D i f Hi Ef) as [Hv [W [Sz La]]]. split; auto. split; auto. split; [|split; auto].
      * subst s1. rs. pose proof (occ_room _ _ _ _ _ i R L Hi). lia.
      * cbn [with_cr g_rx]. rewrite (ln_rx _ _ _ L i _ Hi Hv). rewrite on_vc_app in W. cbn [on_vc filter] in W. rewrite Nat.eqb_refl in W. exact W.
    + rewrite E. eexists _, _, (flush s2 g2). split; [reflexivity|].
      assert (To : forall o, o < c_outs c -> length (r_out s2 o) <= 1). { intros o Ho. destruct (io_one _ _ _ _ _ _ _ _ (iv_out _ _ _ _ _ _ _ _ _ _ H2) o Ho) as [X _]. rewrite app_nil_r in X. exact X. }
      split; [|split].
      * constructor; rs; auto.
        -- apply flush_inv; auto; intros; apply tl_short; auto.
        -- intros o Ho. apply tl_short. auto.
        -- intros i Hi. apply tl_short. auto.
      * constructor; cbn [flush g_rx g_tx g_cr g_ct].
        -- intros i v Hi Hv. rewrite Rx. cbn [with_cr g_rx]. rewrite (ln_rx _ _ _ L i v Hi Hv), rx_snoc, on_vc_app, arrivals_arr by auto. reflexivity.
        -- intros o Ho. rewrite Tx. cbn [with_cr g_tx]. rewrite (ln_tx _ _ _ L o Ho), tx_snoc. cbn [x_flit]. f_equal. apply tl_short. auto.
        -- intros o Ho. rewrite Cr. cbn [with_cr g_cr]. rewrite (ln_cr _ _ _ L o Ho), crx_snoc. reflexivity.
        -- intros i Hi. rewrite Ct. cbn [with_cr g_ct]. rewrite (ln_ct _ _ _ L i Hi), ctx_snoc. cbn [x_cred]. f_equal. specialize (Cb i Hi). destruct (r_cb s2 i) as [|a [|b r]]; cbn in *; auto; [rewrite app_nil_r; auto|lia].
      * cbn [x_cred]. intros i vs Hi Ev. assert (Hl : In vs (r_cb s2 i)) by (destruct (r_cb s2 i); [discriminate|injection Ev as ->; left; auto]). specialize (Cn i vs Hi Hl). destruct vs as [|a [|b vs]]; [constructor|constructor; [intros []|constructor]|cbn in Cn; lia].
  - subst s1. rs. apply orb_false_iff in A. destruct A as [A A3]. apply orb_false_iff in A. destruct A as [A1 A2]. apply filled_false in A2, A3. rewrite A1, A2, A3 in *. destruct (Ra eq_refl) as [Q1 Q2].
    eexists _, _, (flush s (with_cr x g)). split; [reflexivity|].
    split; [|split].
    + constructor; rs.
      * refine (flush_inv _ _ _ H1 _ _ _); intros; rs; [auto|rewrite Ro by auto; auto|rewrite Rc by auto; auto].
      * intros o Ho. rewrite Ro by auto. auto.
      * intros i Hi. rewrite Rc by auto. auto.
      * auto.
      * intros _. rewrite app_nil_r. auto.
    + constructor; cbn [flush with_cr g_rx g_tx g_cr g_ct].
      * intros i v Hi Hv. rewrite (ln_rx _ _ _ L i v Hi Hv), rx_snoc, on_vc_app. rewrite <- (arrivals_arr x i Hi), A2. cbn. rewrite app_nil_r. reflexivity.
      * intros o Ho. rewrite (ln_tx _ _ _ L o Ho), tx_snoc. cbn [x_flit]. rewrite Ro by auto. reflexivity.
      * intros o Ho. rewrite (ln_cr _ _ _ L o Ho), crx_snoc. reflexivity.
      * intros i Hi. rewrite (ln_ct _ _ _ L i Hi), ctx_snoc. cbn [x_cred]. rewrite Rc by auto. reflexivity.
    + cbn [x_cred]. intros i vs Hi Ev. rewrite Rc in Ev by auto. discriminate.
Qed.

Lemma iq_run_ok : forall xs hx hy s g, Rest hx s g -> link hx hy g -> decent_from c hx hy xs s ->
  exists s' ys g', iq_run c xs s = Some (s', ys) /\ Rest (hx ++ xs) s' g' /\ link (hx ++ xs) (hy ++ ys) g'.
Proof.
  intros xs. induction xs as [|x xs IH]; intros hx hy s g R L D.
  - exists s, [], g. rewrite !app_nil_r. auto.
  - destruct D as [D1 D2]. destruct (iq_step_ok _ _ _ _ _ R L D1) as [s1 [y [g1 [E1 [R1 [L1 _]]]]]]. destruct (IH _ _ _ _ R1 L1 (D2 _ _ E1)) as [s' [ys [g' [E' [R' L']]]]].
    exists s', (y :: ys), g'. cbn [iq_run]. rewrite E1, E'. rewrite <- app_assoc in R', L'. rewrite <- app_assoc in L'. auto.
Qed.
Definition gh0 : gh := {| g_rx := fun _ _ => []; g_gone := fun _ _ => []; g_L := fun _ => []; g_h := fun _ => []; g_tx := fun _ => []; g_cr := fun _ => []; g_ct := fun _ => [] |}.
Lemma rest0 : Rest [] (router0 P) gh0.
Proof.
  assert (Q : forall p, ~ p vcst0 -> listed c (fun _ _ => vcst0) p []) by (intros p N; split; [constructor|]; intros i v; split; [intros []|tauto]).
  constructor; cbn; auto. constructor; cbn [router0 gh0 r_vc r_occ r_rq r_va r_sa r_xb r_out r_next r_proc r_oc r_cb g_rx g_gone g_L g_h g_tx g_cr g_ct app].
  - intros i v Hi Hv. constructor; cbn; auto; [exists None; split; auto; lia|]. exists None. split; [reflexivity|]. unfold stok. cbn. auto.
  - split; [|split]; apply Q; unfold waits_rt, waits_va, waits_sa; cbn; [discriminate|discriminate|intros [? _]; discriminate].
  - split; [|split].
    + intros i v o w [_ [_ [X _]]]. discriminate.
    + intros i v i' v' o w [_ [_ [X _]]]. discriminate.
    + intros. right. split; reflexivity.
  - intros o Ho. apply (st_ok0 _ _ _ HP).
  - constructor; cbn; auto. intros o a [].
  - constructor; cbn; auto.
  - intros i Hi. cbn. auto.
  - intros i Hi. cbn. rewrite total_zero. reflexivity.
Qed.
Lemma link0 : link [] [] gh0.
Proof. constructor; reflexivity. Qed.
Lemma run_all : forall xs, decent_run P c xs -> exists s ys g, iq_run c xs (router0 P) = Some (s, ys) /\ Rest xs s g /\ link xs ys g.
Proof. intros xs D. destruct (iq_run_ok xs [] [] _ _ rest0 link0 D) as [s [ys [g H]]]. exists s, ys, g. exact H. Qed.
End Run.
