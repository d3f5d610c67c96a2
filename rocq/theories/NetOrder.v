(** The order of the flits of a flow. *)
From Coq Require Import ZArith Arith Bool List Lia Permutation.
From Verif Require Import Fupd ArbiterModel AllocModel AllocSpec BufferModel BufferSpec BufferProofs RouteModel ChannelModel IqRouterModel IqRouterSpec IqRouterProofs IqRouterInv IqRouterRun Prop_IqRouter NetModel NetSpec NetProofs NetSum.
Import ListNotations.
Open Scope nat_scope.

Lemma fl_app : forall flow k a b, fl flow k (a ++ b) = fl flow k a ++ fl flow k b.
Proof. intros. unfold fl. apply filter_app. Qed.
Lemma fl_in : forall flow k l f, In f (fl flow k l) <-> In f l /\ flow (f_id f) = k.
Proof. intros. unfold fl. rewrite filter_In, Nat.eqb_eq. tauto. Qed.
Lemma together_pre : forall flow a b, together flow (a ++ b) -> together flow a.
Proof. intros flow a b H l1 x y l2 E. apply (H l1 x y (l2 ++ b)). rewrite E, <- app_assoc. reflexivity. Qed.
Lemma together_tl : forall flow a l, together flow (a :: l) -> together flow l.
Proof. intros flow a l H l1 x y l2 E. apply (H (a :: l1) x y l2). rewrite E. reflexivity. Qed.

(** Each flit has a head of its flow before it. *)
Lemma head_before : forall flow l f, well_formed l -> together flow l -> In f l -> exists g, In g l /\ f_head g = true /\ flow (f_id g) = flow (f_id f).
Proof.
  intros flow l. induction l as [|x l IH] using rev_ind; intros f Wf T Hf; [contradiction|].
  assert (Wl : well_formed l) by (eapply parse_pre; exact Wf). assert (Tl : together flow l) by (eapply together_pre; exact T).
  apply in_app_iff in Hf. destruct Hf as [Hf|[->|[]]]; [destruct (IH f Wl Tl Hf) as [g [A B]]; exists g; split; auto; apply in_app_iff; auto|].
  destruct (f_head f) eqn:Hd; [exists f; split; auto; apply in_app_iff; right; left; auto|].
  destruct l as [|y l] using rev_ind; [exfalso; apply Wf; unfold parse; cbn; rewrite Hd; reflexivity|]. clear IHl.
  destruct (IH y Wl Tl) as [g [A [B C]]]; [apply in_app_iff; right; left; auto|]. exists g. split; [apply in_app_iff; auto|]. split; auto. rewrite C. symmetry. apply (T l y f []).
  - rewrite <- app_assoc. reflexivity.
  - destruct (f_tail y) eqn:Ty; auto. exfalso. apply Wf. unfold well_formed, parse in *. rewrite !fold_left_app in *. cbn [fold_left] in *. destruct (fold_left pstep l (Some None)) as [[q|]|]; cbn [pstep] in *; try congruence.
    + destruct (negb (f_head y) && (f_pid y =? q)%Z); [|congruence]. rewrite Ty. cbn. rewrite Hd. reflexivity.
    + destruct (f_head y); [|congruence]. rewrite Ty. cbn. rewrite Hd. reflexivity.
Qed.
Lemma filter_next : forall A (p : A -> bool) l l1 a b l2, filter p l = l1 ++ a :: b :: l2 -> exists m1 m m2, l = m1 ++ a :: m ++ b :: m2 /\ filter p m = [] /\ p a = true.
Proof.
  intros A p l. induction l as [|x l IH]; intros l1 a b l2 E; cbn [filter] in E; [destruct l1; discriminate|]. destruct (p x) eqn:Px.
  - destruct l1 as [|y l1].
    + cbn [app] in E. injection E as <- E. clear IH. exists [].
      assert (G : forall l2, filter p l = b :: l2 -> exists m m2, l = m ++ b :: m2 /\ filter p m = []).
      { clear E. induction l as [|y l IH]; intros q E; cbn [filter] in E; [discriminate|]. destruct (p y) eqn:Py.
        - injection E as <- E. exists [], l. split; auto.
        - destruct (IH q E) as [m [m2 [-> F]]]. exists (y :: m), m2. split; auto. cbn. rewrite Py. auto. }
      destruct (G _ E) as [m [m2 [-> F]]]. exists m, m2. auto.
    + cbn [app] in E. injection E as <- E. destruct (IH _ _ _ _ E) as [m1 [m [m2 [-> F]]]]. exists (x :: m1), m, m2. auto.
  - destruct (IH _ _ _ _ E) as [m1 [m [m2 [-> F]]]]. exists (x :: m1), m, m2. auto.
Qed.
Lemma map_split2 : forall A B (f : A -> B) l l1 a b l2, map f l = l1 ++ a :: b :: l2 -> exists m1 x y m2, l = m1 ++ x :: y :: m2 /\ f x = a /\ f y = b.
Proof.
  intros A B f l. induction l as [|x l IH]; intros l1 a b l2 E; [destruct l1; discriminate|]. destruct l1 as [|z l1].
  - cbn in E. injection E as E1 E2. destruct l as [|y l]; [discriminate|]. cbn in E2. injection E2 as E2 _. exists [], x, y, l. auto.
  - cbn in E. injection E as E1 E2. destruct (IH _ _ _ _ E2) as [m1 [x' [y' [m2 [-> H]]]]]. exists (x :: m1), x', y', m2. auto.
Qed.
Lemma filter_map : forall A B (f : A -> B) p l, filter p (map f l) = map f (filter (fun a => p (f a)) l).
Proof. intros A B f p l. induction l as [|a l IH]; [reflexivity|]. cbn. destruct (p (f a)); cbn; congruence. Qed.
Lemma filter_comm : forall A (p q : A -> bool) l, filter p (filter q l) = filter q (filter p l).
Proof. intros A p q l. induction l as [|a l IH]; [reflexivity|]. cbn. destruct (q a) eqn:Q, (p a) eqn:R; cbn; rewrite ?Q, ?R; congruence. Qed.

(** A router keeps packets of one flow together. *)
Lemma relayed_together : forall c xs ys waits transit trips outs flow, relayed c xs ys waits transit trips outs -> (forall i v, i < c_in c -> v < c_vcs c -> together flow (on_vc v (rx xs i))) ->
  forall o w, o < c_outs c -> w < c_vcs c -> together flow (on_vc w (tx ys o)).
Proof.
  intros c xs ys waits transit trips outs flow [R1 R2 R3 R4 R5 R6] T o w Ho Hw.
  apply together_pre with (b := on_vc w (transit o)). rewrite <- on_vc_app, <- (proj1 (R3 o Ho)). unfold on_vc. rewrite filter_map. intros l1 a b l2 E Ta.
  apply map_split2 in E. destruct E as [L1 [a' [b' [L2 [E [<- <-]]]]]]. pose proof (R6 o w _ _ _ _ Ho Hw E Ta) as El.
  assert (Ha : In a' (outs o)) by (apply (filter_In (fun e => Nat.eqb (f_vc (snd e)) w)); rewrite E; apply in_app_iff; right; left; auto). destruct (R4 o a' Ha) as [Hi Hv].
  set (i := fst (fst a')) in *. set (v := snd (fst a')) in *.
  assert (F : filter (fun f => Nat.eqb (f_vc f) w) (from i v (outs o)) = map snd (filter (fun a => Nat.eqb (fst (fst a)) i && Nat.eqb (snd (fst a)) v) L1) ++ snd a' :: snd b' :: map snd (filter (fun a => Nat.eqb (fst (fst a)) i && Nat.eqb (snd (fst a)) v) L2)).
  { unfold from. rewrite filter_map, filter_comm, E, filter_app, map_app. f_equal. cbn [filter]. fold i v. rewrite El. fold i v. rewrite !Nat.eqb_refl. reflexivity. }
  rewrite (R5 i v o Hi Hv Ho) in F. unfold left_for in F. rewrite filter_map in F. apply map_split2 in F. destruct F as [M1 [ta [tb [M2 [F [Ea Eb]]]]]]. rewrite <- filter_and in F.
  apply filter_next in F. destruct F as [N1 [m [N2 [F [Fm Pa]]]]]. pose proof (proj1 (R2 i v Hi Hv)) as Tk. pose proof (proj2 (R2 i v Hi Hv)) as Sw. rewrite F in Sw. rewrite Forall_forall in Tk.
  assert (Ka : trip_ok c xs i ta) by (apply Tk; rewrite F; apply in_app_iff; right; left; auto).
  assert (Kb : trip_ok c xs i tb) by (apply Tk; rewrite F; apply in_app_iff; right; right; apply in_app_iff; right; left; auto).
  destruct ta as [fa [oa ga]], tb as [fb [ob gb]]. cbn in Ea, Eb, Pa. subst ga gb. unfold trip_ok in Ka, Kb. destruct Ka as [Ka [_ [_ [Kt _]]]], Kb as [Kb _].
  assert (Em : m = []).
  { destruct m as [|x m]; auto. exfalso. assert (Tf : f_tail fa = false) by congruence. cbn [app] in Sw. specialize (Sw _ _ _ _ eq_refl Tf). unfold way in Sw. cbn [fst snd] in Sw. injection Sw as Sw1 Sw2. cbn [filter] in Fm. rewrite Sw1, Sw2, Pa in Fm. discriminate. }
  subst m. cbn [app] in F. rewrite Ka, Kb. apply (T i v Hi Hv (map fst N1) fa fb (map fst N2 ++ waits i v)); [|congruence]. rewrite (R1 i v Hi Hv), F, map_app, <- app_assoc. reflexivity.
Qed.
(** A head goes before each flit of a packet, on the same way. *)
Lemma head_trip : forall flow l t, well_formed (map fst l) -> together flow (map fst l) -> same_way l -> In t l -> exists u, In u l /\ f_head (fst u) = true /\ flow (f_id (fst u)) = flow (f_id (fst t)) /\ way u = way t.
Proof.
  intros flow l. induction l as [|x l IH] using rev_ind; intros t Wf T S Ht; [contradiction|]. rewrite map_app in *. cbn [map] in *.
  assert (Wl : well_formed (map fst l)) by (eapply parse_pre; exact Wf). assert (Tl : together flow (map fst l)) by (eapply together_pre; exact T).
  assert (Sl : same_way l) by (intros l1 a b l2 E; apply (S l1 a b (l2 ++ [x])); rewrite E, <- app_assoc; reflexivity).
  apply in_app_iff in Ht. destruct Ht as [Ht|[->|[]]]; [destruct (IH t Wl Tl Sl Ht) as [u [A B]]; exists u; split; auto; apply in_app_iff; auto|].
  destruct (f_head (fst t)) eqn:Hd; [exists t; split; auto; apply in_app_iff; right; left; auto|].
  destruct l as [|y l] using rev_ind; [exfalso; apply Wf; unfold parse; cbn; rewrite Hd; reflexivity|]. clear IHl. rewrite map_app in *. cbn [map] in *.
  assert (Ty : f_tail (fst y) = false).
  { destruct (f_tail (fst y)) eqn:Ty; auto. exfalso. apply Wf. unfold well_formed, parse in *. rewrite !fold_left_app in *. cbn [fold_left] in *. destruct (fold_left pstep (map fst l) (Some None)) as [[q|]|]; cbn [pstep] in *; try congruence.
    + destruct (negb (f_head (fst y)) && (f_pid (fst y) =? q)%Z); [|congruence]. rewrite Ty. cbn. rewrite Hd. reflexivity.
    + destruct (f_head (fst y)); [|congruence]. rewrite Ty. cbn. rewrite Hd. reflexivity. }
  destruct (IH y Wl Tl Sl) as [u [A [B [C D]]]]; [apply in_app_iff; right; left; auto|]. exists u. split; [apply in_app_iff; auto|]. split; auto. split.
  - rewrite C. symmetry. apply (T (map fst l) (fst y) (fst t) []); auto. rewrite <- app_assoc. reflexivity.
  - rewrite D. symmetry. apply (S l y t []); auto. rewrite <- app_assoc. reflexivity.
Qed.

Section Net.
Variables (P : bpolicy) (w : netcfg) (ok : cid -> flit -> Prop) (flow : Z -> nat).
Hypothesis W : wired w.
Hypothesis SP : some_policy (w_b w) P.
Definition chan_of (c : cid) : Prop := w_src w c <> None \/ w_snk w c <> None.
Definition NT (ts : list tick) (ys : nat -> list rout) : Prop := forall c v, chan_of c -> v < bc_vcs (w_b w) -> together flow (on_vc v (entered w ts ys c)).

Lemma injected_app : forall a b n, injected (a ++ b) n = injected a n ++ injected b n.
Proof. intros. apply flat_map_app. Qed.
Lemma entered_inj : forall ts ys n, entered w ts ys (Inj n) = injected ts n.
Proof. intros. unfold entered. rewrite (proj1 (wi_inj w W n)). reflexivity. Qed.
Lemma entered_out : forall ts ys r o c, w_src w c = Some (r, o) -> entered w ts ys c = tx (ys r) o.
Proof. intros ts ys r o c E. unfold entered. rewrite E. reflexivity. Qed.
Lemma entered_none : forall c, w_src w c = None -> chan_of c -> exists n, c = Inj n.
Proof.
  intros c E [H|H]; [congruence|]. destruct c as [n|d|c]; [eauto|rewrite (proj1 (wi_ej w W d)) in H; congruence|]. exfalso. apply (proj2 (proj2 (wi_ch w W c))); auto. apply (proj1 (wi_ch w W c)). auto.
Qed.
Lemma relay_of : forall ts zs s xs ys r, NI P w ok ts zs s xs ys -> r < w_n w -> exists trips outs, relayed (w_cfg w r) (xs r) (ys r) (fun i v => v_buf (r_vc (rt s r) i v)) (in_crossbar (rt s r)) trips outs.
Proof.
  intros ts zs s xs ys r N Hr. destruct (ni_run _ _ _ _ _ _ _ _ N r Hr) as [D E]. destruct (C39_router _ _ _ (policy_of P w W SP r Hr) D) as [s1 [ys1 [trips [outs [E1 [R _]]]]]]. rewrite E in E1. injection E1 as <- <-. eauto.
Qed.
Lemma nt_step : forall ts zs s xs ys t z s' xs' ys', NT ts ys -> NI P w ok (ts ++ [t]) (zs ++ [z]) s' xs' ys' -> (forall c r i, w_snk w c = Some (r, i) -> exists q, entered w ts ys c = rx (xs' r) i ++ q) ->
  (forall n v, together flow (on_vc v (injected (ts ++ [t]) n))) -> NI P w ok ts zs s xs ys -> NT (ts ++ [t]) ys'.
Proof.
  intros ts zs s xs ys t z s' xs' ys' T N' Pr Ti N c v Hc Hv. destruct (w_src w c) as [[r o]|] eqn:E.
  - rewrite (entered_out _ _ _ _ _ E). apply (wi_out w W) in E as E'. destruct E' as [Hr [Ho _]]. destruct (relay_of _ _ _ _ _ r N' Hr) as [trips [outs R]].
    apply (relayed_together _ _ _ _ _ _ _ flow R); auto; [|rewrite (vcs_of w W r Hr); auto]. intros i u Hi Hu. assert (Ek : w_snk w (w_in w r i) = Some (r, i)) by (apply (wi_in w W); auto).
    destruct (Pr _ _ _ Ek) as [q Eq]. apply together_pre with (b := on_vc u q). rewrite <- on_vc_app, <- Eq. apply T; [right; congruence|]. rewrite <- (vcs_of w W r Hr). auto.
  - destruct (entered_none c E Hc) as [n ->]. rewrite entered_inj. auto.
Qed.
Lemma net_run_flow : forall ts hts hzs s xs ys, NI P w ok hts hzs s xs ys -> NT hts ys -> (forall n v, together flow (on_vc v (injected (hts ++ ts) n))) -> ndecent_from w ok hts hzs ts s ->
  exists s' zs xs' ys', net_run w ts s = Some (s', zs) /\ NI P w ok (hts ++ ts) (hzs ++ zs) s' xs' ys' /\ NT (hts ++ ts) ys'.
Proof.
  intros ts. induction ts as [|t ts IH]; intros hts hzs s xs ys N T Ti D; cbn [net_run ndecent_from] in *.
  - exists s, [], xs, ys. rewrite !app_nil_r. auto.
  - destruct D as [D1 D2]. destruct (net_step_ok P w ok W SP _ _ _ _ _ _ N D1) as [s1 [z [xs1 [ys1 [E1 [N1 Pr]]]]]]. rewrite E1.
    replace (hts ++ t :: ts) with ((hts ++ [t]) ++ ts) in * by (rewrite <- app_assoc; reflexivity).
    assert (T1 : NT (hts ++ [t]) ys1). { eapply nt_step; eauto. intros n v. apply together_pre with (b := on_vc v (injected ts n)). rewrite <- on_vc_app, <- injected_app. auto. }
    destruct (IH _ _ _ _ _ N1 T1 Ti (D2 _ _ E1)) as [s2 [zs [xs2 [ys2 [E2 [N2 T2]]]]]]. rewrite E2.
    exists s2, (z :: zs), xs2, ys2. split; auto. replace (hzs ++ z :: zs) with ((hzs ++ [z]) ++ zs) by (rewrite <- app_assoc; reflexivity). auto.
Qed.
Lemma net_all_flow : forall ts, ndecent_run P w ok ts -> (forall n v, together flow (on_vc v (injected ts n))) -> exists s zs xs ys, net_run w ts (net0 P w) = Some (s, zs) /\ NI P w ok ts zs s xs ys /\ NT ts ys.
Proof.
  intros ts D T. apply (net_run_flow ts [] [] _ _ _ (ni0 P w ok SP)); auto. intros c v _ _ l1 a b l2 E. exfalso. unfold entered in E. destruct (w_src w c) as [[r o]|]; [|destruct c]; destruct l1; discriminate.
Qed.

(** Where the flits of a flow are. *)
Section Flow.
Variables (ts : list tick) (zs : list nout) (s : net P) (xs : nat -> list rin) (ys : nat -> list rout).
Hypothesis N : NI P w ok ts zs s xs ys.
Hypothesis T : NT ts ys.
Variables (k n d : nat) (p : list (cid * nat)).
Hypothesis OW : one_way w ok flow k n d p.

Lemma entered_vcs : forall c, chan_of c -> Forall (fun f => f_vc f < bc_vcs (w_b w)) (entered w ts ys c) /\ forall v, v < bc_vcs (w_b w) -> well_formed (on_vc v (entered w ts ys c)).
Proof.
  intros c Hc. destruct (w_src w c) as [[r o]|] eqn:E.
  - rewrite (entered_out _ _ _ _ _ E). apply (wi_out w W) in E as E'. destruct E' as [Hr [Ho _]]. pose proof (facts_of P w ok W SP _ _ _ _ _ _ N Hr) as F. rewrite <- (vcs_of w W r Hr). split; [apply F; auto|intros v Hv; apply F; auto].
  - destruct (entered_none c E Hc) as [m ->]. rewrite entered_inj. destruct Hc as [Hc|Hc]; [congruence|]. destruct (w_snk w (Inj m)) as [[r i]|] eqn:Es; [|congruence]. destruct (ni_inj _ _ _ _ _ _ _ _ N m r i Es) as [A [B _]]. split; auto.
Qed.
Lemma flow_place : forall c f, chan_of c -> In f (entered w ts ys c) -> flow (f_id f) = k -> In (c, f_vc f) p.
Proof.
  intros c f Hc Hf Ek. destruct (entered_vcs c Hc) as [A B]. rewrite Forall_forall in A. pose proof (A f Hf) as Hv.
  destruct (head_before flow (on_vc (f_vc f) (entered w ts ys c)) f (B _ Hv) (T c _ Hc Hv)) as [g [G1 [G2 G3]]]; [apply filter_In; split; auto; apply Nat.eqb_refl|].
  apply filter_In in G1. destruct G1 as [G1 G4]. apply Nat.eqb_eq in G4. rewrite <- G4. apply (ow_only _ _ _ _ _ _ _ OW); auto; [congruence|]. apply (ni_ok _ _ _ _ _ _ _ _ N c g Hc G1 G2).
Qed.
Lemma flow_in : forall r i f, r < w_n w -> i < c_in (w_cfg w r) -> In f (rx (xs r) i) -> flow (f_id f) = k -> In (w_in w r i, f_vc f) p.
Proof.
  intros r i f Hr Hi Hf Ek. assert (Es : w_snk w (w_in w r i) = Some (r, i)) by (apply (wi_in w W); auto). apply flow_place; auto; [right; congruence|].
  rewrite <- (cr_flit _ _ _ _ _ _ (ni_car _ _ _ _ _ _ _ _ N) _ _ _ Es). apply in_app_iff. auto.
Qed.
Lemma flow_trip : forall r i v t trips outs, r < w_n w -> i < c_in (w_cfg w r) -> v < c_vcs (w_cfg w r) ->
  relayed (w_cfg w r) (xs r) (ys r) (fun i v => v_buf (r_vc (rt s r) i v)) (in_crossbar (rt s r)) trips outs -> In t (trips i v) -> flow (f_id (fst t)) = k -> In (w_out w r (fst (snd t)), f_vc (snd (snd t))) p.
Proof.
  intros r i v t trips outs Hr Hi Hv R Ht Ek. assert (Es : w_snk w (w_in w r i) = Some (r, i)) by (apply (wi_in w W); auto). assert (Hc : chan_of (w_in w r i)) by (right; congruence). pose proof (vcs_of w W r Hr) as Ev.
  pose proof (cr_flit _ _ _ _ _ _ (ni_car _ _ _ _ _ _ _ _ N) _ _ _ Es) as Ef. destruct (entered_vcs _ Hc) as [_ B]. rewrite Ev in Hv. specialize (B v Hv). pose proof (T _ v Hc Hv) as Tv. rewrite <- Ef, on_vc_app in B, Tv.
  apply parse_pre in B. apply together_pre in Tv. rewrite <- Ev in Hv. rewrite (re_in _ _ _ _ _ _ _ R i v Hi Hv) in B, Tv. apply parse_pre in B. apply together_pre in Tv.
  destruct (re_trip _ _ _ _ _ _ _ R i v Hi Hv) as [Tk Sw]. destruct (head_trip flow _ t B Tv Sw Ht) as [u [U1 [U2 [U3 U4]]]]. rewrite Forall_forall in Tk. specialize (Tk u U1). destruct u as [f [o g]]. cbn [fst snd] in *.
  unfold way in U4. cbn [fst snd] in U4. injection U4 as <- <-.
  assert (Hf : In f (rx (xs r) i)). { apply (proj1 (filter_In (fun f => Nat.eqb (f_vc f) v) f _)). fold (on_vc v (rx (xs r) i)). rewrite (re_in _ _ _ _ _ _ _ R i v Hi Hv). apply in_app_iff. left. apply in_map_iff. exists (f, (o, g)). auto. }
  assert (Hfe : In f (entered w ts ys (w_in w r i))) by (rewrite <- Ef; apply in_app_iff; auto). destruct (ni_ok _ _ _ _ _ _ _ _ N _ f Hc Hfe U2) as [O1 O2].
  pose proof Tk as Tk'. unfold trip_ok in Tk'. destruct Tk' as [I1 [_ [I3 _]]]. apply (ow_only _ _ _ _ _ _ _ OW); [congruence|congruence|].
  refine (proj1 (trip_place w ok W (xs r) r i f o g Hr Hi _ O1 _ U2 Tk)); [intros x Hx; apply (ni_x _ _ _ _ _ _ _ _ N); auto|intros Rd; eapply O2; eauto].
Qed.

Lemma filter_all : forall A (q : A -> bool) l, (forall a, In a l -> q a = true) -> filter q l = l.
Proof. intros A q l. induction l as [|a l IH]; intros H; [reflexivity|]. cbn. rewrite (H a (or_introl eq_refl)), IH; auto. intros. apply H. right. auto. Qed.
Lemma filter_imp : forall A (q q' : A -> bool) l, (forall a, In a l -> q a = true -> q' a = true) -> filter q (filter q' l) = filter q l.
Proof. intros A q q' l. induction l as [|a l IH]; intros H; [reflexivity|]. cbn. specialize (IH (fun b Hb => H b (or_intror Hb))). pose proof (H a (or_introl eq_refl)) as K. destruct (q' a); cbn; [destruct (q a); congruence|]. destruct (q a); [discriminate (K eq_refl)|auto]. Qed.
(** A router keeps the order of the flow. *)
Lemma flow_router : forall r i v o u, r < w_n w -> i < c_in (w_cfg w r) -> o < c_outs (w_cfg w r) -> In (w_in w r i, v) p -> In (w_out w r o, u) p ->
  exists q, map tag (fl flow k (rx (xs r) i)) = map tag (fl flow k (tx (ys r) o)) ++ map tag q /\ forall f, In f q -> In f (stock (w_cfg w r) (rt s r)) /\ flow (f_id f) = k.
Proof.
  intros r i v o u Hr Hi Ho Pi Po. destruct (relay_of _ _ _ _ _ r N Hr) as [trips [outs R]]. pose proof (vcs_of w W r Hr) as Ev.
  assert (Sk : forall j, j < c_in (w_cfg w r) -> w_snk w (w_in w r j) = Some (r, j)) by (intros j Hj; apply (wi_in w W); auto).
  assert (Sc : forall j, j < c_outs (w_cfg w r) -> w_src w (w_out w r j) = Some (r, j)) by (intros j Hj; apply (wi_out w W); auto).
  assert (In1 : forall j f, j < c_in (w_cfg w r) -> In f (rx (xs r) j) -> flow (f_id f) = k -> j = i /\ f_vc f = v).
  { intros j f Hj Hf Ek. pose proof (flow_in r j f Hr Hj Hf Ek) as A. pose proof (ow_in _ _ _ _ _ _ _ OW _ _ r j i A Pi (Sk j Hj) (Sk i Hi)) as E. injection E as E1 E2. split; auto. pose proof (Sk j Hj) as S1. rewrite E1, (Sk i Hi) in S1. congruence. }
  assert (Dec : v < c_vcs (w_cfg w r) \/ fl flow k (rx (xs r) i) = []).
  { destruct (fl flow k (rx (xs r) i)) as [|f l] eqn:E; auto. left. assert (Hf : In f (fl flow k (rx (xs r) i))) by (rewrite E; left; auto). apply fl_in in Hf. destruct Hf as [Hf Ek]. destruct (In1 i f Hi Hf Ek) as [_ <-].
    assert (Hc : chan_of (w_in w r i)) by (right; rewrite (Sk i Hi); discriminate). destruct (entered_vcs _ Hc) as [A _]. rewrite Forall_forall in A. rewrite Ev. apply A. rewrite <- (cr_flit _ _ _ _ _ _ (ni_car _ _ _ _ _ _ _ _ N) _ _ _ (Sk i Hi)). apply in_app_iff. auto. }
  assert (Lab : forall a, In a (outs o) -> flow (f_id (snd a)) = k -> In (fst (fst a)) (seq 0 (c_in (w_cfg w r))) /\ fst a = (i, v)).
  { intros [[j y] g] Ha Ek. cbn [fst snd] in *. destruct (re_label _ _ _ _ _ _ _ R o _ Ha) as [Hj Hy]. cbn [fst snd] in Hj, Hy. split; [apply in_seq; lia|].
    assert (B : In g (from j y (outs o))) by (unfold from; apply in_map_iff; exists (j, y, g); split; auto; apply filter_In; split; auto; cbn; rewrite !Nat.eqb_refl; reflexivity).
    rewrite (re_from _ _ _ _ _ _ _ R j y o Hj Hy Ho) in B. unfold left_for in B. apply in_map_iff in B. destruct B as [[f [o' g']] [B1 B2]]. cbn in B1. subst g'. apply filter_In in B2. destruct B2 as [B2 _].
    destruct (re_trip _ _ _ _ _ _ _ R j y Hj Hy) as [Tk _]. rewrite Forall_forall in Tk. specialize (Tk _ B2). unfold trip_ok in Tk. destruct Tk as [I1 _].
    assert (C : In f (on_vc y (rx (xs r) j))) by (rewrite (re_in _ _ _ _ _ _ _ R j y Hj Hy); apply in_app_iff; left; apply in_map_iff; exists (f, (o', g)); auto). apply filter_In in C. destruct C as [C1 C2]. apply Nat.eqb_eq in C2.
    destruct (In1 j f Hj C1) as [-> E2]; [congruence|]. congruence. }
  destruct Dec as [Hv|E0].
  2:{ exists []. rewrite E0. assert (Z : fl flow k (tx (ys r) o) = []); [|rewrite Z; split; [reflexivity|intros f []]]. destruct (fl flow k (tx (ys r) o)) as [|g l] eqn:E; auto. exfalso. assert (Hg : In g (fl flow k (tx (ys r) o))) by (rewrite E; left; auto). apply fl_in in Hg. destruct Hg as [Hg Ek].
      destruct (relayed_origin _ _ _ _ _ _ _ o g R Ho Hg) as [j [f [Hj [Hf [_ Tk]]]]]. unfold trip_ok in Tk. destruct Tk as [I1 _]. assert (Ekf : flow (f_id f) = k) by congruence. destruct (In1 j f Hj Hf Ekf) as [-> _]. assert (Q : In f (fl flow k (rx (xs r) i))) by (apply fl_in; auto). rewrite E0 in Q. contradiction. }
  assert (E1 : fl flow k (rx (xs r) i) = fl flow k (map fst (trips i v)) ++ fl flow k (v_buf (r_vc (rt s r) i v))).
  { rewrite <- fl_app, <- (re_in _ _ _ _ _ _ _ R i v Hi Hv). unfold fl, on_vc. symmetry. apply filter_imp. intros f Hf Ek. apply Nat.eqb_eq in Ek. apply Nat.eqb_eq. apply (In1 i f Hi Hf Ek). }
  assert (E2 : map tag (fl flow k (map fst (trips i v))) = map tag (fl flow k (left_for o (trips i v)))).
  { unfold fl, left_for. rewrite !filter_map, !map_map. destruct (re_trip _ _ _ _ _ _ _ R i v Hi Hv) as [Tk _]. rewrite Forall_forall in Tk.
    rewrite (filter_ext_in (fun a : trip => Nat.eqb (flow (f_id (fst a))) k) (fun a : trip => Nat.eqb (flow (f_id (snd (snd a)))) k)) by (intros [f [o' g]] Ht; specialize (Tk _ Ht); unfold trip_ok in Tk; cbn [fst snd]; destruct Tk as [-> _]; reflexivity).
    rewrite filter_imp.
    - apply map_ext_in. intros [f [o' g]] Ht. apply filter_In in Ht. destruct Ht as [Ht _]. specialize (Tk _ Ht). unfold trip_ok in Tk. destruct Tk as [T1 [T2 [T3 [T4 _]]]]. unfold tag. cbn [fst snd]. congruence.
    - intros [f [o' g]] Ht Ek. cbn [fst snd] in *. apply Nat.eqb_eq in Ek. apply Nat.eqb_eq. specialize (Tk _ Ht). unfold trip_ok in Tk. destruct Tk as [T1 [_ [_ [_ [T5 _]]]]].
      assert (Q : In (w_out w r o', f_vc g) p) by (apply (flow_trip r i v (f, (o', g)) trips outs); auto; cbn; congruence).
      pose proof (ow_out _ _ _ _ _ _ _ OW _ _ r o' o Q Po (Sc o' T5) (Sc o Ho)) as E. injection E as E _. pose proof (Sc o' T5) as X. rewrite E, (Sc o Ho) in X. congruence. }
  assert (E3 : fl flow k (left_for o (trips i v)) = fl flow k (tx (ys r) o) ++ fl flow k (in_crossbar (rt s r) o)).
  { rewrite <- (re_from _ _ _ _ _ _ _ R i v o Hi Hv Ho), <- fl_app, <- (proj1 (re_out _ _ _ _ _ _ _ R o Ho)). unfold fl, from. rewrite !filter_map. f_equal. apply filter_imp. intros a Ha Ek. apply Nat.eqb_eq in Ek. destruct (Lab a Ha Ek) as [_ ->]. cbn. rewrite !Nat.eqb_refl. reflexivity. }
  exists (fl flow k (in_crossbar (rt s r) o) ++ fl flow k (v_buf (r_vc (rt s r) i v))). split.
  - rewrite E1, map_app, E2, E3, !map_app, <- app_assoc. reflexivity.
  - intros f Hf. apply in_app_iff in Hf. unfold stock. rewrite in_app_iff. destruct Hf as [Hf|Hf]; apply fl_in in Hf; destruct Hf as [Hf Ek]; split; auto.
    + right. apply in_flat_map. exists o. split; [apply in_seq; lia|]. exact Hf.
    + left. apply in_flat_map. exists i. split; [apply in_seq; lia|]. apply in_flat_map. exists v. split; [apply in_seq; lia|]. exact Hf.
Qed.

Definition held_in (f : flit) : Prop := In f (inside w s) /\ flow (f_id f) = k.
Lemma in_inside_stock : forall r f, r < w_n w -> In f (stock (w_cfg w r) (rt s r)) -> In f (inside w s).
Proof. intros r f Hr Hf. unfold inside. rewrite !in_app_iff. right. right. right. apply in_flat_map. exists r. split; auto. apply in_seq. lia. Qed.
Lemma in_inside_way : forall c r i f, w_snk w c = Some (r, i) -> In f (opt (ch_out (n_f s c)) ++ pend (n_f s c)) -> In f (inside w s).
Proof.
  intros c r i f E Hf. unfold inside. rewrite !(in_app_iff _ _ f). destruct c as [m|m|m].
  - left. apply in_flat_map. exists m. split; auto. apply in_seq. assert (m < w_nodes w) by (apply (proj2 (wi_inj w W m)); congruence). lia.
  - rewrite (proj1 (wi_ej w W m)) in E. discriminate.
  - right. left. apply in_flat_map. exists m. split; auto. apply in_seq. assert (m < w_chans w) by (apply (proj1 (wi_ch w W m)); congruence). lia.
Qed.
Lemma flow_path : forall p1 c v p2, p = p1 ++ (c, v) :: p2 -> exists q, map tag (fl flow k (injected ts n)) = map tag (fl flow k (entered w ts ys c)) ++ map tag q /\ forall f, In f q -> held_in f.
Proof.
  intros p1. induction p1 as [|[c0 v0] p1 IH] using rev_ind; intros c v p2 E.
  - destruct (ow_first _ _ _ _ _ _ _ OW) as [v' [p' E']]. rewrite E' in E. cbn in E. injection E as <- <- _. exists []. rewrite entered_inj, app_nil_r. split; auto. intros f [].
  - rewrite <- app_assoc in E. cbn [app] in E. destruct (IH _ _ _ E) as [q [Eq Hq]]. destruct (ow_next _ _ _ _ _ _ _ OW _ _ _ _ E) as [r [i [o [Ek Es]]]]. cbn [fst] in Ek, Es.
    apply (wi_in w W) in Ek as Ek'. apply (wi_out w W) in Es as Es'. destruct Ek' as [Hr [Hi Ec0]], Es' as [_ [Ho Ec]].
    assert (P0 : In (w_in w r i, v0) p) by (rewrite Ec0, E; apply in_app_iff; right; left; auto). assert (P1 : In (w_out w r o, v) p) by (rewrite Ec, E; apply in_app_iff; right; right; left; auto).
    destruct (flow_router r i v0 o v Hr Hi Ho P0 P1) as [q1 [Eq1 Hq1]]. rewrite (entered_out _ _ _ _ _ Es).
    set (m := opt (ch_out (n_f s c0)) ++ pend (n_f s c0)). exists (q1 ++ fl flow k m ++ q). split.
    + rewrite Eq, <- (cr_flit _ _ _ _ _ _ (ni_car _ _ _ _ _ _ _ _ N) _ _ _ Ek). fold m. rewrite fl_app, !map_app, Eq1, <- !app_assoc. reflexivity.
    + intros f Hf. rewrite !in_app_iff in Hf. destruct Hf as [Hf|[Hf|Hf]]; auto; [destruct (Hq1 f Hf) as [A B]; split; auto; eapply in_inside_stock; eauto|]. apply fl_in in Hf. destruct Hf as [Hf Ef]. split; auto. eapply in_inside_way; eauto.
Qed.
Lemma flow_order : exists q, map tag (fl flow k (injected ts n)) = map tag (fl flow k (ejected zs d)) ++ map tag q /\ forall f, In f q -> held_in f.
Proof.
  destruct (ow_last _ _ _ _ _ _ _ OW) as [v [p' E]]. destruct (flow_path p' _ _ [] E) as [q [Eq Hq]].
  assert (X : exists r o, w_src w (Ej d) = Some (r, o)).
  { destruct (ow_first _ _ _ _ _ _ _ OW) as [v' [p'' E']]. destruct p' as [|a p'] using rev_ind; [rewrite E' in E; discriminate|]. rewrite <- app_assoc in E. destruct (ow_next _ _ _ _ _ _ _ OW _ _ _ _ E) as [r [i [o [_ Es]]]]. eauto. }
  destruct X as [r [o Es]]. exists (fl flow k (pend (n_f s (Ej d))) ++ q). split.
  - rewrite Eq, <- (cr_eject _ _ _ _ _ _ (ni_car _ _ _ _ _ _ _ _ N) _ _ _ Es), fl_app, !map_app, <- app_assoc. reflexivity.
  - intros f Hf. apply in_app_iff in Hf. destruct Hf as [Hf|Hf]; auto. apply fl_in in Hf. destruct Hf as [Hf Ek]. split; auto. unfold inside. rewrite !in_app_iff. right. right. left. apply in_flat_map. exists d. split; auto. apply in_seq. assert (d < w_nodes w) by (apply (proj2 (wi_ej w W d)); congruence). lia.
Qed.
Lemma flow_from : forall m f, m < w_nodes w -> In f (injected ts m) -> flow (f_id f) = k -> m = n.
Proof.
  intros m f Hm Hf Ek. assert (Hc : chan_of (Inj m)) by (right; apply (proj2 (wi_inj w W m)); auto). pose proof (flow_place (Inj m) f Hc ltac:(rewrite entered_inj; auto) Ek) as A.
  destruct (ow_first _ _ _ _ _ _ _ OW) as [v [p' E]]. apply in_split in A. destruct A as [l1 [l2 A]]. destruct l1 as [|a l1] using rev_ind; [rewrite E in A; cbn in A; congruence|]. exfalso. rewrite <- app_assoc in A. destruct (ow_next _ _ _ _ _ _ _ OW _ _ _ _ A) as [r [i [o [_ Es]]]]. cbn in Es. rewrite (proj1 (wi_inj w W m)) in Es. discriminate.
Qed.
Lemma flow_to : forall m f, m < w_nodes w -> In f (ejected zs m) -> flow (f_id f) = k -> m = d.
Proof.
  intros m f Hm Hf Ek. destruct (w_src w (Ej m)) as [[r o]|] eqn:Es; [|exfalso; apply (proj2 (proj2 (wi_ej w W m))); auto]. assert (Hc : chan_of (Ej m)) by (left; congruence).
  assert (Hf' : In f (entered w ts ys (Ej m))) by (rewrite <- (cr_eject _ _ _ _ _ _ (ni_car _ _ _ _ _ _ _ _ N) _ _ _ Es); apply in_app_iff; auto). pose proof (flow_place (Ej m) f Hc Hf' Ek) as A.
  destruct (ow_last _ _ _ _ _ _ _ OW) as [v [p' E]]. apply in_split in A. destruct A as [l1 [l2 A]]. destruct l2 as [|a l2].
  - rewrite E in A. apply app_inj_tail in A. destruct A as [_ A]. congruence.
  - exfalso. destruct (ow_next _ _ _ _ _ _ _ OW _ _ _ _ A) as [r' [i' [o' [X _]]]]. cbn in X. rewrite (proj1 (wi_ej w W m)) in X. discriminate.
Qed.
End Flow.
End Net.
