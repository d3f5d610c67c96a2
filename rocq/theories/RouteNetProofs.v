(** Networks whose routing function looks at the router, the input and the flit, and perhaps at random numbers. *)
From Coq Require Import ZArith Arith Bool List Lia Permutation.
From Verif Require Import Prop_IqRouter Fupd ArbiterModel AllocModel AllocSpec BufferModel BufferSpec RouteModel ChannelModel IqRouterModel IqRouterSpec IqRouterProofs NetModel NetSpec NetProofs NetSum NetOrder NetMeshModel NetMeshSpec
  NetMeshProofs Prop_Net NetProgressSpec NetStuck NetProgress NetMore Prop_NetProgress RouteNetSpec.
Import ListNotations.
Open Scope nat_scope.

Section Gen.
Variables (w : netcfg) (R : nat -> nat -> flit -> list oelem -> Prop) (T : traffic) (ok : cid -> flit -> Prop).
Hypothesis W : wired w.
(** What a node may send is where it may be; the routing function leads on; what may leave is at its destination. *)
Hypothesis OKi : forall f, y_src T (f_id f) < w_nodes w -> y_dest T (f_id f) < w_nodes w -> y_b T (f_id f) <= f_vc f <= y_e T (f_id f) -> y_e T (f_id f) < bc_vcs (w_b w) -> ok (Inj (y_src T (f_id f))) f.
Hypothesis OKl : forall r i f es, r < w_n w -> i < c_in (w_cfg w r) -> ok (w_in w r i) f -> R r i f es -> lawful w ok r f es /\ es <> [].
Hypothesis OKe : forall d f, ok (Ej d) f -> y_dest T (f_id f) = d.

Lemma r_decent : forall ts zs t, rdecent R T w ts zs t -> ndecent w ok ts zs t.
Proof.
  intros ts zs t [M1 M2 M3 M4 M5]. constructor; auto.
  - intros r i f Hr Hi Hh O. apply (OKl r i f _ Hr Hi O). apply M3; auto.
  - intros m f r i Et Es. assert (Hm : m < w_nodes w) by (apply (wi_inj w W m); congruence). destruct (M4 m f Hm Et) as [A [B [C D]]]. split; auto. split; auto. split; auto.
    intros Hh. destruct (D Hh) as [-> [D2 [D3 [D4 D5]]]]. pose proof (OKi f Hm D2 D3 D4) as O. split; auto. intros Hrd. pose proof (D5 Hrd r i Es) as La.
    apply (wi_in w W) in Es. destruct Es as [E1 [E2 E3]]. apply (OKl r i f _ E1 E2); [rewrite E3; exact O|exact La].
Qed.
Lemma r_decent_from : forall P ts hts hzs (s : net P), rdecent_from R T w hts hzs ts s -> ndecent_from w ok hts hzs ts s.
Proof. intros P ts. induction ts as [|t ts IH]; intros hts hzs s M; [exact Logic.I|]. destruct M as [M1 M2]. split; [apply r_decent; auto|]. intros s' z E. apply IH. auto. Qed.
Lemma r_leads : forall ts zs t, rdecent R T w ts zs t -> leads w ok t.
Proof. intros ts zs t [M1 M2 M3 M4 M5] r i f Hr Hi Hh O. apply (OKl r i f _ Hr Hi O). apply M3; auto. Qed.
Lemma r_set_out : forall ts zs t, rdecent R T w ts zs t -> set_out w t.
Proof.
  intros ts zs t [M1 M2 M3 M4 M5] m f Hm Et Hh Hrd. destruct (M4 m f Hm Et) as [A [B [C D]]]. destruct (D Hh) as [-> [D2 [D3 [D4 D5]]]]. pose proof (OKi f Hm D2 D3 D4) as O.
  destruct (w_snk w (Inj (y_src T (f_id f)))) as [[r i]|] eqn:Es; [|apply (wi_inj w W) in Hm; contradiction]. pose proof (D5 Hrd r i eq_refl) as La.
  apply (wi_in w W) in Es. destruct Es as [E1 [E2 E3]]. apply (OKl r i f _ E1 E2); [rewrite E3; exact O|exact La].
Qed.
Lemma r_works : forall P (Q : nat -> nat -> flit -> Prop) ts, (forall r i f, r < w_n w -> i < c_in (w_cfg w r) -> f_head f = true -> ok (w_in w r i) f -> Q r i f) -> some_policy (w_b w) P -> rdecent_run P R T w ts -> (forall m v, together (y_dest T) (on_vc v (injected ts m))) -> works P T w Q ts.
Proof.
  intros P Q ts HQ SP M Tg. assert (D : ndecent_run P w ok ts) by (apply r_decent_from; exact M).
  destruct (net_all P w _ W SP ts D) as [s [zs [xs [ys [E N]]]]]. exists s, zs, xs, ys. split; auto. split; [apply N|]. split.
  { intros r Hr. split; [apply (ni_t _ _ _ _ _ _ _ _ N)|apply (ni_run _ _ _ _ _ _ _ _ N r Hr)]. }
  split; [intros r i f Hr Hi Hf Hh; apply HQ; auto; assert (Es : w_snk w (w_in w r i) = Some (r, i)) by (apply (wi_in w W); auto);
    assert (He : In f (entered w ts ys (w_in w r i))) by (rewrite <- (cr_flit _ _ _ _ _ _ (ni_car _ _ _ _ _ _ _ _ N) _ _ _ Es); apply in_app_iff; auto); apply (ni_ok _ _ _ _ _ _ _ _ N (w_in w r i) f); auto; right; congruence|].
  split; [eapply net_balance; eauto|]. split; intros d; [intros v Hd Hv; destruct (C78_whole P w _ (y_dest T) ts s zs d W SP D Tg E Hd) as [_ [X _]]; apply X; auto|].
  intros f Hd Hf. destruct (C78_whole P w _ (y_dest T) ts s zs d W SP D Tg E Hd) as [_ [_ X]]. destruct (X f Hf) as [g [_ [_ [_ [G O]]]]]. rewrite <- G. apply OKe. exact O.
Qed.
Lemma r_in : forall P, some_policy (w_b w) P -> forall ts hts hzs s xs ys, NI P w ok hts hzs s xs ys -> rdecent_from R T w hts hzs ts s -> forall t, In t ts -> exists us vs, rdecent R T w us vs t.
Proof.
  intros P SP ts. induction ts as [|t ts IH]; intros hts hzs s xs ys N M u Hu; [destruct Hu|]. destruct M as [M1 M2]. destruct Hu as [<-|Hu]; [eauto|].
  destruct (net_step_ok P w _ W SP _ _ _ _ _ _ N (r_decent _ _ _ M1)) as [s1 [z [xs1 [ys1 [E1 [N1 _]]]]]]. eapply IH; eauto.
Qed.
Lemma r_arrive : forall P slots dist, own_buffers (w_b w) P slots -> (forall r, r < w_n w -> c_obuf (w_cfg w r) <> 0%Z) -> descends w ok dist -> all_arrive P R w T slots.
Proof.
  intros P slots dist HB HO HD. pose proof (own_some _ _ _ HB) as SP. destruct (C96_drains P w _ _ slots W HB HD) as [B HBd]; [exact HO|]. exists B. intros D0 ts1 ts2 Dp M Tg Ri Ho Wh Q Ea L.
  assert (D : ndecent_run P w ok (ts1 ++ ts2)) by (apply r_decent_from; exact M).
  destruct (HBd D0 ts1 ts2) as [s [zs [E [Em Pm]]]]; auto.
  - intros t Ht. destruct (r_in P SP (ts1 ++ ts2) [] [] _ _ _ (ni0 P w _ SP) M t Ht) as [us [vs Mt]]. split; [eapply r_leads; exact Mt|]. split; [eapply r_set_out; exact Mt|auto].
  - exists s, zs. split; auto. split; auto. intros d Hd. rewrite filter_tag, (perm_filter _ _ _ _ Pm), <- filter_tag. rewrite (filter_own T (ejected zs) (w_nodes w) d); auto.
    destruct (r_works P (fun _ _ _ => True) (ts1 ++ ts2) (fun _ _ _ _ _ _ _ => Logic.I) SP M Tg) as [s' [zs' [xs [ys [E' [_ [_ [_ [_ [_ X]]]]]]]]]]. rewrite E in E'. injection E' as <- <-. exact X.
Qed.
Lemma r_order : forall P flow q m d p ts s zs, some_policy (w_b w) P -> one_way w ok flow q m d p -> m < w_nodes w -> d < w_nodes w ->
  rdecent_run P R T w ts -> (forall m v, together flow (on_vc v (injected ts m))) -> net_run w ts (net0 P w) = Some (s, zs) ->
  (exists r, map tag (fl flow q (injected ts m)) = map tag (fl flow q (ejected zs d)) ++ map tag r /\ forall f, In f r -> In f (inside w s) /\ flow (f_id f) = q) /\
  (forall m' f, m' < w_nodes w -> In f (injected ts m') -> flow (f_id f) = q -> m' = m) /\
  (forall d' f, d' < w_nodes w -> In f (ejected zs d') -> flow (f_id f) = q -> d' = d).
Proof. intros P flow q m d p ts s zs SP OW Hm Hd M Tg E. assert (D : ndecent_run P w ok ts) by (apply r_decent_from; exact M). eapply C79_order; eauto. Qed.
End Gen.
