(** What leaves a network at its terminals, with private buffers; in meshes, which flits, and in which order. *)
From Coq Require Import ZArith Arith Bool List Lia Permutation.
From Verif Require Import Fupd ArbiterModel AllocModel AllocSpec BufferModel BufferSpec BufferProofs RouteModel RouteSpec RouteProofs Prop_Route ChannelModel CreditModel IqRouterModel IqRouterSpec IqRouterProofs Prop_IqRouter
  NetModel NetSpec NetProofs NetSum NetOrder NetMeshModel NetMeshSpec NetMeshProofs NetMeshOrder Prop_Net StreamSpec TermModel TermSpec TermProofs.
Import ListNotations.
Open Scope nat_scope.

Definition vc_size (w : netcfg) (buf_size vc_buf_size : Z) : Z := (if buf_size <? 0 then vc_buf_size else buf_size / Z.of_nat (bc_vcs (w_b w)))%Z.

Section Private.
Variables (P : bpolicy) (w : netcfg) (rf : nat -> nat -> flit -> list oelem) (ok : cid -> flit -> Prop) (bz vz : Z).
Hypothesis W : wired w.
Hypothesis Hb : bz <> 0%Z.
Hypothesis Hv : 0 < bc_vcs (w_b w).
Hypothesis EP : new_private (bc_vcs (w_b w)) bz vz (bc_wait (w_b w)) = Some (w_b w, P).
Hypothesis RO : routes_ok w rf ok.

Lemma private_sp : some_policy (w_b w) P.
Proof. apply (po_private _ bz vz); auto. Qed.
Lemma private_inv : exists I, policy_ok (w_b w) P I /\ self_steady P /\ (forall b p, base_ok (w_b w) b -> I b p -> (b_occ b <= bc_size (w_b w))%Z).
Proof.
  pose proof EP as E. unfold new_private in E. set (z := if (bz <=? 0)%Z then vz else (bz / Z.of_nat (bc_vcs (w_b w)))%Z) in *.
  destruct (Z.ltb_spec 0 z) as [Hz|]; [|discriminate]. injection E as E EQ.
  assert (S : (bc_size (w_b w) >= Z.of_nat (bc_vcs (w_b w)) * z)%Z).
  { rewrite <- E. cbn [bc_vcs bc_size]. subst z. destruct (Z.ltb_spec bz 0), (Z.leb_spec bz 0); try lia. pose proof (Z.mul_div_le bz (Z.of_nat (bc_vcs (w_b w))) ltac:(lia)). lia. }
  rewrite <- EQ. eexists. split; [apply private_ok; exact S|]. split; [apply private_self|]. intros b p B I. rewrite (bo_sum _ _ B).
  assert (X : (total (b_vocc b) (bc_vcs (w_b w)) <= total (fun _ => z) (bc_vcs (w_b w)))%Z) by (apply total_le; intros v Hv'; specialize (I v Hv'); cbn beta; lia).
  assert (T : forall m, total (fun _ => z) m = (Z.of_nat m * z)%Z) by (intros m; induction m as [|m IH]; [reflexivity|]; rewrite total_S, IH, Nat2Z.inj_succ; ring). rewrite T in X. lia.
Qed.

Lemma term_private : forall es, tdecent_run P w rf ok es -> in_turn w es ->
  exists s o ts zs xs ys, term_run w rf es (term0 P w) = Some (s, o) /\ ndecent_run P w ok ts /\ net_run w ts (net0 P w) = Some (tm_net s, zs) /\ NI P w ok ts zs (tm_net s) xs ys /\
    (forall n, took n o = injected ts n ++ opt (tm_inj s n)) /\
    (forall n, n < w_nodes w -> got n o ++ unread n es s = ejected zs n /\
      (forall v, count_occ Nat.eq_dec (NetSpec.credited ts n) v <= count_occ Nat.eq_dec (freed n es) v) /\
      Forall (fun f => f_vc f < bc_vcs (w_b w)) (took n o) /\ (forall v, well_formed (on_vc v (took n o))) /\ (forall f, In f (took n o) -> f_head f = true -> ok (Inj n) f)).
Proof.
  intros es D Al. destruct private_inv as [I [HP [HS HO]]].
  destruct (term_run_ok P w rf ok I W private_sp HP HS HO RO es [] [] (term0 P w) _ _ _ _ _ (ti0 P w ok I private_sp HP)) as [s [o [ts [zs [xs [ys [hb [E T]]]]]]]]; auto.
  cbn [app] in T. exists s, o, ts, zs, xs, ys. split; auto. split; [apply T|]. split; [apply T|]. split; [apply T|]. split; [intros n; apply (ti_took _ _ _ _ _ _ _ _ _ _ _ _ T n)|]. intros n Hn.
  split; [apply (ti_got _ _ _ _ _ _ _ _ _ _ _ _ T n Hn)|]. split; [intros v; pose proof (ti_free _ _ _ _ _ _ _ _ _ _ _ _ T n v); lia|].
  destruct (ti_wf _ _ _ _ _ _ _ _ _ _ _ _ T n) as [A B]. split; [eapply Forall_impl; [|exact A]; cbn; tauto|]. split; [exact B|]. intros f Hf Hh. rewrite Forall_forall in A. apply (A f Hf). auto.
Qed.

(** A node never gets more flits of a channel than it has freed slots, plus the slots of a buffer. *)
Lemma eject_room : forall ts zs s xs ys n v, NI P w ok ts zs s xs ys -> n < w_nodes w -> v < bc_vcs (w_b w) ->
  (Z.of_nat (length (on_vc v (ejected zs n))) <= Z.of_nat (count_occ Nat.eq_dec (NetSpec.credited ts n) v) + vc_size w bz vz)%Z.
Proof.
  intros ts zs s xs ys n v N Hn Hv'. pose proof Hn as Hn'. apply (proj2 (wi_ej w W n)) in Hn'. destruct (w_src w (Ej n)) as [[r p]|] eqn:Ek; [|congruence].
  apply (wi_out w W) in Ek as Ek'. destruct Ek' as [Hr [Hp _]]. destruct (ni_run _ _ _ _ _ _ _ _ N r Hr) as [D E]. pose proof (ni_car _ _ _ _ _ _ _ _ N) as C.
  pose proof (proj1 (wi_b w W r Hr)) as Eb. pose proof (vcs_of w W r Hr) as Ev.
  destruct (C41_private (w_cfg w r) P (xs r) bz vz Hb) as [s' [ys' [E' B]]]; auto; [rewrite Ev; auto|rewrite Ev, Eb; auto|]. rewrite E in E'. injection E' as <- <-.
  specialize (B p v Hp ltac:(rewrite Ev; auto)). rewrite Ev in B. pose proof (cr_eject _ _ _ _ _ _ C n r p Ek) as E1. pose proof (cr_cred _ _ _ _ _ _ C _ r p Ek) as E2.
  unfold entered in E1. unfold gave in E2. rewrite Ek in E1. rewrite (proj1 (wi_ej w W n)) in E2. unfold vc_size. rewrite <- E1, on_vc_app, app_length in B.
  rewrite <- E2, count_occ_app. lia.
Qed.
End Private.

(** ** Meshes with dimension-order routing *)
Lemma tdecent_weaken : forall P w rf (ok ok' : cid -> flit -> Prop), (forall n f, n < w_nodes w -> f_vc f < bc_vcs (w_b w) -> f_head f = true -> ok (Inj n) f -> ok' (Inj n) f) ->
  forall es h o (s : term P), tdecent_from w rf ok h o es s -> tdecent_from w rf ok' h o es s.
Proof.
  intros P w rf ok ok' H es. induction es as [|e es IH]; intros h o s D; [exact Logic.I|]. destruct D as [D1 D2]. split; [|intros s' o' E; apply IH; auto].
  destruct e as [n now f|n|n v|k]; auto. destruct D1 as [A B]. split; auto. intros g Eg. destruct (B g Eg) as [B1 [B2 B3]]. split; auto.
Qed.
Lemma together_map : forall A (h : A -> nat) (flow flow' : Z -> nat) (F : Z -> A), (forall i, flow' i = h (F i)) -> forall l, (forall l1 a b l2, l = l1 ++ a :: b :: l2 -> f_tail a = false -> F (f_id b) = F (f_id a)) -> together flow' l.
Proof. intros A h flow flow' F E l H l1 a b l2 El Ht. rewrite !E. f_equal. eapply H; eauto. Qed.
(** The flits from [m] to [d] of the type with channel [v]. *)
Definition flow_of (T : traffic) (m d v : nat) (i : Z) : nat := if Nat.eqb (y_src T i) m && Nat.eqb (y_dest T i) d && Nat.eqb (y_b T i) v then 1 else 0.
Lemma agree_flow : forall T m d v l, agree T l -> together (flow_of T m d v) l.
Proof.
  intros T m d v l [A [B [C _]]] l1 a b l2 E Ht. unfold flow_of. rewrite (A _ _ _ _ E Ht), (B _ _ _ _ E Ht), (C _ _ _ _ E Ht). reflexivity.
Qed.
Lemma between_fl : forall T m d v l, between T m d v l = fl (flow_of T m d v) 1 l.
Proof. intros. apply filter_ext. intros f. unfold flow_of. destruct (_ && _); reflexivity. Qed.
Lemma agree_pre : forall T a b, agree T (a ++ b) -> agree T a.
Proof. intros T a b [A [B [C D]]]. repeat split; eapply together_pre; eauto. Qed.

Section Mesh.
Variables (P : bpolicy) (mesh nl : bool) (k : Z) (n : nat) (b : bcfg) (rd : bool) (cd ob : Z) (T : traffic) (bz vz : Z).
Let w := cube mesh nl k n b rd cd ob.
Let rf := routes_of (dim_order_mesh k n (k ^ Z.of_nat n)) T.
Let ok := head_ok (rf_dor k n) k n T (bc_vcs b).
Hypothesis K : (1 <= k)%Z.
Hypothesis Hb : bz <> 0%Z.
Hypothesis Hv : 0 < bc_vcs b.
Hypothesis EP : new_private (bc_vcs b) bz vz (bc_wait b) = Some (b, P).
Let W : wired w := cube_wired k n K mesh nl b rd cd ob.

Lemma dor_delivers : forall x y, delivers (rf_dor k n) k n x y (mesh_dist k n) (in_box k n) (mesh_link k n).
Proof. intros. apply C36_dim_order. exact K. Qed.
Lemma dor_routes : routes_ok w rf ok.
Proof.
  split.
  - intros r i f Hr Hi Hh O. unfold rf, routes_of. set (res := match dim_order_mesh k n (k ^ Z.of_nat n) (asked T r i f) with Some es => Some (es, tt) | None => None end).
    destruct (lawful_of k n K mesh nl b rd cd ob (rf_dor k n) T _ _ _ (fun _ _ => dor_delivers _ _) (dor_one k n) r i f res Hr Hi O eq_refl) as [es [s' [E [_ L]]]].
    unfold res in E. destruct (dim_order_mesh k n (k ^ Z.of_nat n) (asked T r i f)) as [l|]; [|discriminate]. injection E as -> _. exact L.
  - intros c f g [S _] Ev O. unfold ok, head_ok, under_way in *. rewrite S, Ev. exact O.
Qed.
Lemma starts_ok : forall m f, m < w_nodes w -> f_vc f < bc_vcs b -> f_head f = true -> starts T w (Inj m) f -> ok (Inj m) f.
Proof.
  intros m f Hm Hf Hh [A [B [C D]]]. change (bc_vcs (w_b w)) with (bc_vcs b) in D. unfold ok, head_ok. split; [apply grid_nat; auto; rewrite A; exact Hm|]. split; [apply grid_nat; auto; exact B|]. split; [lia|]. split; auto.
Qed.
Lemma mesh_decent : forall es, tdecent_run P w rf (starts T w) es -> tdecent_run P w rf ok es.
Proof. intros es D. eapply tdecent_weaken; [|exact D]. apply starts_ok. Qed.

Lemma dor_way : forall m d v, m < w_nodes w -> d < w_nodes w -> v < bc_vcs b -> (forall i, y_e T i = y_b T i) -> exists p, one_way w ok (flow_of T m d v) 1 m d p.
Proof.
  intros m d v Hm Hd Hv' Eb. apply (cube_one_way k n mesh nl b rd cd ob (rf_dor k n) T (mesh_dist k n) (in_box k n) (mesh_link k n) (fun u d => dor_next_mesh k n (k ^ Z.of_nat n) false u d) K) with (v := v); auto.
  - intros x es s0 e Hi R He. unfold rf_dor, rf_pure, dim_order_mesh in R. destruct (negb _); [discriminate|]. rewrite Hi in R. injection R as -> _. destruct He as [<-|[]]. reflexivity.
  - intros. apply mesh_dist_nonneg.
  - intros a Ga. apply mesh_dist_0; auto.
  - intros id Q. unfold flow_of in Q. destruct (Nat.eqb_spec (y_src T id) m), (Nat.eqb_spec (y_dest T id) d), (Nat.eqb_spec (y_b T id) v); try discriminate. rewrite Eb. auto.
  - apply dor_delivers.
Qed.

Lemma mesh_carries : forall es, tdecent_run P w rf (starts T w) es -> in_turn w es -> (forall i, y_e T i = y_b T i) ->
  exists s o, term_run w rf es (term0 P w) = Some (s, o) /\
    (forall d v, d < w_nodes w -> v < bc_vcs b -> (Z.of_nat (length (on_vc v (got d o ++ unread d es s))) <= Z.of_nat (count_occ Nat.eq_dec (freed d es) v) + vc_size w bz vz)%Z) /\
    ((forall m v, agree T (on_vc v (took m o))) -> forall d, d < w_nodes w ->
      (forall f, In f (got d o) -> y_dest T (f_id f) = d /\ y_src T (f_id f) < w_nodes w /\ f_vc f = y_b T (f_id f) /\ f_vc f < bc_vcs b) /\
      (forall v, well_formed (on_vc v (got d o)) /\ agree T (on_vc v (got d o))) /\
      (forall m v, m < w_nodes w -> v < bc_vcs b -> prefix (map tag (between T m d v (got d o))) (map tag (between T m d v (took m o))) /\
        (drained w es s -> map tag (between T m d v (got d o)) = map tag (between T m d v (took m o))))).
Proof.
  intros es D Al Eb. apply mesh_decent in D. pose proof (private_sp P w bz vz Hb Hv EP) as SP. destruct (term_private P w rf ok bz vz W Hb Hv EP dor_routes es D Al) as [s [o [ts [zs [xs [ys [E [Nd [Er [N [Xt X]]]]]]]]]]].
  exists s, o. split; auto. split.
  { intros d v Hd Hv'. destruct (X d Hd) as [X2 [X3 _]]. rewrite X2. pose proof (eject_room P w ok bz vz W Hb Hv EP ts zs _ xs ys d v N Hd Hv') as R. specialize (X3 v). lia. }
  intros Ag d Hd. destruct (X d Hd) as [X2 _].
  assert (Tg : forall flow, (forall l, agree T l -> together flow l) -> forall m v, together flow (on_vc v (injected ts m))).
  { intros flow H m v. apply H. pose proof (Ag m v) as A. rewrite (Xt m), on_vc_app in A. eapply agree_pre; eauto. }
  assert (G1 : forall f, In f (got d o) -> f_vc f < bc_vcs b).
  { intros f Hf. apply (proj1 (C78_whole P w ok (y_src T) ts _ zs d W SP Nd (Tg _ (fun l A => proj1 A)) Er Hd)). rewrite <- X2, in_app_iff. auto. }
  assert (G2 : forall v, well_formed (on_vc v (got d o)) /\ agree T (on_vc v (got d o))).
  { intros v. destruct (Nat.lt_ge_cases v (bc_vcs b)) as [Hv'|Hv'].
    - assert (A : forall flow, (forall l, agree T l -> together flow l) -> well_formed (on_vc v (got d o)) /\ together flow (on_vc v (got d o))).
      { intros flow H. destruct (C78_whole P w ok flow ts _ zs d W SP Nd (Tg _ H) Er Hd) as [_ [B _]]. destruct (B v Hv') as [B1 B2]. rewrite <- X2, on_vc_app in B1, B2. split; [eapply parse_pre; eauto|eapply together_pre; eauto]. }
      split; [apply (A (y_src T)); intros l [H _]; exact H|]. split; [|split; [|split]]; apply A; intros l H; apply H.
    - assert (Z0 : on_vc v (got d o) = []). { destruct (on_vc v (got d o)) as [|f r] eqn:Ef; auto. exfalso. assert (In f (on_vc v (got d o))) as Hin by (rewrite Ef; left; auto). apply filter_In in Hin. destruct Hin as [H1 H2]. apply Nat.eqb_eq in H2. specialize (G1 f H1). lia. }
      rewrite Z0. split; [discriminate|]. repeat split; intros [|? [|? ?]] ? ? ? Q; discriminate. }
  split; [|split; [exact G2|]].
  - intros f Hf. assert (Hf' : In f (ejected zs d)) by (rewrite <- X2, in_app_iff; auto).
    set (enc := fun i : Z => flow_of T (y_src T (f_id f)) (y_dest T (f_id f)) (y_b T (f_id f)) i).
    destruct (C78_whole P w ok enc ts _ zs d W SP Nd (Tg _ (agree_flow T _ _ _)) Er Hd) as [_ [_ B]]. destruct (B f Hf') as [g [_ [_ [Ev [Ef O]]]]].
    unfold enc, flow_of in Ef. rewrite !Nat.eqb_refl in Ef. cbn [andb] in Ef. destruct (Nat.eqb_spec (y_src T (f_id g)) (y_src T (f_id f))) as [F1|]; [|discriminate]. destruct (Nat.eqb_spec (y_dest T (f_id g)) (y_dest T (f_id f))) as [F2|]; [|discriminate].
    destruct (Nat.eqb_spec (y_b T (f_id g)) (y_b T (f_id f))) as [F3|]; [|discriminate]. destruct O as [O1 [O2 [O3 [O4 O5]]]]. rewrite Eb in O4. split; [congruence|]. split; [rewrite <- F1; apply (proj2 (grid_nat k n K _)); exact O1|]. split; [lia|auto].
  - intros m v Hm Hv'. rewrite !between_fl. destruct (dor_way m d v Hm Hd Hv' Eb) as [p OW].
    destruct (C79_order P w ok _ _ _ _ _ ts _ zs W SP Nd (Tg _ (agree_flow T m d v)) OW Er) as [[q [Q1 Q2]] _]. rewrite <- X2 in Q1. rewrite (Xt m). unfold fl in *. rewrite filter_app, map_app in Q1. rewrite filter_app, map_app. split.
    + eexists. rewrite Q1, <- !app_assoc. reflexivity.
    + intros [D1 D2]. destruct (D2 m Hm) as [D3 _]. destruct (D2 d Hd) as [_ D4]. rewrite D3. rewrite D4 in Q1. cbn [opt filter map] in *. rewrite app_nil_r in Q1. rewrite app_nil_r, Q1.
      destruct q as [|f q]; [cbn; rewrite app_nil_r; reflexivity|]. exfalso. destruct (Q2 f (or_introl eq_refl)) as [Q3 _]. rewrite D1 in Q3. exact Q3.
Qed.
End Mesh.
