(** A system in which a node loses the credits of a channel. *)
From Coq Require Import ZArith Arith Bool List Lia.
From Verif Require Import Bits Fupd ArbiterModel AllocModel AllocSpec BufferModel BufferSpec BufferProofs RouteModel RouteSpec ChannelModel CreditModel IqRouterModel IqRouterSpec IqRouterProofs IqRouterInv NetModel NetSpec NetProofs
  NetMeshModel NetMeshSpec NetMeshProofs StreamSpec StreamProofs TermModel TermSpec TermProofs TermFlow TermProgress AxisFormatModel AxisSlaveModel AxisSlaveSpec AxisSlaveProofs AxisMasterModel AxisMasterSpec AxisMasterProofs EndToEndSpec EndToEndProofs
  FlitCode SysModel SysSpec SysLemmas SysBridge SysProofs SysProgress TermLostSpec TermLost Prop_Net.
Import ListNotations.
Open Scope nat_scope.

Lemma between_strip : forall T m d v l, length (between T m d v (map strip l)) = length (between T m d v l).
Proof. intros T m d v l. unfold between. induction l as [|f l IH]; auto. cbn [map filter strip f_id]. destruct (_ && _); cbn [length]; congruence. Qed.
Lemma between_app : forall T m d v a b, between T m d v (a ++ b) = between T m d v a ++ between T m d v b.
Proof. intros. apply filter_app. Qed.
Lemma map_tag_len : forall a b : list flit, map tag a = map tag b -> length a = length b.
Proof. intros a b H. rewrite <- (map_length tag a), H. apply map_length. Qed.

Section Sys.
Variables (P : bpolicy) (mesh nl : bool) (k : Z) (nn : nat) (b : bcfg) (rd : bool) (cd ob : Z) (bz vz : Z) (ch : Z -> nat) (cs : Z -> scfg) (ms : nat -> mcfg).
Let w := cube mesh nl k nn b rd cd ob.
Let T := sys_traffic ch.
Let rf := routes_of (dim_order_mesh k nn (k ^ Z.of_nat nn)) T.
Let N := w_nodes w.
Hypothesis K : (1 <= k)%Z.
Hypothesis Hb : bz <> 0%Z.
Hypothesis Hv : 0 < bc_vcs b.
Hypothesis EP : new_private (bc_vcs b) bz vz (bc_wait b) = Some (b, P).
Hypothesis FT : fitting N (bc_vcs b) (vc_size w bz vz) ch cs ms.
Notation PIx := (PI P mesh nl k nn b rd cd ob ch cs ms).
Notation BIx := (BI P mesh nl k nn b rd cd ob ch cs ms).

Lemma acts_evs_run : forall g rdy sh mh prev l don cn av es o (s : sys P), PIx g rdy sh mh prev don cn av es o s -> NoDup (don ++ l) -> (forall a, In a l -> match a with AS n _ | AM n _ => n < N | ATick => True end) ->
  take_turns N (prev ++ don ++ l) -> (forall h x, tdecent w (starts T w) h x (VTick (g_clk g))) ->
  exists s' o' cn' av', do_acts w rf cs ms g rdy l s = Some (s', o') /\ PIx g rdy sh mh prev (don ++ l) cn' av' (es ++ acts_evs w rf cs ms g rdy l s) (o ++ o') s'.
Proof.
  intros g rdy sh mh prev l. induction l as [|a l IH]; intros don cn av es o s I ND NO TT DK; [cbn [do_acts acts_evs]; exists s, [], cn, av; rewrite !app_nil_r; auto|].
  destruct (act_one P mesh nl k nn b rd cd ob bz vz ch cs ms K Hb Hv EP FT g rdy sh mh prev don cn av es o s a I) as [s1 [o1 [cn1 [av1 [E1 I1]]]]]; auto.
  - change (a :: l) with ([a] ++ l) in ND. rewrite app_assoc in ND. eapply IqRouterInv.NoDup_left; exact ND.
  - apply NO. left. auto.
  - eapply turns_pre. rewrite <- !app_assoc. exact TT.
  - destruct (IH (don ++ [a]) cn1 av1 _ (o ++ o1) s1 I1) as [s2 [o2 [cn2 [av2 [E2 I2]]]]].
    + rewrite <- app_assoc. exact ND.
    + intros x Hx. apply NO. right. auto.
    + rewrite <- app_assoc. exact TT.
    + exact DK.
    + exists s2, (o1 ++ o2), cn2, av2. cbn [do_acts acts_evs]. fold w T rf in E1. rewrite E1, E2. split; auto. rewrite <- !app_assoc in I2. exact I2.
Qed.
Lemma evs_run : forall gs sh mh prev es o (s : sys P), BIx sh mh prev es o s -> Forall (good_ginst w cs ms) gs -> take_turns N (prev ++ flat_map g_acts gs) ->
  exists s' o' sh' mh', sys_run w rf cs ms gs s = Some (s', o') /\ BIx sh' mh' (prev ++ flat_map g_acts gs) (es ++ sys_evs w rf cs ms gs s) (o ++ o') s'.
Proof.
  intros gs. induction gs as [|g gs IH]; intros sh mh prev es o s B G TT.
  - exists s, [], sh, mh. cbn [sys_run flat_map sys_evs]. rewrite !app_nil_r. auto.
  - inversion G as [|? ? G1 G2]; subst. cbn [flat_map] in *.
    destruct (acts_evs_run g _ sh mh prev (g_acts g) [] _ _ es o _ (PI_start P mesh nl k nn b rd cd ob ch cs ms g sh mh prev es o s B ltac:(intros n i t Hn Hi Ht; apply (gi_txn _ _ _ _ G1); auto))) as [s1 [o1 [cn1 [av1 [E1 I1]]]]].
    + apply (gi_once _ _ _ _ G1).
    + apply (gi_node _ _ _ _ G1).
    + rewrite app_assoc in TT. eapply turns_pre; exact TT.
    + intros h x. split; [apply (gi_va _ _ _ _ G1)|apply (gi_sa _ _ _ _ G1)].
    + pose proof (PI_end _ _ _ _ _ _ _ _ _ _ _ _ _ _ _ _ _ _ _ _ _ _ _ I1 (gi_once _ _ _ _ G1)) as B1. destruct (IH _ _ (prev ++ g_acts g) _ (o ++ o1) _ B1 G2) as [s2 [o2 [sh2 [mh2 [E2 B2]]]]]; [rewrite <- app_assoc; exact TT|].
      exists s2, (o1 ++ o2), sh2, mh2. cbn [sys_run sys_evs]. unfold inst_evs, sys_step. rewrite E1, E2. split; auto. rewrite !app_assoc in *. exact B2.
Qed.

Lemma evs_decent : forall gs, Forall (good_ginst w cs ms) gs -> take_turns N (flat_map g_acts gs) -> tdecent_run P w rf (head_ok (rf_dor k nn) k nn T (bc_vcs b)) (sys_evs w rf cs ms gs (sys0 (P := P) w cs ms)) /\ in_turn w (sys_evs w rf cs ms gs (sys0 (P := P) w cs ms)).
Proof.
  intros gs G TT. destruct (evs_run gs _ _ _ _ _ _ (BI_zero P mesh nl k nn b rd cd ob ch cs ms) G TT) as [s [o [sh [mh [_ B]]]]]. cbn [app] in B. split.
  - apply mesh_decent; auto. apply (b_dec _ _ _ _ _ _ _ _ _ _ _ _ _ _ _ _ _ _ B).
  - eapply alternate_both; [intros n _; apply (b_inj _ _ _ _ _ _ _ _ _ _ _ _ _ _ _ _ _ _ B)|intros n _; apply (b_read _ _ _ _ _ _ _ _ _ _ _ _ _ _ _ _ _ _ B)|exact TT|reflexivity].
Qed.
Lemma stays : forall gs1 gs2 d v (s1 : sys P) o1, Forall (good_ginst w cs ms) (gs1 ++ gs2) -> take_turns N (flat_map g_acts (gs1 ++ gs2)) -> d < N -> v < bc_vcs b -> sys_run w rf cs ms gs1 (sys0 w cs ms) = Some (s1, o1) ->
  (vc_size w bz vz <= Z.of_nat (lost d v false (sys_evs w rf cs ms gs1 (sys0 (P := P) w cs ms))))%Z ->
  exists (s : sys P) o, sys_run w rf cs ms (gs1 ++ gs2) (sys0 w cs ms) = Some (s, o1 ++ o) /\ IqRouterSpec.on_vc v (got d (of_net (o1 ++ o))) = IqRouterSpec.on_vc v (got d (of_net o1)) /\
    forall q, q < N -> length (between T q d v (got d (of_net o1))) < length (between T q d v (map net_flit (flat_map (packet_of (cs (Z.of_nat q))) (accepts (of_slave q o1))))) -> ~ at_rest w ms (flat_map g_acts (gs1 ++ gs2)) s.
Proof.
  intros gs1 gs2 d v s1 o1 G TT Hd Hv' E1 L. apply Forall_app in G. destruct G as [G1 G2]. rewrite flat_map_app in *.
  destruct (evs_run gs1 _ _ _ _ _ _ (BI_zero P mesh nl k nn b rd cd ob ch cs ms) G1) as [s1' [o1' [sh1 [mh1 [E1' B1]]]]]; [cbn [app]; eapply turns_pre; exact TT|]. cbn [app] in *. fold w T rf in E1'. rewrite E1 in E1'. injection E1' as <- <-.
  destruct (evs_run gs2 _ _ _ _ _ _ B1 G2 TT) as [s2 [o2 [sh2 [mh2 [E2 B2]]]]]. exists s2, o2. split; [rewrite sys_run_app, E1, E2; reflexivity|].
  set (es1 := sys_evs w rf cs ms gs1 _) in *. set (es2 := sys_evs w rf cs ms gs2 _) in *.
  pose proof (b_run _ _ _ _ _ _ _ _ _ _ _ _ _ _ _ _ _ _ B1) as R1. pose proof (b_run _ _ _ _ _ _ _ _ _ _ _ _ _ _ _ _ _ _ B2) as R2. pose proof (b_dec _ _ _ _ _ _ _ _ _ _ _ _ _ _ _ _ _ _ B2) as D2.
  assert (U2 : in_turn w (es1 ++ es2)) by (eapply alternate_both; [intros n _; apply (b_inj _ _ _ _ _ _ _ _ _ _ _ _ _ _ _ _ _ _ B2)|intros n _; apply (b_read _ _ _ _ _ _ _ _ _ _ _ _ _ _ _ _ _ _ B2)|exact TT|reflexivity]).
  assert (Q : IqRouterSpec.on_vc v (got d (of_net (o1 ++ o2))) = IqRouterSpec.on_vc v (got d (of_net o1))).
  { eapply (no_more P w rf _ bz vz (cube_wired k nn K mesh nl b rd cd ob) Hb Hv EP (dor_routes mesh nl k nn b rd cd ob T K)); eauto. apply mesh_decent; auto. }
  split; auto. intros q Hq Lt AR. destruct AR as [A1 [A2 [A3 A4]]].
  pose proof (PI_start P mesh nl k nn b rd cd ob ch cs ms still _ _ _ _ _ _ B2 ltac:(intros n i t _ _ H; discriminate)) as J.
  destruct (mesh_carries P mesh nl k nn b rd cd ob T bz vz K Hb Hv EP _ D2 U2 (fun _ => eq_refl)) as [s' [o' [E' [_ X]]]]. assert (EE : Some (y_t s2, of_net (o1 ++ o2)) = Some (s', o')) by (etransitivity; [symmetry; exact R2|exact E']). injection EE as <- <-.
  assert (Ag : forall m u, agree T (IqRouterSpec.on_vc u (took m (of_net (o1 ++ o2))))) by (eapply agreed; [exact Hv|exact FT|exact J|apply (b_put _ _ _ _ _ _ _ _ _ _ _ _ _ _ _ _ _ _ B2)]).
  destruct (X Ag d Hd) as [X1 [_ X3]]. destruct (X3 q v Hq Hv') as [_ X4].
  assert (DR : TermSpec.drained w (es1 ++ es2) (y_t s2)).
  { split; auto. intros n Hn. destruct (A3 n Hn) as [B3 B4]. split; auto. unfold unread. rewrite (b_read _ _ _ _ _ _ _ _ _ _ _ _ _ _ _ _ _ _ B2 n). destruct B4 as [-> | ->]; [reflexivity|]. destruct (last _ _); reflexivity. }
  specialize (X4 DR). apply map_tag_len in X4.
  assert (Z1 : length (between T q d v (got d (of_net (o1 ++ o2)))) = length (between T q d v (got d (of_net o1)))).
  { assert (Sub : forall l, (forall f, In f l -> IqRouterModel.f_vc f = y_b T (f_id f)) -> between T q d v l = between T q d v (IqRouterSpec.on_vc v l)).
    { intros l. induction l as [|f l IH]; intros H; auto. unfold between, IqRouterSpec.on_vc in *. cbn [filter]. specialize (IH (fun g Hg => H g (or_intror Hg))). rewrite (H f (or_introl eq_refl)). destruct (Nat.eqb_spec (y_b T (f_id f)) v) as [Ev|Nv].
      - cbn [filter]. rewrite Ev, Nat.eqb_refl, IH. reflexivity.
      - rewrite andb_false_r. exact IH. }
    rewrite (Sub (got d (of_net (o1 ++ o2)))) by (intros f Hf; apply (X1 f Hf)). rewrite (Sub (got d (of_net o1))) by (intros f Hf; apply (X1 f); rewrite of_net_app, got_app, in_app_iff; auto). rewrite Q. reflexivity. }
  assert (Z2 : length (between T q d v (took q (of_net (o1 ++ o2)))) = length (between T q d v (map net_flit (flat_map (packet_of (cs (Z.of_nat q))) (accepts (of_slave q (o1 ++ o2))))))).
  { rewrite <- between_strip, (b_put _ _ _ _ _ _ _ _ _ _ _ _ _ _ _ _ _ _ B2 q), <- (once P mesh nl k nn b rd cd ob bz vz ch cs ms FT J q). destruct (A1 q Hq) as [C1 [C2 C3]]. do 2 f_equal.
    assert (Pe : pend (cs (Z.of_nat q)) (y_sl (mkY (y_t s2) (fun n => settled cs still n (y_sl s2 n)) (y_ma s2)) q) = []); [|rewrite Pe; cbn [map]; rewrite app_nil_r; reflexivity].
    cbn [y_sl]. unfold pend, settled. cbn [tobe injfifo infifo]. rewrite C1, C2, C3. reflexivity. }
  rewrite of_slave_app, accepts_app', flat_map_app, map_app, between_app, app_length in Z2. lia.
Qed.
End Sys.
