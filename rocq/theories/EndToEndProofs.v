From Coq Require Import ZArith Bool List Lia.
From Verif Require Import Bits AxisFormatModel AxisFormatProofs AxisSlaveModel AxisSlaveSpec AxisSlaveProofs
  AxisMasterModel AxisMasterSpec AxisMasterProofs StreamSpec StreamProofs EndToEndSpec.
Import ListNotations.
Local Open Scope Z_scope.

Lemma accepted_iface : forall c evs s s' o, prio s = seq 0 (s_nif c) -> s_run c evs s = (s', o) ->
  forall e, In e (accepts o) -> (e_iface e < s_nif c)%nat.
Proof.
  intros c evs. induction evs as [|ev evs IH]; intros s s' o P R e H; cbn in R.
  - inversion R; subst. destruct H.
  - destruct (s_step c ev s) as [s1 o1] eqn:E1.
    destruct (s_run c evs s1) as [s2 o2] eqn:E2. inversion R; subst.
    rewrite accepts_app in H. apply in_app_or in H. destruct H as [H|H].
    + destruct (accept_lowest _ _ _ _ _ _ P E1 H) as (X & _). exact X.
    + refine (IH _ _ _ _ E2 e H). eapply step_prio; eauto.
Qed.

Lemma trace_iface : forall c evs e, In e (accepts (trace c evs)) -> (e_iface e < s_nif c)%nat.
Proof.
  intros c evs e H. unfold trace in H. destruct (s_run c evs (s_init c)) as [s o] eqn:R. eapply accepted_iface; eauto. reflexivity.
Qed.

Lemma trace_once : forall c evs, good_scfg c ->
  prefix (injects (trace c evs)) (flat_map (packet_of c) (accepts (trace c evs))) /\
  (idle c evs -> injects (trace c evs) = flat_map (packet_of c) (accepts (trace c evs))).
Proof.
  intros c evs G. unfold trace, idle. destruct (s_run c evs (s_init c)) as [s o] eqn:R. cbn [fst snd].
  destruct (exactly_once_full c G evs s o R) as (rest & H1 & H2). split; [exists rest; exact H1|].
  intros (A & B & C). rewrite H1, (H2 A B C), app_nil_r. reflexivity.
Qed.

Lemma num_flits_mono : forall w a b, 0 < linkw w -> a <= b -> num_flits w a <= num_flits w b.
Proof. intros w a b L H. unfold num_flits. apply Z.div_le_mono; lia. Qed.

Section P.
Variables (m : mcfg) (cs : Z -> scfg) (sevs : Z -> list instant) (here : bs_dest -> bool) (lane : Z -> Z -> Z -> nat).
Hypothesis OK : forall k, sender_ok m k (cs k).
Let tr k := trace (cs k) (sevs k).
Hypothesis FIT : forall k e, In e (accepts (tr k)) -> here (target (cs k) e) = true -> fits m (cs k) e.

Definition pkv (v : nat) (k : Z) (e : entry) : list bflit := map (set_vc v) (packet_of (cs k) e).
Definition mine (k : Z) (v : nat) : list entry := filter (meant here lane cs k v) (accepts (tr k)).

Lemma pkv_packet : forall k v e, (e_iface e < s_nif (cs k))%nat ->
  packet b_tail (pkv v k e) /\ forall f, In f (pkv v k e) -> b_src f = k.
Proof.
  intros k v e He. destruct (OK k) as (G & N & _). destruct (packet_shape (cs k) G e He) as (n & L & S).
  unfold pkv. split; [split|].
  - intros E. apply (f_equal (@length _)) in E. rewrite map_length, L in E. discriminate.
  - intros j f H. rewrite nth_error_map in H. destruct (nth_error (packet_of (cs k) e) j) as [g|] eqn:Hg; [|discriminate].
    cbn [option_map] in H. injection H as <-. destruct (S j g Hg) as (_ & T & _). rewrite map_length, L. cbn [b_tail set_vc].
    rewrite T. lia.
  - intros f H. apply in_map_iff in H. destruct H as (g & <- & Hg). apply In_nth_error in Hg. destruct Hg as (j & Hg).
    destruct (S j g Hg) as (_ & _ & _ & _ & Sr & _). cbn [b_src set_vc]. congruence.
Qed.

Lemma mine_iface : forall k v e, In e (mine k v) -> (e_iface e < s_nif (cs k))%nat.
Proof. intros k v e H. apply filter_In in H. destruct H as [H _]. eapply trace_iface; eauto. Qed.

Lemma mine_fits : forall k v e, In e (mine k v) -> fits m (cs k) e.
Proof.
  intros k v e H. apply filter_In in H. destruct H as [H1 H2]. apply andb_prop in H2. destruct H2 as [H2 _]. apply FIT; auto.
Qed.

Lemma sent_mine : forall k v,
  map (set_vc v) (filter (bound here lane k v) (flat_map (packet_of (cs k)) (accepts (tr k)))) = concat (map (pkv v k) (mine k v)).
Proof.
  intros k v. destruct (OK k) as (G & _ & _).
  rewrite (filter_flat_map _ _ (packet_of (cs k)) (bound here lane k v) (meant here lane cs k v)).
  - unfold pkv, mine. rewrite flat_map_concat_map, concat_map, map_map. reflexivity.
  - intros e f He Hf. apply trace_iface in He. destruct (packet_shape (cs k) G e He) as (n & _ & S).
    apply In_nth_error in Hf. destruct Hf as (j & Hf). destruct (S j f Hf) as (_ & _ & P & Y & _ & _ & D).
    unfold bound, meant. rewrite P, Y, D. reflexivity.
Qed.

Lemma sent_prefix : forall k v, prefix (map (set_vc v) (filter (bound here lane k v) (injects (tr k)))) (concat (map (pkv v k) (mine k v))).
Proof.
  intros k v. rewrite <- sent_mine. apply prefix_map, prefix_filter. apply trace_once. apply OK.
Qed.

Lemma pkv_iface : forall k v e, In e (mine k v) ->
  pkt_iface m (pkv v k e) = Z.to_nat (trunc (ifacew (m_w m)) (t_tid (e_txn e))).
Proof.
  intros k v e H. pose proof (mine_iface _ _ _ H) as Hi. destruct (OK k) as (G & _ & W).
  destruct (packet_shape (cs k) G e Hi) as (n & L & S). unfold pkt_iface, pkv.
  destruct (packet_of (cs k) e) as [|f r]; [discriminate|]. cbn [map]. destruct (S 0%nat f eq_refl) as (_ & _ & _ & _ & _ & I & _).
  cbn [b_iface set_vc]. rewrite I, W. unfold iface_of_tid, trunc. rewrite <- Z.land_assoc, Z.land_diag. reflexivity.
Qed.

Lemma pkv_length : forall k v e, In e (mine k v) -> length (pkv v k e) = nflits (cs k) (e_iface e).
Proof.
  intros k v e H. unfold pkv. rewrite map_length. apply packet_length; [apply OK|]. eapply mine_iface; eauto.
Qed.

Lemma pkv_wf : forall k v e, In e (mine k v) -> wf_packet m (pkv v k e).
Proof.
  intros k v e H. pose proof (mine_iface _ _ _ H) as Hi. pose proof (mine_fits _ _ _ H) as (F1 & F2 & F3 & F4).
  destruct (OK k) as (G & _ & W). destruct (pkv_packet k v e Hi) as ((P1 & P2) & _).
  unfold wf_packet. rewrite (pkv_iface k v e H). split; [exact P1|]. split; [exact F3|]. split; [|split; [exact P2|]].
  - rewrite (pkv_length k v e H). unfold nflits, m_nfl. rewrite W. apply Z2Nat.inj_le; [| |apply num_flits_mono; [|exact F4]].
    + destruct (G) as (L & M & U & D). specialize (D _ Hi). unfold num_flits, payloadw. rewrite W in *. apply Z.div_pos; lia.
    + destruct (G) as (L & M & U & D). specialize (D _ Hi). unfold num_flits, payloadw. rewrite W in *. apply Z.div_pos; lia.
    + destruct G as (L & _). rewrite W in L. exact L.
  - destruct (packet_shape (cs k) G e Hi) as (n & L & S).
    assert (X : forall f, In f (pkv v k e) -> b_iface f = iface_of_tid (s_w (cs k)) (t_tid (e_txn e))).
    { intros f Hf. apply in_map_iff in Hf. destruct Hf as (g & <- & Hg). apply In_nth_error in Hg. destruct Hg as (j & Hg).
      destruct (S j g Hg) as (_ & _ & _ & _ & _ & I & _). exact I. }
    intros f Hf. rewrite (X f Hf). symmetry. apply X. destruct (pkv v k e); [destruct Hf|left; reflexivity].
Qed.

Lemma pkv_received : forall k v e, In e (mine k v) -> spec_out m (pkv v k e) = received m cs (k, e).
Proof.
  intros k v e H. pose proof (mine_iface _ _ _ H) as Hi. pose proof (mine_fits _ _ _ H) as (F1 & F2 & F3 & F4).
  destruct (OK k) as (G & _ & W). unfold spec_out, received. cbn [fst snd].
  assert (D : map b_data (pkv v k e) = map b_data (packet_of (cs k) e)).
  { unfold pkv. rewrite map_map. apply map_ext. reflexivity. }
  rewrite D. rewrite <- W in F1. pose proof (packet_payload (cs k) G e Hi F1 F2) as PP. rewrite W in PP. rewrite PP. cbn [fst snd].
  destruct (packet_shape (cs k) G e Hi) as (n & L & S). unfold pkv.
  destruct (packet_of (cs k) e) as [|f r]; [discriminate|]. cbn [map].
  destruct (S 0%nat f eq_refl) as (_ & _ & _ & _ & _ & I & Ds). cbn [b_iface b_dst set_vc]. rewrite I, Ds. f_equal.
  rewrite W. unfold iface_of_tid, trunc. rewrite <- Z.land_assoc, Z.land_diag. reflexivity.
Qed.

Section N.
Variable input : list bflit.
Hypothesis NOC : noc m here lane (fun k => injects (tr k)) input.

Lemma arrivals : exists Q : nat -> list (Z * entry),
  (forall v q, In q (Q v) -> In (snd q) (mine (fst q) v)) /\
  good_input m input (fun v => map (fun q => pkv v (fst q) (snd q)) (Q v)) /\
  (forall k v, prefix (map snd (filter (fun q => Z.eqb (fst q) k) (Q v))) (mine k v)) /\
  (forall v, (m_nvc m <= v)%nat -> Q v = []) /\
  (noc_empty here lane (fun k => injects (tr k)) input -> (forall k, idle (cs k) (sevs k)) -> forall v,
    filter (on_vc v) input = concat (map (fun q => pkv v (fst q) (snd q)) (Q v)) /\
    forall k, map snd (filter (fun q => Z.eqb (fst q) k) (Q v)) = mine k v).
Proof.
  destruct NOC as (N1 & N2 & N3).
  assert (HN0 : forall v, (m_nvc m <= v)%nat -> filter (on_vc v) input = []).
  { intros v Hv. destruct (filter (on_vc v) input) as [|f r] eqn:E; auto. exfalso.
    assert (In f (filter (on_vc v) input)) as Hf by (rewrite E; left; reflexivity). apply filter_In in Hf. destruct Hf as [Hf Hv2].
    apply N1 in Hf. unfold on_vc in Hv2. apply Nat.eqb_eq in Hv2. lia. }
  destruct (routed _ _ b_tail b_src pkv mine (fun v => filter (on_vc v) input) (m_nvc m)) as (Q & Q1 & Q2 & Q3 & Q4).
  - intros k v e H. apply pkv_packet. eapply mine_iface; eauto.
  - exact N2.
  - exact HN0.
  - intros k v. eapply prefix_trans; [apply N3|]. apply sent_prefix.
  - assert (QI : forall v q, In q (Q v) -> In (snd q) (mine (fst q) v)).
    { intros v q Hq. destruct (Q2 (fst q) v) as (later & E). rewrite E. apply in_or_app. left.
      apply in_map_iff. exists q. split; auto. apply filter_In. split; auto. apply Z.eqb_refl. }
    exists Q. split; [exact QI|]. split; [|split; [exact Q2|split; [intros v Hv; apply Q3; apply HN0; exact Hv|]]].
    + split; [exact N1|]. intros v. split.
      * apply Forall_forall. intros p Hp. apply in_map_iff in Hp. destruct Hp as (q & <- & Hq). apply pkv_wf. auto.
      * destruct (Q1 v) as (more & E). exists more. symmetry. exact E.
    + intros HN HI. apply Q4. intros k v. rewrite (HN k v), <- sent_mine.
      destruct (trace_once (cs k) (sevs k)) as (_ & T); [apply OK|]. fold (tr k) in T. rewrite (T (HI k)). reflexivity.
Qed.

Lemma part_split : forall k v (hist : list (nat * (Z * entry))),
  part k v hist = map snd (filter (fun q => Z.eqb (fst q) k) (map snd (filter (fun x => Nat.eqb (fst x) v) hist))).
Proof.
  intros k v. unfold part. induction hist as [|[u [j e]] hist IH]; cbn [filter map fst snd]; auto.
  destruct (Nat.eqb u v); cbn [andb map filter fst snd]; auto. destruct (Z.eqb j k); cbn [map snd]; rewrite IH; reflexivity.
Qed.

Lemma hist_out : forall (Q : nat -> list (Z * entry)) (hist : list (nat * (Z * entry))) i,
  (forall v q, In q (Q v) -> In (snd q) (mine (fst q) v)) ->
  (forall v, prefix (map snd (filter (fun x => Nat.eqb (fst x) v) hist)) (Q v)) ->
  map (spec_out m) (filter (fun p => Nat.eqb (pkt_iface m p) i)
    (map snd (map (fun h => (fst h, pkv (fst h) (fst (snd h)) (snd (snd h)))) hist))) =
  map (received m cs) (filter (to_iface m i) (map snd hist)).
Proof.
  intros Q hist i QI HQ.
  assert (HI : forall h, In h hist -> In (snd (snd h)) (mine (fst (snd h)) (fst h))).
  { intros h Hh. apply QI. destruct (HQ (fst h)) as (later & E). rewrite E. apply in_or_app. left.
    apply in_map. apply filter_In. split; auto. apply Nat.eqb_refl. }
  clear HQ. induction hist as [|h hist IH]; cbn [map filter fst snd]; auto.
  pose proof (HI h (or_introl eq_refl)) as Hh. rewrite (pkv_iface _ _ _ Hh). unfold to_iface at 1.
  destruct (Nat.eqb _ i); cbn [map]; rewrite IH by (intros; apply HI; right; auto); [|reflexivity].
  rewrite (pkv_received _ _ _ Hh). destruct (snd h); reflexivity.
Qed.

Lemma e2e : forall mevs, good_mcfg m -> Forall ok_minstant mevs ->
  exists s o, m_run m mevs (m_init m input) = Some (s, o) /\
  exists hist : list (nat * (Z * entry)),
    (forall k v, prefix (part k v hist) (mine k v)) /\
    (forall i, prefix (delivers i o) (map (received m cs) (filter (to_iface m i) (map snd hist)))).
Proof.
  intros mevs G HM. destruct arrivals as (Q & QI & GI & Q2 & _).
  destruct (run_safe m input _ mevs G GI HM) as (s & o & R & dl & D1 & D2). exists s, o. split; auto.
  destruct (merge _ _ (fun v q => pkv v (fst q) (snd q)) dl Q) as (hist & H1 & H2).
  { intros v. destruct (D1 v) as (rest & E). exists rest. exact E. }
  exists hist. split.
  - intros k v. eapply prefix_trans; [|apply Q2]. rewrite part_split. apply prefix_map, prefix_filter. apply H2.
  - intros i. destruct (D2 i) as (rest & E). exists rest. rewrite <- E, <- H1. symmetry. eapply hist_out; eauto.
Qed.

Lemma e2e_rest : forall mevs s o, good_mcfg m -> Forall ok_minstant mevs ->
  (forall k, idle (cs k) (sevs k)) -> noc_empty here lane (fun k => injects (tr k)) input ->
  m_run m mevs (m_init m input) = Some (s, o) -> rested m s ->
  exists hist : list (nat * (Z * entry)),
    (forall k v, part k v hist = mine k v) /\
    (forall i, delivers i o = map (received m cs) (filter (to_iface m i) (map snd hist))).
Proof.
  intros mevs s o G HM ID NE R DR. destruct arrivals as (Q & QI & GI & Q2 & Q3 & Q4). specialize (Q4 NE ID).
  destruct (run_rest m input _ mevs s o G GI HM R DR) as (dl & D1 & D2).
  destruct (merge _ _ (fun v q => pkv v (fst q) (snd q)) dl Q) as (hist & H1 & H2).
  { intros v. destruct (D1 v) as (rest & pt & E & _). exists rest. exact E. }
  assert (HE : forall v, map snd (filter (fun x => Nat.eqb (fst x) v) hist) = Q v).
  { intros v. apply prefix_length; [apply H2|]. destruct (D1 v) as (rest & pt & E & E2 & NT).
    destruct (Q4 v) as (E3 & _).
    assert (RN : rest = []).
    { apply (no_tail_no_packet _ b_tail).
      - assert (FA : Forall (packet b_tail) (map (fun q => pkv v (fst q) (snd q)) (Q v))).
        { apply Forall_forall. intros p Hp. apply in_map_iff in Hp. destruct Hp as (q & <- & Hq). apply pkv_packet.
          eapply mine_iface. apply QI. eauto. }
        rewrite E in FA. apply Forall_app in FA. apply FA.
      - rewrite E3, E, concat_app in E2. apply app_inv_head in E2. rewrite E2. exact NT. }
    rewrite RN, app_nil_r in E. apply (f_equal (@length _)) in E. rewrite !map_length in E |- *. rewrite E, <- H1.
    clear. induction hist as [|h hist IH]; cbn [map filter fst]; auto. destruct (Nat.eqb (fst h) v); cbn [length]; rewrite ?IH; reflexivity. }
  exists hist. split.
  - intros k v. rewrite part_split, HE. apply Q4.
  - intros i. rewrite <- D2, <- H1. eapply hist_out; eauto.
Qed.
Lemma e2e_all : forall mevs, good_mcfg m -> Forall ok_minstant mevs -> (1 <= m_obdepth m)%nat ->
  (forall k e, In e (accepts (tr k)) -> here (target (cs k) e) = true -> (nflits (cs k) (e_iface e) <= m_ejdepth m)%nat) ->
  (forall k, idle (cs k) (sevs k)) -> noc_empty here lane (fun k => injects (tr k)) input ->
  mrounds (5 * length input + 1) mevs ->
  exists s o, m_run m mevs (m_init m input) = Some (s, o) /\
  exists hist : list (nat * (Z * entry)),
    (forall k v, part k v hist = mine k v) /\
    (forall i, delivers i o = map (received m cs) (filter (to_iface m i) (map snd hist))).
Proof.
  intros mevs G HM OB EJ ID NE MR. destruct arrivals as (Q & QI & GI & Q2 & Q3 & Q4). specialize (Q4 NE ID).
  destruct (run_progress m input _ mevs G GI HM OB) as (s & o & R & dl & D1 & D2); auto.
  { intros v p Hp. apply in_map_iff in Hp. destruct Hp as (q & <- & Hq). apply QI in Hq. rewrite (pkv_length _ _ _ Hq).
    apply filter_In in Hq. destruct Hq as [Hq1 Hq2]. apply andb_prop in Hq2. destruct Hq2 as [Hq2 _]. apply EJ; auto. }
  { intros v Hv. rewrite (Q3 v Hv). reflexivity. }
  exists s, o. split; auto.
  destruct (merge _ _ (fun v q => pkv v (fst q) (snd q)) dl Q) as (hist & H1 & H2).
  { intros v. destruct (D1 v) as (rest & pt & E & _). exists rest. exact E. }
  assert (HE : forall v, map snd (filter (fun x => Nat.eqb (fst x) v) hist) = Q v).
  { intros v. apply prefix_length; [apply H2|]. destruct (D1 v) as (rest & pt & E & E2 & NT).
    destruct (Q4 v) as (E3 & _).
    assert (RN : rest = []).
    { apply (no_tail_no_packet _ b_tail).
      - assert (FA : Forall (packet b_tail) (map (fun q => pkv v (fst q) (snd q)) (Q v))).
        { apply Forall_forall. intros p Hp. apply in_map_iff in Hp. destruct Hp as (q & <- & Hq). apply pkv_packet.
          eapply mine_iface. apply QI. eauto. }
        rewrite E in FA. apply Forall_app in FA. apply FA.
      - rewrite E3, E, concat_app in E2. apply app_inv_head in E2. rewrite E2. exact NT. }
    rewrite RN, app_nil_r in E. apply (f_equal (@length _)) in E. rewrite !map_length in E |- *. rewrite E, <- H1.
    clear. induction hist as [|h hist IH]; cbn [map filter fst]; auto. destruct (Nat.eqb (fst h) v); cbn [length]; rewrite ?IH; reflexivity. }
  exists hist. split.
  - intros k v. rewrite part_split, HE. apply Q4.
  - intros i. rewrite <- D2, <- H1. eapply hist_out; eauto.
Qed.
End N.
End P.
