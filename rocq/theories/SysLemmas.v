(** The adapters of a system, one thread at a time. *)
From Coq Require Import ZArith Arith Bool List Lia.
From Verif Require Import Bits Fupd AxisFormatModel AxisSlaveModel AxisSlaveSpec AxisSlaveProofs AxisMasterModel AxisMasterSpec AxisMasterProofs StreamSpec StreamProofs EndToEndSpec FlitCode SysModel.
Import ListNotations.
Open Scope nat_scope.

Lemma bdecode_code : forall f, bdecode (bcode f) = f.
Proof.
  intros [h t y v s [d r m] i p x]. unfold bdecode, bcode. rewrite zdecode_code. cbn [AxisSlaveModel.b_head b_tail b_type b_vc b_src b_dst bs_node bs_rad bs_remote b_iface b_pid b_data]. destruct h, t; reflexivity.
Qed.

(** ** Slave adapters *)
Lemma s_run_snoc : forall c h ev s, s_run c (h ++ [ev]) s = (let '(s1, o1) := s_run c h s in let '(s2, o2) := s_step c ev s1 in (s2, o1 ++ o2)).
Proof.
  intros c h ev. induction h as [|a h IH]; intros s; cbn [s_run app].
  - destruct (s_step c ev s) as [s2 o2]. rewrite app_nil_r. reflexivity.
  - destruct (s_step c a s) as [s1 o1]. rewrite IH. destruct (s_run c h s1) as [s2 o2]. destruct (s_step c ev s2) as [s3 o3]. rewrite app_assoc. reflexivity.
Qed.
Lemma run_threads_snoc : forall c ev rdy l t s, run_threads c ev rdy (l ++ [t]) s = (let '(s1, o1) := run_threads c ev rdy l s in let '(s2, o2) := run_thread c ev rdy t s1 in (s2, o1 ++ o2)).
Proof.
  intros c ev rdy l t. induction l as [|a l IH]; intros s; cbn [run_threads app].
  - destruct (run_thread c ev rdy t s) as [s2 o2]. rewrite app_nil_r. reflexivity.
  - destruct (run_thread c ev rdy a s) as [s1 o1]. rewrite IH. destruct (run_threads c ev rdy l s1) as [s2 o2]. destruct (run_thread c ev rdy t s2) as [s3 o3]. rewrite app_assoc. reflexivity.
Qed.
Lemma run_thread_ext : forall c ev ev' rdy t s, inp ev = inp ev' -> new_id ev = new_id ev' -> (t = TInj -> can ev = can ev') -> run_thread c ev rdy t s = run_thread c ev' rdy t s.
Proof. intros c ev ev' rdy t s H1 H2 H3. destruct t; cbn [run_thread]; auto; [unfold run_iface; rewrite H1, H2; reflexivity|]. unfold run_inj. rewrite (H3 eq_refl). reflexivity. Qed.
Lemma run_threads_ext : forall c ev ev' rdy l s, inp ev = inp ev' -> new_id ev = new_id ev' -> (In TInj l -> can ev = can ev') -> run_threads c ev rdy l s = run_threads c ev' rdy l s.
Proof.
  intros c ev ev' rdy l. induction l as [|t l IH]; intros s H1 H2 H3; [reflexivity|]. cbn [run_threads]. rewrite (run_thread_ext c ev ev') by (auto; intros ->; apply H3; left; auto).
  destruct (run_thread c ev' rdy t s) as [s1 o1]. rewrite IH; auto. intros H. apply H3. right. auto.
Qed.
Lemma run_accept_from : forall c evs s s' o, prio s = seq 0 (s_nif c) -> s_run c evs s = (s', o) -> forall e, In e (accepts o) ->
  exists ev, In ev evs /\ e_iface e < s_nif c /\ inp ev (e_iface e) = Some (e_txn e).
Proof.
  intros c evs. induction evs as [|ev evs IH]; intros s s' o Pr R e H; cbn in R.
  - inversion R; subst. destruct H.
  - destruct (s_step c ev s) as [s1 o1] eqn:E1. destruct (s_run c evs s1) as [s2 o2] eqn:E2. inversion R; subst. rewrite accepts_app in H. apply in_app_or in H. destruct H as [H|H].
    + destruct (accept_lowest _ _ _ _ _ _ Pr E1 H) as (X & Y & _). exists ev. split; [left|]; auto.
    + destruct (IH s1 s' o2) with (e := e) as [ev' [X Y]]; auto; [eapply step_prio; eauto|]. exists ev'. split; [right|]; auto.
Qed.
Lemma run_accept_init : forall c evs s o e, s_run c evs (s_init c) = (s, o) -> In e (accepts o) -> exists ev, In ev evs /\ e_iface e < s_nif c /\ inp ev (e_iface e) = Some (e_txn e).
Proof. intros c evs s o e R H. eapply run_accept_from; eauto. reflexivity. Qed.
Lemma packet_vc : forall c e f, In f (packet_of c e) -> b_vc f = trunc (s_vcidw c) (s_vc_of c (s_type c (e_iface e))).
Proof. intros c e f H. unfold packet_of in H. apply in_map_iff in H. destruct H as [x [<- _]]. reflexivity. Qed.
(** What the injection thread does. *)
Lemma run_inj_spec : forall c ev s, exists s', run_inj c ev s = (s', match waiting s with Some f => if can ev then [Inject (to_bflit c f)] else [] | None => [] end).
Proof.
  intros c ev s. unfold run_inj, waiting. destruct (tobe s) as [f|]; [destruct (can ev); eauto|]. destruct (injfifo s) as [|f q]; cbn [head]; [eauto|]. destruct (can ev); eauto.
Qed.
Lemma waiting_pend : forall c s f, waiting s = Some f -> exists r, pend c s = f :: r.
Proof. intros c s f H. unfold waiting in H. unfold pend. destruct (tobe s) as [g|]; cbn [opt_list app]; [injection H as ->; eauto|]. destruct (injfifo s) as [|g q]; [discriminate|]. cbn [head] in H. injection H as ->. cbn [app]. eauto. Qed.

(** ** Master adapters *)
Lemma load_load : forall x y s, load x (load y s) = load x s. Proof. reflexivity. Qed.
Lemma load_self : forall s, load (inq s) s = s. Proof. intros []; reflexivity. Qed.
Lemma load_nil : forall s, inq s = [] -> load [] s = s. Proof. intros s H. rewrite <- H. apply load_self. Qed.
Lemma load_depk : forall c x s, run_depk c (load x s) = option_map (fun r => (load x (fst r), snd r)) (run_depk c s).
Proof.
  intros c x s. unfold run_depk.
  assert (C : forall v d, check c (load x s) v d = check c s v d) by reflexivity.
  assert (SC : forall n q b d, scan c (load x s) n q b d = scan c s n q b d).
  { intros n. induction n as [|n IH]; intros q b d; [reflexivity|]. cbn [scan load ejf]. destruct b; auto. destruct (rotate q) as [|v q']; auto. destruct (ejf s v) as [|f r]; auto. rewrite C. destruct (check c s v (ifn f)); auto. }
  change (prioq (load x s)) with (prioq s). change (depk (load x s)) with (depk s). change (ejf (load x s)) with (ejf s). change (outq (load x s)) with (outq s). destruct (prioq s) as [|v0 q0]; auto. rewrite C. destruct (check c s v0 _) as [ok0|]; auto. rewrite SC. destruct (if depk s then _ else _) as [[[q ok] d]|]; auto.
  destruct (d <? m_nif c); auto. destruct ((length (outq s d) <? m_obdepth c) && ok); [|reflexivity]. destruct q as [|v q]; auto. destruct (ejf s v) as [|f r]; auto. destruct (f_tail f); [|reflexivity]. change (popc (load x s)) with (popc s). change (pushc (load x s)) with (pushc s). destruct (S (popc s v) <=? pushc s v); reflexivity.
Qed.
Lemma load_out_one : forall c rdy i x s, out_one c rdy i (load x s) = option_map (fun r => (load x (fst r), snd r)) (out_one c rdy i s).
Proof.
  intros c rdy i x s. unfold out_one. cbn [load port outq chunk]. destruct (match port s i with Some a => _ | None => _ end) as [[[q k] o]|]; reflexivity.
Qed.
Lemma load_out : forall c rdy x l s, out_loop c rdy l (load x s) = option_map (fun r => (load x (fst r), snd r)) (out_loop c rdy l s).
Proof.
  intros c rdy x l. induction l as [|i l IH]; intros s; [reflexivity|]. cbn [out_loop]. rewrite load_out_one. destruct (out_one c rdy i s) as [[s1 o1]|]; cbn [option_map fst snd]; auto. rewrite IH. destruct (out_loop c rdy l s1) as [[s2 o2]|]; reflexivity.
Qed.
Lemma load_thread : forall c ev ev' t x s, t <> TEject -> mrdy ev = mrdy ev' -> m_thread c ev t (load x s) = option_map (fun r => (load x (fst r), snd r)) (m_thread c ev' t s).
Proof. intros c ev ev' t x s Ht Hr. destruct t; [congruence| |]; cbn [m_thread]; [apply load_depk|]. rewrite Hr. apply load_out. Qed.
Lemma m_threads_snoc : forall c ev l t s, m_threads c ev (l ++ [t]) s =
  match m_threads c ev l s with Some (s1, o1) => match m_thread c ev t s1 with Some (s2, o2) => Some (s2, o1 ++ o2) | None => None end | None => None end.
Proof.
  intros c ev l t. induction l as [|a l IH]; intros s; cbn [m_threads app].
  - destruct (m_thread c ev t s) as [[s2 o2]|]; auto. cbn [app]. rewrite app_nil_r. reflexivity.
  - destruct (m_thread c ev a s) as [[s1 o1]|]; auto. rewrite IH. destruct (m_threads c ev l s1) as [[s2 o2]|]; auto. destruct (m_thread c ev t s2) as [[s3 o3]|]; auto. rewrite app_assoc. reflexivity.
Qed.
Lemma m_threads_ext : forall c ev ev' l s, mrdy ev = mrdy ev' -> (In TEject l -> mavail ev = mavail ev') -> m_threads c ev l s = m_threads c ev' l s.
Proof.
  intros c ev ev' l. induction l as [|t l IH]; intros s H1 H2; [reflexivity|]. cbn [m_threads]. assert (E : m_thread c ev t s = m_thread c ev' t s) by (destruct t; cbn [m_thread]; rewrite ?H1, ?H2; auto; left; auto).
  rewrite E. destruct (m_thread c ev' t s) as [[s1 o1]|]; auto. rewrite IH; auto. intros H. apply H2. right. auto.
Qed.
Lemma m_run_snoc : forall c h ev s, m_run c (h ++ [ev]) s = match m_run c h s with Some (s1, o1) => match m_step c ev s1 with Some (s2, o2) => Some (s2, o1 ++ o2) | None => None end | None => None end.
Proof.
  intros c h ev s. rewrite m_run_app. destruct (m_run c h s) as [[s1 o1]|]; auto. cbn [m_run]. destruct (m_step c ev s1) as [[s2 o2]|]; auto. rewrite app_nil_r. reflexivity.
Qed.
(** The ejection thread when no flit waits and there is room. *)
Lemma eject_none : forall c x s, pendfl s = None -> run_eject c false (load x s) = Some (load x s, []).
Proof. intros c x s H. unfold run_eject. cbn [load pendfl]. rewrite H. reflexivity. Qed.
Lemma eject_nil : forall c s, pendfl s = None -> run_eject c true (load [] s) = Some (load [] s, []).
Proof. intros c s H. unfold run_eject. cbn [load pendfl inq]. rewrite H. reflexivity. Qed.
Definition ejected_one (c : mcfg) (f : bflit) (s : mst) : mst :=
  {| inq := []; pendfl := None; ejf := fupd (ejf s) (vcn f) (ejf s (vcn f) ++ [to_sflit c f]); pushc := pushc s; pushn := if b_tail f then fupd (pushn s) (vcn f) (S (pushc s (vcn f))) else pushn s;
     popc := popc s; prioq := prioq s; depk := depk s; constr := constr s; outq := outq s; chunk := chunk s; port := port s |}.
Lemma eject_one : forall c f x s, pendfl s = None -> (0 <= b_vc f)%Z -> vcn f < m_nvc c -> length (ejf s (vcn f)) < m_ejdepth c -> run_eject c true (load (f :: x) s) = Some (load x (ejected_one c f s), [Arrive f]).
Proof.
  intros c f x s H1 H2 H3 H4. unfold run_eject. cbn [load pendfl inq]. rewrite H1. fold (vcn f). rewrite (proj2 (Z.leb_le _ _) H2), (proj2 (Nat.ltb_lt _ _) H3). cbn [andb load ejf]. rewrite (proj2 (Nat.ltb_lt _ _) H4). reflexivity.
Qed.
(** What the other threads do to the ejection FIFOs. *)
Lemma depk_frees : forall c s s' o, run_depk c s = Some (s', o) -> inq s' = inq s /\ pendfl s' = pendfl s /\ (forall v, length (ejf s' v) + frees v o = length (ejf s v)) /\ exists l, o = map Free l.
Proof.
  intros c s s' o H. unfold run_depk in H. destruct (prioq s) as [|v0 q0]; [discriminate|]. destruct (check c s v0 _) as [ok0|]; [|discriminate]. destruct (if depk s then _ else _) as [[[q ok] d]|]; [|discriminate].
  destruct (d <? m_nif c); [|discriminate]. destruct ((length (outq s d) <? m_obdepth c) && ok).
  - destruct q as [|v q]; [discriminate|]. destruct (ejf s v) as [|f r] eqn:Ef; [discriminate|].
    assert (C : forall u, length (fupd (ejf s) v r u) + frees u [Free v] = length (ejf s u)).
    { intros u. unfold frees. cbn [filter]. destruct (Nat.eqb_spec v u) as [<-|Nu]; cbn [length]; [rewrite fupd_same, Ef; cbn; lia|rewrite fupd_other by auto; lia]. }
    destruct (f_tail f); [destruct (S (popc s v) <=? pushc s v); [|discriminate]|]; injection H as <- <-; (split; [reflexivity|split; [reflexivity|split; [exact C|exists [v]; reflexivity]]]).
  - injection H as <- <-. split; [reflexivity|split; [reflexivity|split; [intros v; cbn; lia|exists []; reflexivity]]].
Qed.
Lemma out_one_frees : forall c rdy i s s' o, out_one c rdy i s = Some (s', o) -> inq s' = inq s /\ pendfl s' = pendfl s /\ ejf s' = ejf s /\ (forall v, frees v o = 0) /\ forall x, In x o -> match x with Deliver _ _ => True | _ => False end.
Proof.
  intros c rdy i s s' o H. unfold out_one in H. destruct (port s i) as [a|].
  - destruct (rdy i).
    + destruct (outq s i) as [|p r]; [discriminate|]. destruct (S (chunk s i) =? _); injection H as <- <-; repeat (split; [reflexivity|]); intros x [<-|[]]; exact I.
    + injection H as <- <-. repeat (split; [reflexivity|]). intros x [].
  - injection H as <- <-. repeat (split; [reflexivity|]). intros x [].
Qed.
Lemma frees_app : forall v a b, frees v (a ++ b) = frees v a + frees v b.
Proof. intros. unfold frees. rewrite filter_app, app_length. reflexivity. Qed.
Lemma out_loop_frees : forall c rdy l s s' o, out_loop c rdy l s = Some (s', o) -> inq s' = inq s /\ pendfl s' = pendfl s /\ ejf s' = ejf s /\ (forall v, frees v o = 0) /\ forall x, In x o -> match x with Deliver _ _ => True | _ => False end.
Proof.
  intros c rdy l. induction l as [|i l IH]; intros s s' o H; cbn [out_loop] in H; [injection H as <- <-; repeat (split; [reflexivity|]); intros x []|].
  destruct (out_one c rdy i s) as [[s1 o1]|] eqn:E1; [|discriminate]. destruct (out_loop c rdy l s1) as [[s2 o2]|] eqn:E2; [|discriminate]. injection H as <- <-.
  destruct (out_one_frees _ _ _ _ _ _ E1) as [A1 [A2 [A3 [A4 A5]]]]. destruct (IH _ _ _ E2) as [B1 [B2 [B3 [B4 B5]]]]. split; [congruence|]. split; [congruence|]. split; [congruence|]. split; [intros v; rewrite frees_app, A4, B4; reflexivity|].
  intros x Hx. apply in_app_iff in Hx. destruct Hx as [Hx|Hx]; [apply (A5 x Hx)|apply (B5 x Hx)].
Qed.

(** ** An adapter that has got no tail *)
Section Quiet.
Variable c : mcfg.
Record quiet_m (s : mst) : Prop := { qm_depk : depk s = false; qm_outq : forall i, outq s i = []; qm_port : forall i, port s i = None; qm_push : forall v, pushc s v = 0 }.
Definition arrs (o : list mobs) : list bflit := flat_map (fun x => match x with Arrive f => [f] | _ => [] end) o.
Definition quiet_obs (o : list mobs) : Prop := forall x, In x o -> exists f, x = Arrive f.
Lemma check_none : forall s v d, quiet_m s -> check c s v d = Some false.
Proof. intros s v d Q. unfold check. rewrite (qm_push _ Q). reflexivity. Qed.
Lemma scan_none : forall s n q d q' ok d', quiet_m s -> scan c s n q false d = Some (q', ok, d') -> ok = false.
Proof.
  intros s n. induction n as [|n IH]; intros q d q' ok d' Q H; cbn [scan] in H; [injection H as <- <- <-; auto|]. destruct (rotate q) as [|v r]; [discriminate|].
  destruct (ejf s v) as [|f fs]; [eauto|]. rewrite (check_none _ _ _ Q) in H. eauto.
Qed.
Lemma out_loop_none : forall rdy l s s' o, quiet_m s -> out_loop c rdy l s = Some (s', o) -> quiet_m s' /\ o = [] /\ pushn s' = pushn s /\ pendfl s' = pendfl s.
Proof.
  intros rdy l. induction l as [|i l IH]; intros s s' o Q H; cbn [out_loop] in H; [injection H as <- <-; auto|].
  unfold out_one in H. rewrite (qm_port _ Q) in H. rewrite (qm_outq _ Q) in H. match type of H with match out_loop _ _ _ ?s1 with _ => _ end = _ => set (s2 := s1) in H end.
  assert (Q2 : quiet_m s2).
  { constructor; cbn; intros; try apply Q; unfold fupd; destruct (Nat.eqb _ i); auto; apply Q. }
  destruct (out_loop c rdy l s2) as [[s3 o3]|] eqn:E; [|discriminate]. injection H as <- <-. destruct (IH _ _ _ Q2 E) as (A & -> & B & C). auto.
Qed.
Definition news (s : mst) (o : list mobs) (f : bflit) : Prop := pendfl s = Some f \/ In f (arrs o).
Lemma quiet_thread : forall ev t s s' o, m_thread c ev t s = Some (s', o) -> quiet_m s -> quiet_m s' /\ quiet_obs o /\ (forall f, pendfl s' = Some f -> news s o f) /\
  (forall v, pushn s' v = pushn s v \/ exists f, news s o f /\ b_tail f = true).
Proof.
  intros ev t s s' o H Q. destruct t; cbn [m_thread] in H.
  - unfold run_eject in H. set (pq := match pendfl s with Some f => (Some f, inq s, []) | None => match mavail ev, inq s with true, f :: r => (Some f, r, [Arrive f]) | _, _ => (None, inq s, []) end end) in H.
    assert (X : match pq with (p, _, o1) => quiet_obs o1 /\ (forall f, p = Some f -> news s o1 f) /\ (p = None -> pendfl s = None) end).
    { subst pq. unfold news. destruct (pendfl s) as [f|] eqn:Ep; [split; [intros x []|split; [auto|discriminate]]|]. destruct (mavail ev); [|split; [intros x []|split; [discriminate|auto]]]. destruct (inq s) as [|f r]; [split; [intros x []|split; [discriminate|auto]]|].
      split; [intros x [<-|[]]; eauto|]. split; [intros g E; injection E as <-; right; left; auto|discriminate]. }
    destruct pq as [[p inq'] o1]. destruct X as (X1 & X2 & X3). destruct p as [f|].
    + destruct (_ && _); [|discriminate]. destruct (Nat.ltb _ _); injection H as <- <-.
      * split; [constructor; cbn; apply Q|]. split; [exact X1|]. cbn. split; [discriminate|]. intros v. destruct (b_tail f) eqn:Tf; [right; eauto|left; auto].
      * split; [constructor; cbn; apply Q|]. split; [exact X1|]. cbn. split; [exact X2|auto].
    + injection H as <- <-. split; [exact Q|]. split; [exact X1|]. rewrite (X3 eq_refl). split; [discriminate|auto].
  - unfold run_depk in H. destruct (prioq s) as [|v0 q0]; [discriminate|]. rewrite (check_none _ _ _ Q), (qm_depk _ Q) in H. cbv zeta in H.
    destruct (scan _ _ _ _ _ _) as [[[q ok] d]|] eqn:E; [|discriminate]. rewrite (scan_none _ _ _ _ _ _ _ Q E), andb_false_r in H. destruct (Nat.ltb d _); [|discriminate]. injection H as <- <-.
    split; [constructor; cbn; [reflexivity|apply (qm_outq _ Q)|apply (qm_port _ Q)|apply (qm_push _ Q)]|]. split; [intros x []|]. cbn. unfold news. split; [auto|auto].
  - destruct (out_loop_none _ _ _ _ _ Q H) as (A & -> & B & C). split; auto. split; [intros x []|]. rewrite B, C. unfold news. split; auto.
Qed.
Lemma quiet_threads : forall ev l s s' o, m_threads c ev l s = Some (s', o) -> quiet_m s -> quiet_m s' /\ quiet_obs o /\ (forall f, pendfl s' = Some f -> news s o f) /\
  (forall v, pushn s' v = pushn s v \/ exists f, news s o f /\ b_tail f = true).
Proof.
  intros ev l. induction l as [|t l IH]; intros s s' o H Q; cbn [m_threads] in H; [injection H as <- <-; unfold news; split; auto; split; [intros x []|auto]|].
  destruct (m_thread c ev t s) as [[s1 o1]|] eqn:E1; [|discriminate]. destruct (m_threads c ev l s1) as [[s2 o2]|] eqn:E2; [|discriminate]. injection H as <- <-.
  destruct (quiet_thread _ _ _ _ _ E1 Q) as (A1 & A2 & A3 & A4). destruct (IH _ _ _ E2 A1) as (B1 & B2 & B3 & B4).
  assert (W1 : forall f, news s o1 f -> news s (o1 ++ o2) f) by (intros f [F|F]; [left; auto|right; unfold arrs; rewrite flat_map_app; apply in_app_iff; auto]).
  assert (W2 : forall f, news s1 o2 f -> news s (o1 ++ o2) f) by (intros f [F|F]; [apply W1; auto|right; unfold arrs; rewrite flat_map_app; apply in_app_iff; auto]).
  split; auto. split; [intros x Hx; apply in_app_iff in Hx; destruct Hx; auto|]. split; [auto|]. intros v. destruct (B4 v) as [->|(f & F1 & F2)]; [|right; eauto]. destruct (A4 v) as [->|(f & F1 & F2)]; [auto|right; eauto].
Qed.
Lemma quiet_run : forall h x s o, m_run c h (m_init c x) = Some (s, o) -> (forall f, In f (arrs o) -> b_tail f = false) ->
  quiet_m s /\ quiet_obs o /\ (forall v, pushn s v = 0) /\ (forall f, pendfl s = Some f -> b_tail f = false).
Proof.
  intros h. induction h as [|ev h IH] using rev_ind; intros x s o H NT.
  - cbn in H. injection H as <- <-. split; [constructor; cbn; auto|]. split; [intros y []|]. split; [auto|discriminate].
  - rewrite m_run_snoc in H. destruct (m_run c h (m_init c x)) as [[s1 o1]|] eqn:E1; [|discriminate]. unfold m_step in H. destruct (m_threads c ev (mths ev) s1) as [[s2 o2]|] eqn:E2; [|discriminate]. injection H as <- <-.
    assert (NT1 : forall f, In f (arrs o1) -> b_tail f = false) by (intros f Hf; apply NT; unfold arrs; rewrite flat_map_app; apply in_app_iff; auto).
    assert (NT2 : forall f, In f (arrs o2) -> b_tail f = false) by (intros f Hf; apply NT; unfold arrs; rewrite flat_map_app; apply in_app_iff; auto).
    destruct (IH _ _ _ E1 NT1) as (A & B & C & D). destruct (quiet_threads _ _ _ _ _ E2 A) as (A' & B' & C' & D').
    assert (Nn : forall f, news s1 o2 f -> b_tail f = false) by (intros f [F|F]; auto).
    assert (Z : forall v, pushn s2 v = 0) by (intros v; destruct (D' v) as [->|(f & F1 & F2)]; [auto|rewrite (Nn f F1) in F2; discriminate]).
    split; [constructor; cbn; try apply A'; auto|]. split; [intros y Hy; apply in_app_iff in Hy; destruct Hy; auto|]. cbn. split; [exact Z|]. intros f Hf. apply Nn. apply C'. exact Hf.
Qed.
End Quiet.
Lemma m_thread_arrs : forall c ev t s s' o, m_thread c ev t s = Some (s', o) -> arrs o ++ inq s' = inq s.
Proof.
  intros c ev t s s' o H. destruct t; cbn [m_thread] in H.
  - unfold run_eject in H. destruct (pendfl s) as [f|].
    + destruct (_ && _); [|discriminate]. destruct (Nat.ltb _ _); injection H as <- <-; reflexivity.
    + destruct (mavail ev); [|injection H as <- <-; reflexivity]. destruct (inq s) as [|f r] eqn:Ei; [injection H as <- <-; cbn; auto|]. destruct (_ && _); [|discriminate]. destruct (Nat.ltb _ _); injection H as <- <-; reflexivity.
  - unfold run_depk in H. destruct (prioq s) as [|v0 q0]; [discriminate|]. cbv zeta in H. destruct (check _ _ _ _); [|discriminate]. destruct (if depk s then _ else _) as [[[q ok] d]|]; [|discriminate].
    destruct (Nat.ltb d _); [|discriminate]. destruct (_ && _); [|injection H as <- <-; reflexivity]. destruct q as [|v q]; [discriminate|]. destruct (ejf s v) as [|f fs]; [discriminate|].
    destruct (f_tail f); [destruct (Nat.leb _ _); [|discriminate]|]; injection H as <- <-; reflexivity.
  - assert (X : forall l s s' o, out_loop c (mrdy ev) l s = Some (s', o) -> arrs o = [] /\ inq s' = inq s).
    { clear. intros l. induction l as [|i l IH]; intros s s' o H; cbn [out_loop] in H; [injection H as <- <-; auto|]. destruct (out_one c (mrdy ev) i s) as [[s1 o1]|] eqn:E1; [|discriminate].
      destruct (out_loop c (mrdy ev) l s1) as [[s2 o2]|] eqn:E2; [|discriminate]. injection H as <- <-. destruct (IH _ _ _ E2) as [A B]. unfold arrs in *. rewrite flat_map_app, A, app_nil_r, B.
      unfold out_one in E1. destruct (port s i) as [a|]; [destruct (mrdy ev i); [destruct (outq s i); [discriminate|destruct (Nat.eqb _ _)]|]|]; injection E1 as <- <-; auto. }
    destruct (X _ _ _ _ H) as [-> ->]. reflexivity.
Qed.
Lemma m_run_arrs : forall c h s s' o, m_run c h s = Some (s', o) -> arrs o ++ inq s' = inq s.
Proof.
  intros c h. assert (TH : forall ev l s s' o, m_threads c ev l s = Some (s', o) -> arrs o ++ inq s' = inq s).
  { intros ev l. induction l as [|t l IH]; intros s s' o H; cbn [m_threads] in H; [injection H as <- <-; reflexivity|]. destruct (m_thread c ev t s) as [[s1 o1]|] eqn:E1; [|discriminate]. destruct (m_threads c ev l s1) as [[s2 o2]|] eqn:E2; [|discriminate]. injection H as <- <-.
    unfold arrs. rewrite flat_map_app, <- app_assoc. fold (arrs o1) (arrs o2). rewrite (IH _ _ _ E2). eapply m_thread_arrs; eauto. }
  induction h as [|ev h IH]; intros s s' o H; cbn [m_run] in H; [injection H as <- <-; reflexivity|]. unfold m_step in H. destruct (m_threads c ev (mths ev) s) as [[s1 o1]|] eqn:E1; [|discriminate]. destruct (m_run c h (commit s1)) as [[s2 o2]|] eqn:E2; [|discriminate]. injection H as <- <-.
  unfold arrs. rewrite flat_map_app, <- app_assoc. fold (arrs o1) (arrs o2). rewrite (IH _ _ _ E2). cbn [commit inq]. eapply TH; eauto.
Qed.
