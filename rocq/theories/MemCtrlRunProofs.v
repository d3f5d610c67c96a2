(** Consequences of the invariant of the memory controller for the properties. *)
From Coq Require Import ZArith Bool List Lia Permutation.
From Verif Require Import MemCtrlModel MemCtrlSpec MemCtrlProofs.
Import ListNotations.
Local Open Scope Z_scope.

Lemma combine_app_le : forall (A B : Type) (a a' : list A) (b b' : list B) n, (n <= length a)%nat -> (n <= length b)%nat -> firstn n (combine (a ++ a') (b ++ b')) = firstn n (combine a b).
Proof. induction a as [|x a IH]; intros a' b b' [|n] Ha Hb; try reflexivity; cbn in Ha; [lia|]. destruct b as [|y b]; cbn in Hb; [lia|]. cbn [app combine firstn]. f_equal. apply IH; lia. Qed.
Lemma combine_map_self : forall (A B : Type) (l : list (A * B)), combine (map fst l) (map snd l) = l.
Proof. induction l as [|[x y] l IH]; [reflexivity|]. cbn [map combine fst snd]. rewrite IH. reflexivity. Qed.

Section RUN.
Variable X : dram.
Variable c : mcfg.
Variable mem0 : Z -> option Z.
Variable d0 : dr X.
Variable inv : dr X -> Prop.
Variables rd wr : dr X -> list Z.
Hypothesis DO : dram_ok X d0 inv rd wr.
Notation minv := (minv X mem0).

Lemma stored_dn : forall b R W s l, minv b R W s l -> forall dn, stores l = map (fun x => (w_addr x, w_data x)) dn -> (exists p, aws l = map fst dn ++ p) -> (exists q, ws l = map snd dn ++ q) -> stored l = dn.
Proof.
  intros b R W s l H dn E1 (p & E2) (q & E3). unfold stored, writes. rewrite E1, E2, E3, map_length. rewrite combine_app_le by (rewrite map_length; lia). rewrite combine_map_self. apply firstn_all.
Qed.
(** The invariant about writes in terms of what is stored. *)
Lemma wr_stored : forall b R W s l, minv b R W s l ->
  stores l = map (fun x => (w_addr x, w_data x)) (stored l) /\ (length (stores l) <= length (aws l))%nat /\ (length (stores l) <= length (ws l))%nat /\
  aws l = map fst (stored l) ++ combine W (map snd (ms_owr s)) ++ ms_waq s /\ ws l = map snd (stored l) ++ map fst (ms_owr s) ++ ms_wdq s /\ length W = length (ms_owr s) /\
  skipn (length (bs l)) (map w_user (filter w_last (stored l))) = ms_owb s /\ (length (bs l) <= length (filter w_last (stored l)))%nat.
Proof.
  intros b R W s l H. destruct (mi_wr _ _ _ _ _ _ _ H) as (dn & F1 & F2 & F3 & F4 & F5 & F6). rewrite (stored_dn _ _ _ _ _ H dn F1) by eauto.
  split; [exact F1|]. split; [rewrite F1, F2, app_length, !map_length; lia|]. split; [rewrite F1, F3, app_length, !map_length; lia|]. auto 10.
Qed.
Lemma stored_length : forall b R W s l, minv b R W s l -> length (stored l) = length (stores l).
Proof. intros b R W s l H. destruct (wr_stored _ _ _ _ _ H) as (E & _). apply (f_equal (@length _)) in E. rewrite map_length in E. symmetry. exact E. Qed.
Lemma stored_prefix : forall b R W s l e, minv b R W s l -> exists q, stored (l ++ e) = stored l ++ q.
Proof.
  intros b R W s l e H. destruct (wr_stored _ _ _ _ _ H) as (_ & L1 & L2 & _). unfold stored, writes. rewrite stores_app, aws_app, ws_app, app_length.
  set (n := length (stores l)) in *. set (k := length (stores e)). set (u := combine (aws l ++ aws e) (ws l ++ ws e)).
  exists (firstn k (skipn n u)). rewrite <- (combine_app_le _ _ (aws l) (aws e) (ws l) (ws e) n L1 L2). fold u. clearbody u k n. clear. revert u. induction n as [|n IH]; intros u; [reflexivity|]. destruct u as [|x u]; [cbn; rewrite firstn_nil; reflexivity|]. cbn [Nat.add firstn skipn app]. f_equal. apply IH.
Qed.

(** ** Write responses *)
Lemma tick_b : forall i s s' e, tick X c i s = Some (s', e) -> exists e2, bs e = e2 /\ stores e = [] /\
  ((e2 = [] /\ ms_owb s' = ms_owb s) \/ (e2 = [ms_buser s] /\ ms_bvalid s = true /\ exists x, ms_owb s = x :: ms_owb s')).
Proof.
  intros i s s' e H. unfold tick in H. pose proof (tick_accept_ok X c mem0 false [] [] i s) as HA. clear HA.
  assert (HA : ms_owb (fst (tick_accept X c i s)) = ms_owb s /\ bs (snd (tick_accept X c i s)) = [] /\ stores (snd (tick_accept X c i s)) = []).
  { unfold tick_accept. cbn [fst snd set_occ set_front ms_owb]. split; [reflexivity|]. unfold bs, stores. rewrite !flat_map_app.
    split; rewrite !nil_of; try reflexivity; intros x Hx; apply in_map_iff in Hx; destruct Hx as (y & <- & _); reflexivity. }
  destruct (tick_accept X c i s) as [s1 e1]. cbn [fst snd] in HA. destruct HA as (A1 & A2 & A3). rewrite A1 in H.
  destruct (ms_rvalid s && i_rready i).
  - destruct (ms_orr s1) as [|x orr]; [destruct (ms_bvalid s && i_bready i); [destruct (ms_owb s)|]; discriminate|].
    destruct (ms_bvalid s && i_bready i) eqn:Eb.
    + destruct (ms_owb s) as [|u q] eqn:Eo; [discriminate|]. injection H as <- <-. exists [ms_buser s]. rewrite !bs_app, !stores_app, A2, A3. apply andb_true_iff in Eb. destruct Eb as [Eb _].
      cbn [set_resp set_back ms_owb]. split; [reflexivity|]. split; [reflexivity|]. right. split; [reflexivity|]. split; [exact Eb|]. exists u. reflexivity.
    + injection H as <- <-. exists []. rewrite !bs_app, !stores_app, A2, A3. cbn [set_resp set_back ms_owb]. split; [reflexivity|]. split; [reflexivity|]. left. auto.
  - destruct (ms_bvalid s && i_bready i) eqn:Eb.
    + destruct (ms_owb s) as [|u q] eqn:Eo; [discriminate|]. injection H as <- <-. exists [ms_buser s]. rewrite !bs_app, !stores_app, A2, A3. apply andb_true_iff in Eb. destruct Eb as [Eb _].
      cbn [set_resp set_back ms_owb]. split; [reflexivity|]. split; [reflexivity|]. right. split; [reflexivity|]. split; [exact Eb|]. exists u. reflexivity.
    + injection H as <- <-. exists []. rewrite !bs_app, !stores_app, A2, A3. cbn [set_resp set_back ms_owb]. split; [reflexivity|]. split; [reflexivity|]. left. auto.
Qed.
Lemma callbacks_b : forall q s s' e, callbacks X c q s = Some (s', e) -> bs e = [] /\ (exists q, ms_owb s' = ms_owb s ++ q) /\ ms_bvalid s' = ms_bvalid s /\ ms_buser s' = ms_buser s /\
  ms_raq s' = ms_raq s /\ ms_wdq s' = ms_wdq s /\ ms_waq s' = ms_waq s /\ (rd_of q = [] -> ms_orr s' = ms_orr s /\ ms_ord s' = ms_ord s /\ ms_ooo s' = ms_ooo s) /\
  rs e = [] /\ ms_rvalid s' = ms_rvalid s /\ ms_r s' = ms_r s /\ ms_waocc s' = ms_waocc s /\ ms_awready s' = ms_awready s.
Proof.
  induction q as [|[a w] q IH]; intros s s' e H; cbn [callbacks] in H.
  - injection H as <- <-. repeat split; auto. exists []. rewrite app_nil_r. reflexivity.
  - destruct w.
    + destruct (write_callback X s a) as [[s1 e1]|] eqn:E1; [|discriminate]. destruct (callbacks X c q s1) as [[s2 e2]|] eqn:E2; [|discriminate]. injection H as <- <-.
      destruct (IH _ _ _ E2) as (H1 & (q2 & H2) & H3 & H4 & H5 & H6 & H7 & H8 & H9 & H10 & H11 & H12 & H13). unfold write_callback in E1. destruct (ms_owr s) as [|[[u d] b] r]; [discriminate|]. injection E1 as <- <-.
      rewrite bs_app, rs_app, H1, H9. split; [reflexivity|]. split; [rewrite H2; cbn [set_back ms_owb]; destruct b; [eexists; rewrite <- app_assoc; reflexivity|exists q2; reflexivity]|]. auto 12.
    + destruct (read_callback X c s a) as [s1|] eqn:E1; [|discriminate]. destruct (callbacks X c q s1) as [[s2 e2]|] eqn:E2; [|discriminate]. injection H as <- <-.
      destruct (IH _ _ _ E2) as (H1 & (q2 & H2) & H3 & H4 & H5 & H6 & H7 & H8 & H9 & H10 & H11 & H12 & H13). unfold read_callback in E1. destruct (ms_ord s) as [|[[fa u] b] r]; [discriminate|].
      assert (K : ms_owb s1 = ms_owb s /\ ms_bvalid s1 = ms_bvalid s /\ ms_buser s1 = ms_buser s /\ ms_raq s1 = ms_raq s /\ ms_wdq s1 = ms_wdq s /\ ms_waq s1 = ms_waq s /\ ms_rvalid s1 = ms_rvalid s /\ ms_r s1 = ms_r s /\
                  ms_waocc s1 = ms_waocc s /\ ms_awready s1 = ms_awready s).
      { destruct (fa =? a); [destruct (release _ _ _ _) as [[[? ?] ?]|]; [|discriminate]|]; injection E1 as <-; cbn; auto 12. }
      destruct K as (K1 & K2 & K3 & K4 & K5 & K6 & K7 & K8 & K9 & K10). rewrite H2, H3, H4, H5, H6, H7, H10, H11, H12, H13. cbn [app]. split; [exact H1|]. split; [exists q2; rewrite K1; reflexivity|].
      repeat (split; [assumption|]). split; [discriminate|]. auto.
Qed.
Lemma issue_b : forall s s', issue X s = Some s' -> ms_owb s' = ms_owb s /\ ms_bvalid s' = ms_bvalid s /\ ms_buser s' = ms_buser s /\ ms_orr s' = ms_orr s /\ ms_ooo s' = ms_ooo s /\
  (ms_raq s = [] -> ms_raq s' = [] /\ ms_ord s' = ms_ord s) /\ ms_rvalid s' = ms_rvalid s /\ ms_r s' = ms_r s /\ ms_waocc s' = ms_waocc s /\ ms_awready s' = ms_awready s.
Proof.
  assert (HR : forall s s', issue_read X s = Some s' -> ms_owb s' = ms_owb s /\ ms_bvalid s' = ms_bvalid s /\ ms_buser s' = ms_buser s /\ ms_orr s' = ms_orr s /\ ms_ooo s' = ms_ooo s /\
    (ms_raq s = [] -> ms_raq s' = [] /\ ms_ord s' = ms_ord s) /\ ms_rvalid s' = ms_rvalid s /\ ms_r s' = ms_r s /\ ms_waocc s' = ms_waocc s /\ ms_awready s' = ms_awready s).
  { intros s s' H. unfold issue_read in H. destruct (ms_raq s) as [|[[u a] b] r] eqn:E; [injection H as <-; rewrite E; auto 20|]. destruct (d_will X (ms_dram s) a false); [|injection H as <-; rewrite E; repeat (split; [reflexivity|]); split; [discriminate|]; auto].
    destruct (d_add X (ms_dram s) a false); [|discriminate]. injection H as <-. cbn [set_back set_front ms_owb ms_bvalid ms_buser ms_orr ms_ooo ms_raq ms_ord ms_rvalid ms_r ms_waocc ms_awready]. repeat (split; [reflexivity|]). split; [discriminate|]. auto. }
  assert (HW : forall s s', issue_write X s = Some s' -> ms_owb s' = ms_owb s /\ ms_bvalid s' = ms_bvalid s /\ ms_buser s' = ms_buser s /\ ms_orr s' = ms_orr s /\ ms_ooo s' = ms_ooo s /\
    (ms_raq s = [] -> ms_raq s' = [] /\ ms_ord s' = ms_ord s) /\ ms_rvalid s' = ms_rvalid s /\ ms_r s' = ms_r s /\ ms_waocc s' = ms_waocc s /\ ms_awready s' = ms_awready s).
  { intros s s' H. unfold issue_write in H. destruct (ms_wdq s) as [|[u d] r]; [injection H as <-; auto 20|]. destruct (ms_waq s) as [|[a b] q]; [discriminate|].
    destruct (d_will X (ms_dram s) a true); [|injection H as <-; auto 20]. destruct (d_add X (ms_dram s) a true); [|discriminate]. injection H as <-. cbn. auto 12. }
  intros s s' H. unfold issue in H. destruct (ms_rbw s).
  - destruct (ms_raq s) as [|x r] eqn:Er.
    + destruct (issue_write X s) as [s1|] eqn:E; [|discriminate]. injection H as <-. apply HW in E. rewrite Er in E. exact E.
    + destruct (issue_read X s) as [s1|] eqn:E; [|discriminate]. injection H as <-. apply HR in E. rewrite Er in E. exact E.
  - destruct (ms_wdq s) as [|y q] eqn:Ew; [|apply HW in H; exact H]. destruct (ms_raq s) as [|x r] eqn:Er; [injection H as <-; auto 20|].
    destruct (issue_read X s) as [s1|] eqn:E; [|discriminate]. injection H as <-. apply HR in E. rewrite Er in E. exact E.
Qed.
Lemma mem_tick_b : forall s s' e, mem_tick X c s = Some (s', e) -> bs e = [] /\ (exists q, ms_owb s' = ms_owb s ++ q) /\ ms_bvalid s' = ms_bvalid s /\ ms_buser s' = ms_buser s /\ ms_waocc s' = ms_waocc s /\ ms_awready s' = ms_awready s /\ rs e = [] /\ ms_rvalid s' = ms_rvalid s.
Proof.
  intros s s' e H. unfold mem_tick in H. cbn zeta in H. destruct (d_tick X _) as [[d q]|]; [|discriminate]. destruct (callbacks X c q _) as [[s1 e1]|] eqn:E1; [|discriminate].
  destruct (issue X s1) as [s2|] eqn:E2; [|discriminate]. injection H as <- <-. destruct (callbacks_b _ _ _ _ E1) as (H1 & H2 & H3 & H4 & _ & _ & _ & _ & H5 & H6 & _ & H7 & H8).
  destruct (issue_b _ _ E2) as (I1 & I2 & I3 & _ & _ & _ & I4 & _ & I5 & I6). cbn [set_front set_mocc ms_owb ms_bvalid ms_buser ms_waocc ms_awready ms_rvalid] in *. rewrite I1, I2, I3, I4, I5, I6. auto 10.
Qed.

Lemma edge_split : forall o i s s' e, edge X c o i s = Some (s', e) -> exists s2, s' = (if i_other i || changed X s s2 then assign X c s2 else s2) /\
  if o then exists s1 e1 e2, tick X c i s = Some (s1, e1) /\ mem_tick X c s1 = Some (s2, e2) /\ e = e1 ++ e2
       else exists s1 e1 e2, mem_tick X c s = Some (s1, e1) /\ tick X c i s1 = Some (s2, e2) /\ e = e1 ++ e2.
Proof.
  intros o i s s' e H. unfold edge in H. destruct o.
  - destruct (tick X c i s) as [[s1 e1]|] eqn:E1; [|discriminate]. destruct (mem_tick X c s1) as [[s2 e2]|] eqn:E2; [|discriminate]. injection H as <- <-. eauto 10.
  - destruct (mem_tick X c s) as [[s1 e1]|] eqn:E1; [|discriminate]. destruct (tick X c i s1) as [[s2 e2]|] eqn:E2; [|discriminate]. injection H as <- <-. eauto 10.
Qed.

Definition musers (l : list mev) : list Z := map w_user (filter w_last (stored l)).
Lemma musers_prefix : forall b R W s l e, minv b R W s l -> exists q, musers (l ++ e) = musers l ++ q.
Proof. intros b R W s l e H. destruct (stored_prefix _ _ _ _ _ e H) as (q & E). unfold musers. rewrite E, filter_app, map_app. eauto. Qed.
(** When Assign runs at every edge, the responses have the users of the bursts. *)
Lemma woken_run : forall es s l, mrun X c mem0 d0 es = Some (s, l) -> Forall (fun x => i_other (snd x) = true) es ->
  bs l = firstn (length (bs l)) (musers l) /\ (ms_bvalid s = true -> exists r, ms_owb s = ms_buser s :: r).
Proof.
  intros es. induction es as [|[o i] es IH] using rev_ind; intros s l H Hw.
  - injection H as <- <-. split; [reflexivity|]. cbn. discriminate.
  - pose proof (mrun_good _ _ _ _ _ _ _ DO _ _ _ H) as [_ G']. rewrite mrun_snoc in H. destruct (mrun X c mem0 d0 es) as [[s0 l0]|] eqn:E0; [|discriminate].
    apply Forall_app in Hw. destruct Hw as [Hw Hi]. inversion Hi as [|? ? Ho _]. subst. cbn [snd] in Ho. specialize (IH _ _ eq_refl Hw). destruct IH as [IH1 IH2].
    pose proof (mrun_good _ _ _ _ _ _ _ DO _ _ _ E0) as [_ G0]. destruct (edge X c o i s0) as [[s1 e]|] eqn:Ee; [|discriminate]. injection H as <- <-.
    destruct (edge_split _ _ _ _ _ Ee) as (s2 & Es & Hs). rewrite Ho in Es. cbn [orb] in Es.
    split.
    2:{ subst s1. cbn [assign set_assign ms_owb ms_bvalid ms_buser] in *. intro Hb. pose proof (mi_bv _ _ _ _ _ _ _ G' Hb) as Hn. cbn [assign set_assign ms_owb] in Hn. destruct (ms_owb s2) as [|u r]; [contradiction|]. eauto. }
    assert (K : bs e = [] \/ exists r, bs e = [ms_buser s0] /\ ms_owb s0 = ms_buser s0 :: r).
    { destruct o.
      - destruct Hs as (s3 & e1 & e2 & T1 & T2 & ->). destruct (tick_b _ _ _ _ T1) as (b & Eb & _ & Hb). destruct (mem_tick_b _ _ _ T2) as (M1 & _). rewrite bs_app, M1, app_nil_r, Eb.
        destruct Hb as [[-> _]|(-> & Hv & _)]; [left; reflexivity|]. destruct (IH2 Hv) as (r & Er). right. exists r. auto.
      - destruct Hs as (s3 & e1 & e2 & T1 & T2 & ->). destruct (tick_b _ _ _ _ T2) as (b & Eb & _ & Hb). destruct (mem_tick_b _ _ _ T1) as (M1 & _ & M3 & M4 & _). rewrite bs_app, M1, Eb.
        destruct Hb as [[-> _]|(-> & Hv & _)]; [left; reflexivity|]. rewrite M3 in Hv. destruct (IH2 Hv) as (r & Er). right. exists r. rewrite M4. auto. }
    destruct (musers_prefix _ _ _ _ _ e G0) as (q & Eq). destruct (wr_stored _ _ _ _ _ G0) as (_ & _ & _ & _ & _ & _ & Hk & Hl). fold (musers l0) in Hk.
    assert (Hl' : (length (bs l0) <= length (musers l0))%nat) by (unfold musers; rewrite map_length; exact Hl).
    rewrite bs_app, Eq. destruct K as [-> | (r & -> & Er)].
    + rewrite app_nil_r, firstn_app. replace (length (bs l0) - length (musers l0))%nat with 0%nat by lia. cbn [firstn]. rewrite app_nil_r. exact IH1.
    + rewrite Er in Hk. rewrite app_length. cbn [length]. rewrite <- (firstn_skipn (length (bs l0)) (musers l0)), <- IH1, Hk, <- app_assoc. rewrite firstn_app_2. reflexivity.
Qed.

(** ** Write addresses *)
Lemma tick_aw : forall i s s' e, tick X c i s = Some (s', e) -> aws e = (if i_awvalid i && (ms_waocc s <? m_iq c) then slots c (i_awaddr i) (i_awlen i) (i_awsize i) else []) /\ ms_awready s' = ms_awready s.
Proof.
  intros i s s' e H. unfold tick in H.
  assert (HA : aws (snd (tick_accept X c i s)) = (if i_awvalid i && (ms_waocc s <? m_iq c) then slots c (i_awaddr i) (i_awlen i) (i_awsize i) else []) /\ ms_awready (fst (tick_accept X c i s)) = ms_awready s).
  { unfold tick_accept. cbn [fst snd set_occ set_front ms_awready]. split; [|reflexivity]. rewrite !aws_app, aws_evs. unfold aws. rewrite !(nil_of mev (Z * bool)); [apply app_nil_r|..]; intros x Hx; apply in_map_iff in Hx; destruct Hx as (y & <- & _); reflexivity. }
  destruct (tick_accept X c i s) as [s1 e1]. cbn [fst snd] in HA. destruct HA as [A1 A2]. rewrite <- A1, <- A2.
  destruct (if ms_bvalid s && i_bready i then _ else _) as [[owb e2]|] eqn:E2; [|discriminate].
  assert (N2 : aws e2 = []) by (destruct (ms_bvalid s && i_bready i); [destruct (ms_owb s1); [discriminate|]|]; injection E2 as _ <-; reflexivity).
  destruct (if ms_rvalid s && i_rready i then _ else _) as [[orr e3]|] eqn:E3; [|discriminate].
  assert (N3 : aws e3 = []) by (destruct (ms_rvalid s && i_rready i); [destruct (ms_orr s1); [discriminate|]|]; injection E3 as _ <-; reflexivity).
  injection H as <- <-. rewrite !aws_app, N2, N3, !app_nil_r. auto.
Qed.
Lemma callbacks_aw : forall q s s' e, callbacks X c q s = Some (s', e) -> aws e = [].
Proof.
  induction q as [|[a w] q IH]; intros s s' e H; cbn [callbacks] in H; [injection H as _ <-; reflexivity|].
  destruct w.
  - destruct (write_callback X s a) as [[s1 e1]|] eqn:E1; [|discriminate]. destruct (callbacks X c q s1) as [[s2 e2]|] eqn:E2; [|discriminate]. injection H as _ <-. rewrite aws_app, (IH _ _ _ E2).
    unfold write_callback in E1. destruct (ms_owr s) as [|[[u d] b] r]; [discriminate|]. injection E1 as _ <-. reflexivity.
  - destruct (read_callback X c s a) as [s1|]; [|discriminate]. destruct (callbacks X c q s1) as [[s2 e2]|] eqn:E2; [|discriminate]. injection H as _ <-. exact (IH _ _ _ E2).
Qed.
Lemma mem_tick_aw : forall s s' e, mem_tick X c s = Some (s', e) -> aws e = [].
Proof.
  intros s s' e H. unfold mem_tick in H. cbn zeta in H. destruct (d_tick X _) as [[d q]|]; [|discriminate]. destruct (callbacks X c q _) as [[s1 e1]|] eqn:E1; [|discriminate].
  destruct (issue X s1) as [s2|] eqn:E2; [|discriminate]. injection H as _ <-. eapply callbacks_aw; eauto.
Qed.
(** What an edge does with a write address. *)
Lemma edge_aw : forall o i s s' e, edge X c o i s = Some (s', e) -> aws e = if i_awvalid i && (ms_waocc s <? m_iq c) then slots c (i_awaddr i) (i_awlen i) (i_awsize i) else [].
Proof.
  intros o i s s' e H. destruct (edge_split _ _ _ _ _ H) as (s2 & _ & Hs). destruct o; destruct Hs as (s1 & e1 & e2 & T1 & T2 & ->); rewrite aws_app.
  - rewrite (mem_tick_aw _ _ _ T2), app_nil_r. apply (tick_aw _ _ _ _ T1).
  - rewrite (mem_tick_aw _ _ _ T1). destruct (tick_aw _ _ _ _ T2) as [E _]. rewrite E. destruct (mem_tick_b _ _ _ T1) as (_ & _ & _ & _ & E2 & _). rewrite E2. reflexivity.
Qed.
Lemma awready_run : forall es s l, mrun X c mem0 d0 es = Some (s, l) -> ms_awready s = (ms_waocc s <? u32 (m_iq c - 16)).
Proof.
  intros es. induction es as [|[o i] es IH] using rev_ind; intros s l H.
  - injection H as <- <-. reflexivity.
  - rewrite mrun_snoc in H. destruct (mrun X c mem0 d0 es) as [[s0 l0]|]; [|discriminate]. specialize (IH _ _ eq_refl). destruct (edge X c o i s0) as [[s1 e]|] eqn:Ee; [|discriminate]. injection H as <- <-.
    destruct (edge_split _ _ _ _ _ Ee) as (s2 & -> & Hs). destruct (i_other i || changed X s0 s2) eqn:Ec; [reflexivity|]. apply orb_false_iff in Ec. destruct Ec as [_ Ec]. unfold changed in Ec.
    destruct (list_eq_dec Z.eq_dec (watched X s0) (watched X s2)) as [E|]; [|discriminate]. unfold watched in E. injection E as E _ _ _ _ _ _. rewrite <- E, <- IH.
    destruct o; destruct Hs as (s3 & e1 & e2 & T1 & T2 & _).
    + destruct (tick_aw _ _ _ _ T1) as [_ K]. destruct (mem_tick_b _ _ _ T2) as (_ & _ & _ & _ & _ & K2 & _). congruence.
    + destruct (tick_aw _ _ _ _ T2) as [_ K]. destruct (mem_tick_b _ _ _ T1) as (_ & _ & _ & _ & _ & K2 & _). congruence.
Qed.

(** ** Reads are delivered *)
Definition empty_reads (s : mst X) : Prop := rd (ms_dram s) = [] /\ ms_raq s = [].
Lemma no_ord : forall b R W s l, minv b R W s l -> R = [] -> ms_ord s = [].
Proof.
  intros b R W s l H ->. pose proof (mi_cnt _ _ _ _ _ _ _ H) as Hc. pose proof (mi_head _ _ _ _ _ _ _ H) as Hh. destruct (ms_ord s) as [|[[a u] q] r]; [reflexivity|]. exfalso.
  specialize (Hc a). cbn [map fst] in *. rewrite count_occ_cons_eq in Hc by reflexivity. rewrite Hh in Hc. cbn in Hc. lia.
Qed.
Lemma tick_r : forall i s s' e, tick X c i s = Some (s', e) -> i_arvalid i = false -> i_rready i = true -> (ms_rvalid s = true -> exists r, ms_orr s = ms_r s :: r) ->
  ms_raq s' = ms_raq s /\ ms_dram s' = ms_dram s /\ ms_ord s' = ms_ord s /\ ms_rvalid s' = negb (Nat.eqb (length (ms_orr s')) 0) /\
  length (ms_orr s') = (length (ms_orr s) - (if ms_rvalid s then 1 else 0))%nat /\ ars e = [].
Proof.
  intros i s s' e H Ha Hr Hv. unfold tick in H.
  assert (HA : ms_raq (fst (tick_accept X c i s)) = ms_raq s /\ ms_orr (fst (tick_accept X c i s)) = ms_orr s /\ ms_ord (fst (tick_accept X c i s)) = ms_ord s /\ ms_dram (fst (tick_accept X c i s)) = ms_dram s /\ ars (snd (tick_accept X c i s)) = []).
  { unfold tick_accept. rewrite Ha. cbn [fst snd set_occ set_front ms_orr ms_ord ms_raq ms_dram andb map app]. rewrite app_nil_r. repeat (split; [reflexivity|]). rewrite !ars_app. cbn [ars flat_map]. rewrite app_nil_r. unfold ars.
    rewrite !(nil_of mev (Z * Z * bool)); [reflexivity|..]; intros x Hx; apply in_map_iff in Hx; destruct Hx as (y & <- & _); reflexivity. }
  destruct (tick_accept X c i s) as [s1 e1]. cbn [fst snd] in HA. destruct HA as (A1 & A2 & A3 & A4 & A5).
  destruct (if ms_bvalid s && i_bready i then _ else _) as [[owb e2]|] eqn:E2; [|discriminate].
  assert (N2 : ars e2 = []) by (destruct (ms_bvalid s && i_bready i); [destruct (ms_owb s1); [discriminate|]|]; injection E2 as _ <-; reflexivity).
  rewrite Hr, andb_true_r, A2 in H. destruct (ms_rvalid s) eqn:Ev.
  - destruct (Hv eq_refl) as (r & Er). rewrite Er in H. injection H as <- <-. cbn [set_resp set_back ms_orr ms_ord ms_raq ms_dram ms_rvalid]. rewrite Er, !ars_app, A5, N2. cbn [length].
    repeat (split; [assumption|]). split; [destruct r; reflexivity|]. split; [lia|reflexivity].
  - injection H as <- <-. cbn [set_resp set_back ms_orr ms_ord ms_raq ms_dram ms_rvalid]. rewrite !ars_app, A5, N2. repeat (split; [assumption|]). split; [destruct (ms_orr s); reflexivity|]. split; [lia|reflexivity].
Qed.
Lemma mem_tick_r : forall b s l s' e, inv (ms_dram s) -> minv b (rd (ms_dram s)) (wr (ms_dram s)) s l -> mem_tick X c s = Some (s', e) -> empty_reads s ->
  empty_reads s' /\ ms_orr s' = ms_orr s /\ ms_rvalid s' = ms_rvalid s /\ ms_r s' = ms_r s /\ ars e = [].
Proof.
  intros b s l s' e Hi H HT [E1 E2]. unfold mem_tick in HT. cbn zeta in HT. cbn [set_mocc ms_dram] in HT. destruct (do_tick _ _ _ _ _ DO _ Hi) as (d' & q & Ed & Hi' & HP & HW). rewrite Ed in HT. cbn [set_mocc ms_waq ms_wdq ms_raq ms_dram ms_rbw] in HT.
  rewrite E1 in HP. apply Permutation_nil in HP. apply app_eq_nil in HP. destruct HP as [P1 P2].
  match type of HT with context [callbacks X c q ?s0] => set (s1 := s0) in HT end. destruct (callbacks X c q s1) as [[s2 e2]|] eqn:Ec; [|discriminate].
  assert (Na : ars e2 = []).
  { clearbody s1. clear - Ec. revert s1 s2 e2 Ec. induction q as [|[a w] q IH]; intros s1 s2 e2 Ec; cbn [callbacks] in Ec; [injection Ec as _ <-; reflexivity|]. destruct w.
    - destruct (write_callback X s1 a) as [[s3 e3]|] eqn:E3; [|discriminate]. destruct (callbacks X c q s3) as [[s4 e4]|] eqn:E4; [|discriminate]. injection Ec as _ <-. rewrite ars_app, (IH _ _ _ E4).
      unfold write_callback in E3. destruct (ms_owr s1) as [|[[u d] b] r]; [discriminate|]. injection E3 as _ <-. reflexivity.
    - destruct (read_callback X c s1 a) as [s3|]; [|discriminate]. destruct (callbacks X c q s3) as [[s4 e4]|] eqn:E4; [|discriminate]. injection Ec as _ <-. exact (IH _ _ _ E4). }
  destruct (issue X s2) as [s3|] eqn:Ei; [|discriminate]. injection HT as <- <-.
  destruct (callbacks_b _ _ _ _ Ec) as (_ & _ & _ & _ & C1 & _ & _ & C2 & _ & C3 & C4 & _). specialize (C2 P1). destruct C2 as (C5 & C6 & C7).
  assert (H1 : minv b (rd_of q ++ rd d') (wr_of q ++ wr d') s1 l).
  { apply (minv_perm X mem0 b (rd (ms_dram s))); [rewrite E1, P1, P2; apply Permutation_refl|]. rewrite <- HW. eapply minv_same; [exact H|..]; reflexivity. }
  destruct (callbacks_ok X c mem0 b q _ _ _ _ H1) as (s2' & e2' & Ec' & H2 & D2 & _). rewrite Ec in Ec'. injection Ec' as <- <-.
  destruct (issue_b _ _ Ei) as (_ & _ & _ & I1 & _ & I2 & I3 & I4 & _). rewrite C1 in I2. specialize (I2 E2). destruct I2 as [I5 I6].
  cbn [set_front ms_orr ms_rvalid ms_r]. split; [|rewrite I1, I3, I4, C3, C4, C5; auto].
  split; [|exact I5]. cbn [set_front ms_dram].
  assert (Hd : rd (ms_dram s3) = []).
  { assert (HR : ms_raq s2 = []) by (rewrite C1; exact E2). assert (HE : rd (ms_dram s2) = [] /\ inv (ms_dram s2)) by (rewrite D2; cbn; auto). clear - Ei HR HE DO. destruct HE as [HE Hv]. unfold issue in Ei. rewrite HR in Ei.
    assert (HW : forall s', issue_write X s2 = Some s' -> rd (ms_dram s') = []).
    { intros s' H. unfold issue_write in H. destruct (ms_wdq s2) as [|[u d] r]; [injection H as <-; exact HE|]. destruct (ms_waq s2) as [|[a z] p]; [discriminate|].
      destruct (d_will X (ms_dram s2) a true) eqn:Ew; [|injection H as <-; exact HE]. destruct (do_write _ _ _ _ _ DO _ _ Hv Ew) as (d'' & Ed & _ & Hp & _). rewrite Ed in H. injection H as <-. cbn [set_back set_front ms_dram].
      rewrite HE in Hp. apply Permutation_sym, Permutation_nil in Hp. exact Hp. }
    destruct (ms_rbw s2).
    - destruct (issue_write X s2) as [s4|] eqn:E; [|discriminate]. injection Ei as <-. exact (HW _ eq_refl).
    - destruct (ms_wdq s2) eqn:Ew; [injection Ei as <-; exact HE|exact (HW _ Ei)]. }
  exact Hd.
Qed.
Lemma edge_r : forall o i s l s' e, inv (ms_dram s) -> minv false (rd (ms_dram s)) (wr (ms_dram s)) s l -> edge X c o i s = Some (s', e) -> empty_reads s -> i_arvalid i = false -> i_rready i = true ->
  empty_reads s' /\ ms_rvalid s' = negb (Nat.eqb (length (ms_orr s')) 0) /\ length (ms_orr s') = (length (ms_orr s) - (if ms_rvalid s then 1 else 0))%nat /\ ars e = [].
Proof.
  intros o i s l s' e Hi H HE HR Ha Hr. destruct (edge_split _ _ _ _ _ HE) as (s2 & Es & Hs).
  assert (K : empty_reads s2 /\ ms_rvalid s2 = negb (Nat.eqb (length (ms_orr s2)) 0) /\ length (ms_orr s2) = (length (ms_orr s) - (if ms_rvalid s then 1 else 0))%nat /\ ars e = []).
  { destruct o; destruct Hs as (s1 & e1 & e2 & T1 & T2 & ->); rewrite ars_app.
    - destruct (tick_r _ _ _ _ T1 Ha Hr (mi_rv _ _ _ _ _ _ _ H)) as (R1 & R2 & R3 & R4 & R5 & R6).
      destruct (tick_ok X c mem0 false _ _ i _ _ H ltac:(discriminate)) as (s1' & e1' & T1' & H1 & D1). rewrite T1 in T1'. injection T1' as <- <-.
      assert (Hi1 : inv (ms_dram s1)) by (rewrite D1; exact Hi). rewrite <- D1 in H1. assert (HR1 : empty_reads s1) by (destruct HR as [Q1 Q2]; split; [rewrite D1; exact Q1|rewrite R1; exact Q2]).
      destruct (mem_tick_r _ _ _ _ _ Hi1 H1 T2 HR1) as (M1 & M2 & M3 & M4 & M5). rewrite M2, M3, R6, M5. auto.
    - destruct (mem_tick_r _ _ _ _ _ Hi H T1 HR) as (M1 & M2 & M3 & M4 & M5).
      destruct (tick_r _ _ _ _ T2 Ha Hr) as (R1 & R2 & R3 & R4 & R5 & R6); [rewrite M2, M3, M4; apply (mi_rv _ _ _ _ _ _ _ H)|].
      rewrite R5, M2, M3, R6, M5. split; [destruct M1 as [Q1 Q2]; split; [rewrite R2; exact Q1|rewrite R1; exact Q2]|]. split; [rewrite R4, R5, M2, M3; reflexivity|]. auto. }
  subst s'. destruct (i_other i || changed X s s2); exact K.
Qed.
Lemma drain_run : forall es' es s l s' l', mrun X c mem0 d0 es = Some (s, l) -> empty_reads s -> mrun X c mem0 d0 (es ++ es') = Some (s', l') ->
  Forall (fun x => i_arvalid (snd x) = false /\ i_rready (snd x) = true) es' -> ars l' = ars l /\ empty_reads s' /\
  (es' <> [] -> ms_rvalid s' = negb (Nat.eqb (length (ms_orr s')) 0) /\ (length (ms_orr s') <= length (ms_orr s) - pred (length es'))%nat).
Proof.
  intros es'. induction es' as [|[o i] es' IH] using rev_ind; intros es s l s' l' H HE H' HF.
  - rewrite app_nil_r in H'. rewrite H in H'. injection H' as <- <-. split; [reflexivity|]. split; [exact HE|]. congruence.
  - rewrite app_assoc, mrun_snoc in H'. destruct (mrun X c mem0 d0 (es ++ es')) as [[s1 l1]|] eqn:E1; [|discriminate]. apply Forall_app in HF. destruct HF as [HF Hi]. inversion Hi as [|? ? [Ha Hr] _]. subst. cbn [snd] in *.
    destruct (IH _ _ _ _ _ H HE E1 HF) as (A1 & A2 & A3). destruct (edge X c o i s1) as [[s2 e]|] eqn:Ee; [|discriminate]. injection H' as <- <-.
    destruct (mrun_good _ _ _ _ _ _ _ DO _ _ _ E1) as [G1 G2]. destruct (edge_r _ _ _ _ _ _ G1 G2 Ee A2 Ha Hr) as (R1 & R2 & R3 & R4).
    rewrite ars_app, R4, app_nil_r. split; [exact A1|]. split; [exact R1|]. intros _. split; [exact R2|]. rewrite app_length. cbn [length]. rewrite Nat.add_1_r. cbn [pred].
    destruct es' as [|y es']; [|].
    + rewrite app_nil_r in E1. rewrite H in E1. injection E1 as <- <-. cbn. lia.
    + destruct (A3 ltac:(discriminate)) as [B1 B2]. rewrite B1 in R3. cbn [length pred] in *. destruct (Nat.eqb_spec (length (ms_orr s1)) 0) as [Z|Z]; cbn [negb] in R3; lia.
Qed.
End RUN.

(** ** Values *)
Lemma value_after : forall mem st i a x, nth_error st i = Some (a, x) -> exists i', (i <= i')%nat /\ nth_error st i' = Some (a, value mem st a).
Proof.
  intros mem st. induction st as [|[b y] st IH] using rev_ind; intros i a x H; [destruct i; discriminate|].
  rewrite value_snoc. destruct (Z.eqb_spec a b) as [Eab|Hn].
  - subst b. exists (length st). rewrite nth_error_app2, Nat.sub_diag by lia. split; [|reflexivity]. assert (i < length (st ++ [(a, y)]))%nat by (apply nth_error_Some; congruence). rewrite app_length in *. cbn in *. lia.
  - assert (Hi : (i < length st)%nat).
    { assert (L : (i < length (st ++ [(b, y)]))%nat) by (apply nth_error_Some; congruence). rewrite app_length in L. cbn in L. destruct (Nat.eq_dec i (length st)) as [->|]; [|lia]. rewrite nth_error_app2, Nat.sub_diag in H by lia. cbn in H. congruence. }
    rewrite nth_error_app1 in H by exact Hi. destruct (IH _ _ _ H) as (i' & L & E). exists i'. split; [exact L|]. rewrite nth_error_app1 by (apply nth_error_Some; congruence). exact E.
Qed.
Lemma batch_ok : forall p, dram_ok (batch p) (pred p, []) (fun _ => True) (fun d => rd_of (snd d)) (fun d => wr_of (snd d)).
Proof.
  intro p. constructor.
  - auto.
  - intros d a _ _. eexists. split; [reflexivity|]. cbn [fst snd]. split; [exact I|]. unfold rd_of, wr_of. rewrite !filter_app, !map_app. cbn. rewrite app_nil_r. split; [symmetry; apply Permutation_cons_append|reflexivity].
  - intros d a _ _. eexists. split; [reflexivity|]. cbn [fst snd]. split; [exact I|]. unfold rd_of, wr_of. rewrite !filter_app, !map_app. cbn. rewrite app_nil_r. auto.
  - intros [k l] _. cbn [batch d_tick fst snd]. destruct k as [|k]; eexists _, _; (split; [reflexivity|]); (split; [exact I|]); cbn [fst snd rd_of wr_of filter map app]; rewrite ?app_nil_r; auto.
Qed.
