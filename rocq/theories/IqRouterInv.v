(** The invariant of the router and how each part of a step keeps it. *)
From Coq Require Import ZArith Arith Bool List Lia Permutation.
From Verif Require Import Fupd ArbiterModel AllocModel AllocSpec BufferModel BufferSpec BufferProofs RouteModel IqRouterModel IqRouterSpec IqRouterProofs.
Import ListNotations.
Open Scope nat_scope.

(** Where a flit at an input may go. *)
Definition offered (c : iqcfg) (xs : list rin) (i : nat) (f : flit) (es : list oelem) : Prop :=
  if c_rdelay c then exists x, In x xs /\ es = i_rf x i f else es = f_la f.
Definition chosen (c : iqcfg) (xs : list rin) (i : nat) (f : flit) (ow : nat * nat) : Prop :=
  if c_rdelay c then exists x, In x xs /\ In ow (channels_of (i_rf x i f)) else In ow (channels_of (f_la f)).
Lemma offered_chosen : forall c xs i f es ow, offered c xs i f es -> In ow (channels_of es) -> chosen c xs i f ow.
Proof. intros c xs i f es ow. unfold offered, chosen. destruct (c_rdelay c); [intros [x [A ->]] B; eauto|intros -> B; auto]. Qed.

(** The state of a virtual channel after the trips [gone], which end in the state [gs]. *)
Definition stok (c : iqcfg) (xs : list rin) (i : nat) (b : vcst) (gs : option (Z * (nat * nat))) : Prop :=
  match v_state b with
  | Idle => v_buf b = [] /\ gs = None
  | Routing => v_buf b <> [] /\ gs = None /\ c_rdelay c = true
  | VAlloc => gs = None /\ good_route c (v_route b) /\ exists f r, v_buf b = f :: r /\ offered c xs i f (v_route b)
  | Active => exists o w, v_out b = Some (o, w) /\ o < c_outs c /\ w < c_vcs c /\
                match gs with None => exists f r, v_buf b = f :: r /\ chosen c xs i f (o, w) | Some (_, ow) => ow = (o, w) end
  end.
Record vcok (c : iqcfg) (xs : list rin) (i v : nat) (b : vcst) (rx : list flit) (gone : list trip) : Prop := {
  vk_rx : rx = map fst gone ++ v_buf b;
  vk_vc : Forall (fun f => f_vc f = v) rx;
  vk_exp : exists p, parse rx = Some p /\ match p with None => (v_exp b < 0)%Z | Some q => v_exp b = q end;
  vk_la : c_rdelay c = false -> Forall (fun f => f_head f = true -> good_route c (f_la f)) rx;
  vk_gone : Forall (trip_ok c xs i) gone;
  vk_st : exists gs, gparse gone = Some gs /\ stok c xs i b gs }.

Section Parts.
Variables (c : iqcfg) (P : bpolicy).

Definition I_vc (xs : list rin) (f : nat -> nat -> vcst) (rx : nat -> nat -> list flit) (gone : nat -> nat -> list trip) : Prop :=
  forall i v, i < c_in c -> v < c_vcs c -> vcok c xs i v (f i v) (rx i v) (gone i v).
Definition owns (f : nat -> nat -> vcst) (i v o w : nat) : Prop := i < c_in c /\ v < c_vcs c /\ v_state (f i v) = Active /\ v_out (f i v) = Some (o, w).
(** What was sent on a channel of an output, with the input channels it came from. *)
Definition lab (a : (nat * nat) * flit) : trip := (snd a, (fst (fst a), on_channel (snd (fst a)) (snd a))).
Definition on_lab (w : nat) (l : list ((nat * nat) * flit)) : list trip := map lab (filter (fun e => Nat.eqb (f_vc (snd e)) w) l).
Definition I_own (f : nat -> nat -> vcst) (gone : nat -> nat -> list trip) (L : nat -> list ((nat * nat) * flit)) (h : nat -> list (Z * bev)) : Prop :=
  (forall i v o w, owns f i v o w -> busy w (h o) = true /\ exists gs, gparse (gone i v) = Some gs /\ gparse (on_lab w (L o)) = Some (option_map (fun a => (fst a, (i, v))) gs)) /\
  (forall i v i' v' o w, owns f i v o w -> owns f i' v' o w -> (i', v') = (i, v)) /\
  (forall o w, o < c_outs c -> w < c_vcs c -> (exists i v, owns f i v o w) \/ (gparse (on_lab w (L o)) = Some None /\ busy w (h o) = false)).
Definition I_next (I : bst -> po_st P -> Prop) (h : nat -> list (Z * bev)) (nx : nat -> bufs P) : Prop := forall o, o < c_outs c -> st_ok (c_b c) P I (h o) (nx o).
Definition sel (o : nat) (l : list (flit * (nat * nat))) : list flit := flat_map (fun e => if Nat.eqb (snd (snd e)) o then [fst e] else []) l.
Record I_out (L : nat -> list ((nat * nat) * flit)) (tx out : nat -> list flit) (px xb : list (flit * (nat * nat))) (gone : nat -> nat -> list trip) (h : nat -> list (Z * bev)) : Prop := {
  io_out : forall o, o < c_outs c -> map snd (L o) = tx o ++ out o ++ sel o px ++ sel o xb;
  io_one : forall o, o < c_outs c -> length (out o ++ sel o px) <= 1 /\ length (sel o xb) <= 1;
  io_sent : forall o w, o < c_outs c -> sent w (h o) = Z.of_nat (length (on_vc w (map snd (L o))));
  io_label : forall o a, In a (L o) -> fst (fst a) < c_in c /\ snd (fst a) < c_vcs c;
  io_from : forall i v o, i < c_in c -> v < c_vcs c -> o < c_outs c -> from i v (L o) = left_for o (gone i v);
  io_px : Forall (fun e => fst (snd e) < c_in c /\ snd (snd e) < c_outs c) px;
  io_xb : Forall (fun e => fst (snd e) < c_in c /\ snd (snd e) < c_outs c) xb }.
(** The credits for a channel of an output that wait to be processed. *)
Fixpoint held (o w : nat) (q : list (Z * (list nat * nat))) : nat :=
  match q with [] => 0 | (_, (vs, o')) :: r => (if Nat.eqb o' o then count_occ Nat.eq_dec vs w else 0) + held o w r end.
Record I_cr (cr : nat -> list nat) (h : nat -> list (Z * bev)) (q : list (Z * (list nat * nat))) (tx : nat -> list flit) : Prop := {
  ic_sum : forall o w, o < c_outs c -> Z.of_nat (count_occ Nat.eq_dec (cr o) w) = (credited w (h o) + Z.of_nat (held o w q))%Z;
  ic_tx : forall o w, o < c_outs c -> count_occ Nat.eq_dec (cr o) w <= length (on_vc w (tx o));
  ic_q : Forall (fun e => snd (snd e) < c_outs c /\ NoDup (fst (snd e)) /\ Forall (fun v => v < c_vcs c) (fst (snd e))) q }.
Definition I_ct (ct : nat -> list nat) (cb : nat -> list (list nat)) (oc : nat -> list nat) (gone : nat -> nat -> list trip) : Prop :=
  forall i, i < c_in c -> Forall (fun v => v < c_vcs c) (ct i ++ concat (cb i) ++ oc i) /\ Forall (fun l => length l <= 1) (oc i :: cb i) /\
    forall v, v < c_vcs c -> count_occ Nat.eq_dec (ct i ++ concat (cb i) ++ oc i) v = length (gone i v).
Definition I_occ (occ : nat -> Z) (f : nat -> nat -> vcst) : Prop :=
  forall i, i < c_in c -> occ i = total (fun v => Z.of_nat (length (v_buf (f i v)))) (c_vcs c).

(** What happened so far. *)
Record gh := { g_rx : nat -> nat -> list flit; g_gone : nat -> nat -> list trip; g_L : nat -> list ((nat * nat) * flit); g_h : nat -> list (Z * bev);
  g_tx : nat -> list flit; g_cr : nat -> list nat; g_ct : nat -> list nat }.
Variable I : bst -> po_st P -> Prop.
Record Inv (xs : list rin) (pr pv ps : list (nat * nat)) (px : list (flit * (nat * nat))) (s : router P) (g : gh) : Prop := {
  iv_vc : I_vc xs (r_vc s) (g_rx g) (g_gone g);
  iv_q : queues c (r_vc s) (r_rq s ++ pr) (r_va s ++ pv) (r_sa s ++ ps);
  iv_own : I_own (r_vc s) (g_gone g) (g_L g) (g_h g);
  iv_next : I_next I (g_h g) (r_next s);
  iv_out : I_out (g_L g) (g_tx g) (r_out s) px (r_xb s) (g_gone g) (g_h g);
  iv_cr : I_cr (g_cr g) (g_h g) (r_proc s) (g_tx g);
  iv_ct : I_ct (g_ct g) (r_cb s) (r_oc s) (g_gone g);
  iv_occ : I_occ (r_occ s) (r_vc s) }.

(** *** Facts that several parts need *)
Lemma I_vc_upd : forall xs f rx gone i v b, I_vc xs f rx gone -> (i < c_in c -> v < c_vcs c -> vcok c xs i v b (rx i v) (gone i v)) -> I_vc xs (upd2 f i v b) rx gone.
Proof.
  intros xs f rx gone i v b H K a w Ha Hw. destruct (nn_dec (a, w) (i, v)) as [E|E]; [injection E as -> ->; rewrite upd2_same; auto|rewrite upd2_other by auto; auto].
Qed.
Lemma owns_upd_other : forall f i v b a y o w, (a, y) <> (i, v) -> owns (upd2 f i v b) a y o w <-> owns f a y o w.
Proof. intros. unfold owns. rewrite upd2_other by auto. tauto. Qed.
Lemma own_same : forall f gone L h i v b, I_own f gone L h -> (v_state b = Active <-> v_state (f i v) = Active) -> (v_state b = Active -> v_out b = v_out (f i v)) ->
  I_own (upd2 f i v b) gone L h.
Proof.
  intros f gone L h i v b [A [B C]] S O.
  assert (X : forall a y o w, owns (upd2 f i v b) a y o w <-> owns f a y o w).
  { intros a y o w. destruct (nn_dec (a, y) (i, v)) as [E|E]; [|apply owns_upd_other; auto]. injection E as -> ->. unfold owns. rewrite upd2_same. split; intros [H1 [H2 [H3 H4]]].
    - split; auto. split; auto. split; [tauto|]. rewrite <- O; auto.
    - assert (v_state b = Active) by tauto. split; auto. split; auto. split; auto. rewrite O; auto. }
  split; [|split].
  - intros. apply A. apply X. auto.
  - intros a y a' y' o w H1 H2. apply X in H1, H2. eauto.
  - intros o w Ho Hw. destruct (C o w Ho Hw) as [[a [y Q]]|Q]; [left; exists a, y; apply X; auto|auto].
Qed.
Lemma occ_upd : forall occ f i v b, I_occ occ f -> i < c_in c -> v < c_vcs c ->
  I_occ (fupd occ i (occ i + Z.of_nat (length (v_buf b)) - Z.of_nat (length (v_buf (f i v))))%Z) (upd2 f i v b).
Proof.
  intros occ f i v b H Hi Hv a Ha. unfold fupd at 1. destruct (Nat.eqb_spec a i) as [->|N].
  - rewrite (H i Hi). transitivity (total (fupd (fun y => Z.of_nat (length (v_buf (f i y)))) v (Z.of_nat (length (v_buf b)))) (c_vcs c)).
    + rewrite total_fupd by auto. lia.
    + apply total_ext. intros y _. unfold upd2. rewrite fupd_same. unfold fupd. destruct (Nat.eqb y v); auto.
  - rewrite upd2_row by auto. auto.
Qed.
Lemma occ_same : forall occ f i v b, I_occ occ f -> length (v_buf b) = length (v_buf (f i v)) -> I_occ occ (upd2 f i v b).
Proof.
  intros occ f i v b H E a Ha. rewrite (H a Ha). apply total_ext. intros y _. destruct (nn_dec (a, y) (i, v)) as [E1|E1]; [injection E1 as -> ->; rewrite upd2_same, E; auto|rewrite upd2_other; auto].
Qed.
Lemma occ_eq : forall occ occ' f, (forall i, occ i = occ' i) -> I_occ occ f -> I_occ occ' f.
Proof. intros occ occ' f E H i Hi. rewrite <- E. auto. Qed.

(** What is known of a channel in a queue. *)
Lemma vk_buf_vc : forall xs i v b rx gone f r, vcok c xs i v b rx gone -> v_buf b = f :: r -> f_vc f = v.
Proof. intros xs i v b rx gone f r H E. pose proof (vk_vc _ _ _ _ _ _ _ H) as F. rewrite (vk_rx _ _ _ _ _ _ _ H), E in F. rewrite Forall_app in F. destruct F as [_ F]. inversion F; auto. Qed.
Lemma vk_front : forall xs i v b rx gone f r, vcok c xs i v b rx gone -> v_buf b = f :: r ->
  exists gs s1, gparse gone = Some gs /\ stok c xs i b gs /\ pstep (Some (option_map fst gs)) f = Some s1 /\ fold_left pstep r (Some s1) <> None.
Proof.
  intros xs i v b rx gone f r H E. destruct (vk_st _ _ _ _ _ _ _ H) as [gs [G S]]. destruct (vk_exp _ _ _ _ _ _ _ H) as [p [Q _]]. rewrite (vk_rx _ _ _ _ _ _ _ H), E in Q.
  unfold parse in Q. rewrite fold_left_app in Q. pose proof (gparse_fst _ _ G) as Q1. unfold parse in Q1. rewrite Q1 in Q. cbn [fold_left] in Q.
  destruct (pstep (Some (option_map fst gs)) f) as [s1|] eqn:Z; [|rewrite pstep_none in Q; discriminate]. exists gs, s1. split; auto. split; auto. split; auto. congruence.
Qed.
Lemma front_some : forall xs pr pv ps px s g st i v f r, Inv xs pr pv ps px s g -> i < c_in c -> v < c_vcs c -> v_state (r_vc s i v) = st -> st <> Idle -> v_buf (r_vc s i v) = f :: r ->
  front c st i v s = Some f.
Proof.
  intros xs pr pv ps px s g st i v f r H Hi Hv S N E. unfold front. rewrite E. pose proof (vk_buf_vc _ _ _ _ _ _ _ _ (iv_vc _ _ _ _ _ _ _ H i v Hi Hv) E) as V. rewrite V, S.
  rewrite (proj2 (Nat.ltb_lt _ _) Hi), (proj2 (Nat.ltb_lt _ _) Hv), Nat.eqb_refl. cbn [andb]. destruct st; auto; congruence.
Qed.
End Parts.

Ltac rs := cbn [set_vc set_occ set_qs set_xb set_next set_proc set_creds set_rr set_act r_vc r_occ r_rq r_va r_sa r_xb r_out r_next r_proc r_oc r_cb r_rr r_act g_rx g_gone g_L g_h g_tx g_cr g_ct] in *.

Section Steps.
Variables (c : iqcfg) (P : bpolicy) (I : bst -> po_st P -> Prop).
Hypothesis HP : policy_ok (c_b c) P I.

(** ** A flit enters *)
Definition with_rx (i v : nat) (f : flit) (g : gh) : gh :=
  {| g_rx := upd2 (g_rx g) i v (g_rx g i v ++ [f]); g_gone := g_gone g; g_L := g_L g; g_h := g_h g; g_tx := g_tx g; g_cr := g_cr g; g_ct := g_ct g |}.
(** The parts of the state that arrivals leave alone. *)
Definition others (s s' : router P) : Prop :=
  r_xb s' = r_xb s /\ r_out s' = r_out s /\ r_next s' = r_next s /\ r_proc s' = r_proc s /\ r_oc s' = r_oc s /\ r_cb s' = r_cb s /\ r_rr s' = r_rr s /\ r_act s' = r_act s.
Lemma exp_step : forall e p f s1, (match p with None => (e < 0)%Z | Some q => e = q end) -> pstep (Some p) f = Some s1 ->
  exists e', expect e f = Some e' /\ match s1 with None => (e' < 0)%Z | Some q => e' = q end.
Proof.
  intros e p f s1 H S. unfold expect. destruct p as [q|]; cbn [pstep] in S.
  - subst e. destruct (f_head f); [discriminate|]. cbn [negb andb] in S. destruct (f_pid f =? q)%Z eqn:Q; [|discriminate]. apply Z.eqb_eq in Q. injection S as <-. cbn [negb].
    destruct (0 <=? q)%Z eqn:G; [eexists; split; [reflexivity|]; destruct (f_tail f); [lia|reflexivity]|]. apply Z.leb_gt in G. eexists. split; [reflexivity|]. destruct (f_tail f); auto.
  - destruct (f_head f); [|discriminate]. injection S as <-. rewrite (proj2 (Z.leb_gt 0 e)) by lia. eexists. split; [reflexivity|]. destruct (f_tail f); auto.
Qed.
Lemma in_queue_ok : forall xs pr pv ps px s g i f, Inv c P I xs pr pv ps px s g -> i < c_in c -> f_vc f < c_vcs c -> (r_occ s i < bc_size (c_b c))%Z ->
  well_formed (g_rx g i (f_vc f) ++ [f]) -> (c_rdelay c = false -> f_head f = true -> good_route c (f_la f)) ->
  exists s', in_queue c (i, f) s = Some s' /\ Inv c P I xs pr pv ps px s' (with_rx i (f_vc f) f g) /\ others s s' /\ r_occ s' = fupd (r_occ s) i (r_occ s i + 1)%Z.
Proof.
  intros xs pr pv ps px s g i f H Hi Hv Hs W La. set (v := f_vc f) in *. unfold in_queue. fold v. rewrite (proj2 (Nat.ltb_lt _ _) Hi), (proj2 (Nat.ltb_lt _ _) Hv), (proj2 (Z.leb_gt _ _) Hs). cbn [andb negb].
  pose proof (iv_vc _ _ _ _ _ _ _ _ _ _ H i v Hi Hv) as K. destruct (vk_exp _ _ _ _ _ _ _ K) as [p [Q E]].
  unfold well_formed in W. rewrite parse_snoc, Q in W. destruct (pstep (Some p) f) as [s1|] eqn:S1; [|congruence].
  destruct (exp_step _ _ _ _ E S1) as [e [Ex Es]]. rewrite Ex.
  destruct (vk_st _ _ _ _ _ _ _ K) as [gs [G S]]. pose proof (iv_q _ _ _ _ _ _ _ _ _ _ H) as IQ.
  (* the new state of the channel *)
  assert (M : forall b', v_buf b' = v_buf (r_vc s i v) ++ [f] -> v_exp b' = e -> stok c xs i b' gs ->
    I_vc c xs (upd2 (r_vc s) i v b') (g_rx (with_rx i v f g)) (g_gone (with_rx i v f g))).
  { intros b' Eb Ee St a y Ha Hy. cbn [with_rx g_rx g_gone]. destruct (nn_dec (a, y) (i, v)) as [N|N]; [|rewrite !upd2_other by auto; apply (iv_vc _ _ _ _ _ _ _ _ _ _ H); auto].
    injection N as -> ->. rewrite !upd2_same. constructor.
    - rewrite (vk_rx _ _ _ _ _ _ _ K), Eb, app_assoc. reflexivity.
    - apply Forall_app. split; [apply (vk_vc _ _ _ _ _ _ _ K)|repeat constructor].
    - exists s1. rewrite parse_snoc, Q, S1, Ee. auto.
    - intros R. apply Forall_app. split; [apply (vk_la _ _ _ _ _ _ _ K); auto|]. constructor; auto.
    - apply (vk_gone _ _ _ _ _ _ _ K).
    - exists gs. auto. }
  assert (O : forall b', v_buf b' = v_buf (r_vc s i v) ++ [f] -> I_occ c (fupd (r_occ s) i (r_occ s i + 1)%Z) (upd2 (r_vc s) i v b')).
  { intros b' Eb. eapply occ_eq; [|apply occ_upd; [apply (iv_occ _ _ _ _ _ _ _ _ _ _ H)|auto|auto]]. intros a. unfold fupd. destruct (Nat.eqb a i); auto. rewrite Eb, app_length. cbn [length]. lia. }
  assert (OT : forall rq va sa b', others s (set_qs rq va sa (set_vc i v b' (set_occ i (r_occ s i + 1)%Z s)))) by (intros; repeat (split; [reflexivity|]); reflexivity).
  assert (FIN : forall rq va sa b', v_buf b' = v_buf (r_vc s i v) ++ [f] -> v_exp b' = e -> stok c xs i b' gs ->
     queues c (upd2 (r_vc s) i v b') (rq ++ pr) (va ++ pv) (sa ++ ps) -> (v_state b' = Active <-> v_state (r_vc s i v) = Active) -> (v_state b' = Active -> v_out b' = v_out (r_vc s i v)) ->
     Inv c P I xs pr pv ps px (set_qs rq va sa (set_vc i v b' (set_occ i (r_occ s i + 1)%Z s))) (with_rx i v f g)).
  { intros rq va sa b' Eb Ee St Qs A1 A2. destruct H as [K1 K2 K3 K4 K5 K6 K7 K8]. constructor; rs; auto. apply own_same; auto. }
  unfold stok in S. destruct (v_state (r_vc s i v)) eqn:V.
  - destruct S as [Eb ->]. rewrite Eb. cbn [app]. pose proof (gparse_fst _ _ G) as GF. cbn [option_map] in GF.
    assert (Hd : f_head f = true).
    { rewrite (vk_rx _ _ _ _ _ _ _ K), Eb, app_nil_r, GF in Q. injection Q as <-. cbn [pstep] in S1. destruct (f_head f); [auto|discriminate]. }
    rewrite Hd. cbn [andb negb]. pose proof (queues_out_none c _ _ _ _ i v IQ (or_introl V)) as QB. destruct (c_rdelay c) eqn:R.
    + eexists. split; [reflexivity|]. split; [|split; [apply OT|reflexivity]]. apply FIN; cbn [v_buf v_exp v_state v_out]; rewrite ?Eb; auto; try (split; congruence); try congruence.
      * unfold stok. cbn. split; [discriminate|auto].
      * apply (queues_place c _ _ _ _ _ _ _ i v {| v_buf := [f]; v_state := Routing; v_route := v_route (r_vc s i v); v_out := v_out (r_vc s i v); v_exp := e |} QB Hi Hv).
    + eexists. split; [reflexivity|]. split; [|split; [apply OT|reflexivity]]. apply FIN; cbn [v_buf v_exp v_state v_out]; rewrite ?Eb; auto; try (split; congruence); try congruence.
      * unfold stok. cbn [v_state v_buf v_route]. split; auto. split; auto. exists f, []. split; auto. unfold offered. rewrite R. auto.
      * apply (queues_place c _ _ _ _ _ _ _ i v {| v_buf := [f]; v_state := VAlloc; v_route := f_la f; v_out := None; v_exp := e |} QB Hi Hv).
  - destruct S as [Eb [-> R]]. exists (set_qs (r_rq s) (r_va s) (r_sa s) (set_vc i v {| v_buf := v_buf (r_vc s i v) ++ [f]; v_state := Routing; v_route := v_route (r_vc s i v); v_out := v_out (r_vc s i v); v_exp := e |} (set_occ i (r_occ s i + 1)%Z s))).
    split; [reflexivity|]. split; [|split; [apply OT|reflexivity]]. apply FIN; cbn [v_buf v_exp v_state v_out]; auto; try (split; congruence).
    + unfold stok. cbn. split; auto. intros X. apply app_eq_nil in X. destruct X; discriminate.
    + apply queues_same; cbn [v_state v_buf]; auto. split; intros X; [apply app_eq_nil in X; destruct X; discriminate|congruence].
  - destruct S as [-> [Gr [f0 [r0 [Eb Of]]]]]. exists (set_qs (r_rq s) (r_va s) (r_sa s) (set_vc i v {| v_buf := v_buf (r_vc s i v) ++ [f]; v_state := VAlloc; v_route := v_route (r_vc s i v); v_out := v_out (r_vc s i v); v_exp := e |} (set_occ i (r_occ s i + 1)%Z s))).
    split; [reflexivity|]. split; [|split; [apply OT|reflexivity]]. apply FIN; cbn [v_buf v_exp v_state v_out]; auto; try (split; congruence).
    + unfold stok. cbn [v_state v_buf v_route]. split; auto. split; auto. exists f0, (r0 ++ [f]). rewrite Eb. auto.
    + apply queues_same; cbn [v_state v_buf]; auto. split; intros X; [apply app_eq_nil in X; destruct X; discriminate|congruence].
  - destruct S as [o [w [Eo [Ho [Hw Sg]]]]].
    set (b' := {| v_buf := v_buf (r_vc s i v) ++ [f]; v_state := Active; v_route := v_route (r_vc s i v); v_out := v_out (r_vc s i v); v_exp := e |}).
    assert (Sb : stok c xs i b' gs).
    { unfold stok, b'. cbn [v_state v_buf v_out]. exists o, w. split; auto. split; auto. split; auto. destruct gs as [[q ow]|]; auto. destruct Sg as [f0 [r0 [Eb Ch]]]. exists f0, (r0 ++ [f]). rewrite Eb. auto. }
    destruct (v_buf (r_vc s i v)) as [|f0 r0] eqn:Eb.
    + exists (set_qs (r_rq s) (r_va s) (r_sa s ++ [(i, v)]) (set_vc i v b' (set_occ i (r_occ s i + 1)%Z s))). split; [reflexivity|].
      split; [|split; [apply OT|reflexivity]]. apply FIN; cbn [v_buf v_exp v_state v_out]; auto; try tauto; try (unfold b'; cbn [v_state v_buf v_out app]; tauto).
      pose proof (queues_out_none c _ _ _ _ i v IQ (or_intror (conj V Eb))) as QB. apply (queues_place c _ _ _ _ _ _ _ i v b' QB Hi Hv).
    + exists (set_qs (r_rq s) (r_va s) (r_sa s) (set_vc i v b' (set_occ i (r_occ s i + 1)%Z s))). split; [reflexivity|].
      split; [|split; [apply OT|reflexivity]]. apply FIN; auto; try (unfold b'; cbn [v_state v_buf v_out app]; tauto).
      apply queues_same; [auto|rewrite V; reflexivity|]. rewrite Eb. unfold b'. cbn [v_buf app]. split; congruence.
Qed.

(** ** Credits *)
Definition with_h (o : nat) (e : Z * bev) (g : gh) : gh :=
  {| g_rx := g_rx g; g_gone := g_gone g; g_L := g_L g; g_h := fupd (g_h g) o (g_h g o ++ [e]); g_tx := g_tx g; g_cr := g_cr g; g_ct := g_ct g |}.
Definition same_but_next (s s' : router P) : Prop :=
  r_vc s' = r_vc s /\ r_rq s' = r_rq s /\ r_va s' = r_va s /\ r_sa s' = r_sa s /\ r_xb s' = r_xb s /\ r_out s' = r_out s /\ r_oc s' = r_oc s /\ r_cb s' = r_cb s /\ r_act s' = r_act s.
Definition same_but_h (g g' : gh) : Prop := g_rx g' = g_rx g /\ g_gone g' = g_gone g /\ g_L g' = g_L g /\ g_tx g' = g_tx g /\ g_cr g' = g_cr g /\ g_ct g' = g_ct g.

Lemma io_h : forall L tx out px xb gone h o e, I_out c L tx out px xb gone h -> (forall w, sent w [e] = 0%Z) -> I_out c L tx out px xb gone (fupd h o (h o ++ [e])).
Proof.
  intros L tx out px xb gone h o e [A B C D E F G] N. constructor; auto. intros a w Ha. unfold fupd. destruct (Nat.eqb_spec a o) as [->|]; [|auto]. rewrite sent_app, N, Z.add_0_r. auto.
Qed.
Lemma own_h : forall f gone L h o e, I_own c f gone L h -> (forall w, busy w (h o ++ [e]) = busy w (h o)) -> I_own c f gone L (fupd h o (h o ++ [e])).
Proof.
  intros f gone L h o e [A [B C]] N. assert (Q : forall a w, busy w (fupd h o (h o ++ [e]) a) = busy w (h a)) by (intros a w; unfold fupd; destruct (Nat.eqb_spec a o) as [->|]; auto). split; [|split; auto].
  - intros i v a w Hw. rewrite Q. auto.
  - intros a w Ha Hw. rewrite Q. auto.
Qed.
Lemma on_vc_len : forall w a b, length (on_vc w (a ++ b)) = length (on_vc w a) + length (on_vc w b).
Proof. intros. rewrite on_vc_app, app_length. reflexivity. Qed.

Lemma proc_credits_ok : forall xs pr pv ps px now q s g, Inv c P I xs pr pv ps px (set_proc q s) g ->
  exists s' g', proc_credits c now q s = Some s' /\ Inv c P I xs pr pv ps px s' g' /\ same_but_next s s' /\ same_but_h g g'.
Proof.
  intros xs pr pv ps px now q. induction q as [|[t [vs o]] q IH]; intros s g H.
  - exists (set_proc [] s), g. split; [reflexivity|]. split; auto. split; repeat (split; [reflexivity|]); reflexivity.
  - cbn [proc_credits]. destruct (now <? t)%Z.
    { exists (set_proc ((t, (vs, o)) :: q) s), g. split; [reflexivity|]. split; auto. split; repeat (split; [reflexivity|]); reflexivity. }
    destruct H as [K1 K2 K3 K4 K5 K6 K7 K8]. rs. destruct K6 as [C1 C2 C3]. inversion C3 as [|? ? [Ho [Nd Fv]] C4]; subst. cbn [fst snd] in *. rewrite (proj2 (Nat.ltb_lt _ _) Ho). cbn [negb].
    assert (Le : legal (c_b c) P (g_h g o) (r_next s o) (now, ECredit vs)).
    { cbn [legal]. split; auto. rewrite Forall_forall in *. intros w Hw. split; [apply Fv; auto|].
      specialize (C1 o w Ho). specialize (C2 o w Ho). cbn [held] in C1. rewrite Nat.eqb_refl in C1.
      rewrite (io_sent _ _ _ _ _ _ _ _ K5 o w Ho), (io_out _ _ _ _ _ _ _ _ K5 o Ho). rewrite on_vc_len. apply (count_occ_In Nat.eq_dec) in Hw. lia. }
    destruct (step_ok (c_b c) P I HP _ _ _ (K4 o Ho) Le) as [b [E St]]. cbn [bs_step] in E. rewrite E.
    destruct (IH (set_next o b s) (with_h o (now, ECredit vs) g)) as [s' [g' [E' [H' [S' G']]]]].
    { constructor; rs; cbn [with_h g_rx g_gone g_L g_h g_tx g_cr g_ct]; auto.
      - apply own_h; auto. intros w. rewrite busy_snoc. reflexivity.
      - intros a Ha. unfold fupd. destruct (Nat.eqb_spec a o) as [->|]; [auto|apply K4; auto].
      - apply io_h; auto.
      - constructor; auto. intros a w Ha. rewrite (C1 a w Ha). cbn [held]. unfold fupd. rewrite (Nat.eqb_sym o a). destruct (Nat.eqb_spec a o) as [->|]; [|lia].
        rewrite credited_app. cbn [credited]. lia. }
    exists s', g'. split; [exact E'|]. split; [exact H'|]. split; auto.
Qed.

(** ** Decisions *)
Fixpoint sep {A} (R : nat * nat -> A -> nat * nat -> A -> Prop) (D : list ((nat * nat) * option A)) : Prop :=
  match D with
  | [] => True
  | (a, Some x) :: r => (forall a' x', In (a', Some x') r -> R a x a' x') /\ sep R r
  | (_, None) :: r => sep R r
  end.
Lemma sep_ok : forall A (R : nat * nat -> A -> nat * nat -> A -> Prop) D, NoDup (map fst D) ->
  (forall a x a' x', In (a, Some x) D -> In (a', Some x') D -> a <> a' -> R a x a' x') -> sep R D.
Proof.
  intros A R D. induction D as [|[a [x|]] D IH]; intros N H; cbn [sep map fst] in *; auto.
  - inversion N as [|? ? N1 N2]; subst. split; [|apply IH; auto; intros; apply H; cbn; auto]. intros a' x' Ha. apply H; [cbn; auto|cbn; auto|]. intros ->. apply N1. apply in_map_iff. exists (a', Some x'). auto.
  - inversion N; subst. apply IH; auto. intros; apply H; cbn; auto.
Qed.

Variable Rm : Z -> bst -> nat -> po_st P -> Prop.
Hypothesis HR : room_ok (c_b c) P I Rm.
Definition DvaOK (s : router P) (pv : list (nat * nat)) (D : list ((nat * nat) * option (nat * nat))) : Prop :=
  map fst D = pv /\ sep (fun _ ow _ ow' => ow' <> ow) D /\
  forall i v o w, In ((i, v), Some (o, w)) D -> o < c_outs c /\ w < c_vcs c /\ available_for (bs_b (r_next s o)) w = true /\ In (o, w) (channels_of (v_route (r_vc s i v))).
Definition DsaOK (now : Z) (s : router P) (ps : list (nat * nat)) (D : list ((nat * nat) * option nat)) : Prop :=
  map fst D = ps /\ sep (fun a o a' o' => fst a' <> fst a /\ o' <> o) D /\
  forall i v o, In ((i, v), Some o) D -> exists w, v_out (r_vc s i v) = Some (o, w) /\ Rm now (bs_b (r_next s o)) w (bs_p (r_next s o)).
Definition free_for (s : router P) (D : list ((nat * nat) * option nat)) : Prop := forall i v o, In ((i, v), Some o) D -> sel o (r_xb s) = [] /\ r_oc s i = [].

Lemma map_opt_ok : forall A B (f : A -> option B) (R : A -> B -> Prop) l, (forall a, In a l -> exists b, f a = Some b /\ R a b) -> exists bs, map_opt f l = Some bs /\ Forall2 R l bs.
Proof.
  intros A B f R l. induction l as [|a l IH]; intros H; [exists []; split; auto|]. destruct (H a (or_introl eq_refl)) as [b [E Rb]]. destruct IH as [bs [E1 F]]; [intros; apply H; right; auto|].
  exists (b :: bs). cbn [map_opt]. rewrite E, E1. split; auto.
Qed.
Lemma once_ok : forall l, NoDup l -> once l = true.
Proof.
  intros l. induction l as [|a l IH]; intros N; auto. inversion N as [|? ? N1 N2]; subst. cbn [once]. rewrite IH by auto. rewrite andb_true_r, negb_true_iff.
  destruct (existsb _ l) eqn:E; auto. apply existsb_exists in E. destruct E as [b [Hb Q]]. apply andb_true_iff in Q. rewrite !Nat.eqb_eq in Q. exfalso. apply N1. destruct a, b. cbn in Q. destruct Q as [-> ->]. auto.
Qed.
Lemma code_inj : forall n i v i' v', v < n -> v' < n -> i * n + v = i' * n + v' -> i = i' /\ v = v'.
Proof. intros n i v i' v' H H' E. assert (i = i') by nia. subst. split; auto. lia. Qed.
Lemma code_lt : forall n m i v, i < m -> v < n -> i * n + v < m * n.
Proof. intros. nia. Qed.
Lemma code_div : forall n i v, v < n -> (i * n + v) / n = i /\ (i * n + v) mod n = v.
Proof.
  intros n i v H. split; [rewrite (Nat.add_comm (i * n)), Nat.div_add, Nat.div_small by lia; lia|rewrite (Nat.add_comm (i * n)), Nat.mod_add, Nat.mod_small by lia; auto].
Qed.
Lemma NoDup_map : forall A B (f : A -> B) l, NoDup l -> (forall a b, In a l -> In b l -> f a = f b -> a = b) -> NoDup (map f l).
Proof.
  intros A B f l N. induction N as [|a l Na N IH]; intros H; cbn [map]; constructor.
  - intros X. apply in_map_iff in X. destruct X as [b [E Hb]]. apply Na. rewrite <- (H b a); auto; [right; auto|left; auto].
  - apply IH. intros; apply H; auto; right; auto.
Qed.

Lemma elem_asks_ok : forall nx iv es, Forall (fun e => (0 <= o_port e < Z.of_nat (c_outs c) /\ 0 <= o_lo e /\ o_lo e <= o_hi e /\ o_hi e < Z.of_nat (c_vcs c))%Z) es ->
  exists q, elem_asks (P := P) c nx iv es = Some q /\
    map fst q = map (fun ow => (iv, fst ow * c_vcs c + snd ow)) (filter (fun ow => available_for (bs_b (nx (fst ow))) (snd ow)) (channels_of es)) /\ Forall (fun a => q_label (snd a) = 0%Z) q.
Proof.
  intros nx iv es. induction es as [|e es IH]; intros F; [exists []; cbn; auto|]. inversion F as [|? ? He F']; subst. destruct (IH F') as [q [E [M L]]]. cbn [elem_asks].
  assert (T : ((0 <=? o_port e) && (o_port e <? Z.of_nat (c_outs c)) && (0 <=? o_lo e) && (o_hi e <? Z.of_nat (c_vcs c)) && (o_lo e <=? o_hi e))%Z = true).
  { rewrite !andb_true_iff, !Z.leb_le, !Z.ltb_lt. lia. }
  rewrite T, E. eexists. split; [reflexivity|]. split.
  - rewrite map_app, map_map. cbn [fst]. cbn [channels_of flat_map]. fold (channels_of es). rewrite filter_app, map_app, <- M. f_equal.
    unfold elem_pairs. generalize (seq (Z.to_nat (o_lo e)) (Z.to_nat (o_hi e - o_lo e) + 1)). intros ws. induction ws as [|w ws IHw]; cbn [filter map fst snd]; auto.
    destruct (available_for (bs_b (nx (Z.to_nat (o_port e)))) w); cbn [map fst snd]; rewrite IHw; reflexivity.
  - apply Forall_app. split; auto. apply Forall_forall. intros a Ha. apply in_map_iff in Ha. destruct Ha as [w [<- _]]. reflexivity.
Qed.
Lemma channels_range : forall es o w, Forall (fun e => (0 <= o_port e < Z.of_nat (c_outs c) /\ 0 <= o_lo e /\ o_lo e <= o_hi e /\ o_hi e < Z.of_nat (c_vcs c))%Z) es ->
  In (o, w) (channels_of es) -> o < c_outs c /\ w < c_vcs c.
Proof.
  intros es o w F H. unfold channels_of in H. apply in_flat_map in H. destruct H as [e [He Hw]]. rewrite Forall_forall in F. specialize (F e He). unfold elem_pairs in Hw.
  apply in_map_iff in Hw. destruct Hw as [y [Q Hy]]. injection Q as <- <-. apply in_seq in Hy. lia.
Qed.

Lemma va_asks_ok : forall xs s g pr pv ps px i v, Inv c P I xs pr pv ps px s g -> In (i, v) (r_va s) ->
  i < c_in c /\ v < c_vcs c /\ exists q, va_asks c s (i, v) = Some q /\ NoDup (map fst q) /\
    forall a, In a q -> fst (fst a) = i * c_vcs c + v /\ q_label (snd a) = 0%Z /\ exists o w, snd (fst a) = o * c_vcs c + w /\ o < c_outs c /\ w < c_vcs c /\
      available_for (bs_b (r_next s o)) w = true /\ In (o, w) (channels_of (v_route (r_vc s i v))).
Proof.
  intros xs s g pr pv ps px i v H Hin. destruct (iv_q _ _ _ _ _ _ _ _ _ _ H) as [_ [[_ Q] _]]. destruct (proj1 (Q i v) (in_or_app _ _ _ (or_introl Hin))) as [Hi [Hv S]]. unfold waits_va in S.
  split; auto. split; auto. pose proof (iv_vc _ _ _ _ _ _ _ _ _ _ H i v Hi Hv) as K. destruct (vk_st _ _ _ _ _ _ _ K) as [gs0 [G0 S0]].
  unfold stok in S0. rewrite S in S0. destruct S0 as [-> [[Gr Nd] [f [r [Eb _]]]]]. destruct (vk_front _ _ _ _ _ _ _ _ _ K Eb) as [gs [s1 [G [_ [Ps _]]]]].
  assert (gs = None) by congruence. subst gs. cbn [option_map pstep] in Ps. destruct (f_head f) eqn:Hd; [|discriminate].
  unfold va_asks. cbn [fst snd]. rewrite (front_some _ _ _ _ _ _ _ _ _ _ VAlloc i v f r H Hi Hv S); [|discriminate|auto]. rewrite Hd.
  destruct (elem_asks_ok (r_next s) (i * c_vcs c + v) (v_route (r_vc s i v)) Gr) as [q [E [M La]]]. exists q. split; auto. split.
  - rewrite M. apply NoDup_map; [apply NoDup_filter; auto|]. intros [o w] [o' w'] A B X. apply filter_In in A, B. destruct A as [A _], B as [B _].
    destruct (channels_range _ _ _ Gr A), (channels_range _ _ _ Gr B). cbn [fst snd] in X. remember (o * c_vcs c + w) as z1. remember (o' * c_vcs c + w') as z2. assert (z1 = z2) by congruence. subst z1 z2. apply code_inj in H4; auto. destruct H4; congruence.
  - intros a Ha. assert (X : In (fst a) (map fst q)) by (apply in_map; auto). rewrite M in X. apply in_map_iff in X. destruct X as [[o w] [X Y]]. apply filter_In in Y. destruct Y as [Y1 Y2]. cbn [fst snd] in *.
    rewrite <- X. cbn [fst snd]. split; auto. split; [rewrite Forall_forall in La; auto|]. exists o, w. destruct (channels_range _ _ _ Gr Y1). auto.
Qed.

Lemma NoDup_app : forall A (a b : list A), NoDup a -> NoDup b -> (forall x, In x a -> ~ In x b) -> NoDup (a ++ b).
Proof.
  intros A a b Na Nb D. induction Na as [|x a Hx Na IH]; cbn [app]; auto. constructor.
  - rewrite in_app_iff. intros [X|X]; [auto|]. apply (D x); [left|]; auto.
  - apply IH. intros y Hy. apply D. right. auto.
Qed.
Lemma NoDup_left : forall A (a b : list A), NoDup (a ++ b) -> NoDup a.
Proof. intros A a b. induction a as [|x a IH]; cbn [app]; intros N; [constructor|]. inversion N as [|? ? N1 N2]; subst. constructor; auto. rewrite in_app_iff in N1. tauto. Qed.
Lemma va_evaluate_ok : forall xs s g pr pv ps px x, Inv c P I xs pr pv ps px s g ->
  (forall l, legal_asks (c_in c * c_vcs c) (c_outs c * c_vcs c) l -> matching l (i_va x l)) ->
  exists D, va_evaluate c x s = Some D /\ DvaOK s (r_va s) D.
Proof.
  intros xs s g pr pv ps px x H Al.
  set (R := fun (iv : nat * nat) (q : list ask) => fst iv < c_in c /\ snd iv < c_vcs c /\ NoDup (map fst q) /\
    forall a, In a q -> fst (fst a) = fst iv * c_vcs c + snd iv /\ q_label (snd a) = 0%Z /\ exists o w, snd (fst a) = o * c_vcs c + w /\ o < c_outs c /\ w < c_vcs c /\
      available_for (bs_b (r_next s o)) w = true /\ In (o, w) (channels_of (v_route (r_vc s (fst iv) (snd iv))))).
  destruct (map_opt_ok _ _ (va_asks c s) R (r_va s)) as [qs [E F]].
  { intros [i v] Hin. destruct (va_asks_ok _ _ _ _ _ _ _ _ _ H Hin) as [Hi [Hv [q [Eq [N A]]]]]. exists q. split; auto. split; [exact Hi|]. split; [exact Hv|]. auto. }
  assert (Nva : NoDup (r_va s)). { destruct (iv_q _ _ _ _ _ _ _ _ _ _ H) as [_ [[N _] _]]. apply NoDup_left in N. auto. }
  assert (SRC : forall vs qq, Forall2 R vs qq -> forall a, In a (concat qq) -> exists iv q, In (iv, q) (combine vs qq) /\ In a q /\ In iv vs /\ R iv q).
  { intros vs qq F0. induction F0 as [|iv q vs0 qq0 Rq F0 IH]; intros a Ha; [destruct Ha|]. cbn [concat] in Ha. apply in_app_iff in Ha. destruct Ha as [Ha|Ha].
    - exists iv, q. cbn. auto.
    - destruct (IH a Ha) as [iv' [q' [A [B [C D]]]]]. exists iv', q'. cbn. auto. }
  assert (Ndc : NoDup (map fst (concat qs))).
  { clear E. induction F as [|iv q vs0 qq0 Rq F0 IH]; cbn [concat map]; [constructor|]. inversion Nva as [|? ? N1 N2]; subst. rewrite map_app. apply NoDup_app; [apply Rq|apply IH; auto|].
    intros b Hb Hb'. apply in_map_iff in Hb, Hb'. destruct Hb as [a [Ea Ha]], Hb' as [a' [Ea' Ha']]. destruct (SRC _ _ F0 a' Ha') as [iv' [q' [_ [B [C D]]]]].
    destruct Rq as [R1 [R2 [_ R3]]]. destruct D as [D1 [D2 [_ D3]]]. destruct (R3 a Ha) as [X _], (D3 a' B) as [Y _].
    assert (Z1 : fst iv * c_vcs c + snd iv = fst iv' * c_vcs c + snd iv') by congruence. apply code_inj in Z1; auto. apply N1. destruct iv, iv'. cbn [fst snd] in Z1. destruct Z1 as [-> ->]. auto. }
  assert (Lg : legal_asks (c_in c * c_vcs c) (c_outs c * c_vcs c) (concat qs)).
  { split; auto. apply Forall_forall. intros a Ha. destruct (SRC _ _ F a Ha) as [[i v] [q [_ [B [_ [D1 [D2 [_ D3]]]]]]]]. destruct (D3 a B) as [X [Y [o [w [Z1 [Ho [Hw _]]]]]]]. cbn [fst snd] in *.
    rewrite X, Y, Z1. split; [apply code_lt; auto|]. split; [apply code_lt; auto|lia]. }
  destruct (Al _ Lg) as [M1 M2]. unfold va_evaluate. rewrite E, (once_ok _ Ndc). remember (concat qs) as l. remember (i_va x l) as m.
  set (R2 := fun (xq : (nat * nat) * list ask) (d : (nat * nat) * option (nat * nat)) => fst d = fst xq /\ forall o w, snd d = Some (o, w) ->
     m_in m (fst (fst xq) * c_vcs c + snd (fst xq)) = Some (o * c_vcs c + w) /\ o < c_outs c /\ w < c_vcs c /\ available_for (bs_b (r_next s o)) w = true /\ In (o, w) (channels_of (v_route (r_vc s (fst (fst xq)) (snd (fst xq)))))).
  destruct (map_opt_ok _ _ (va_read c m) R2 (combine (r_va s) qs)) as [D [ED FD]].
  { intros [[i v] q] Hin. pose proof (in_combine_l _ _ _ _ Hin) as Hva. unfold va_read. destruct q as [|a0 q0]; [eexists; split; [reflexivity|]; split; [reflexivity|]; cbn [snd]; discriminate|].
    destruct (m_in m (i * c_vcs c + v)) as [ow|] eqn:Em; [|eexists; split; [reflexivity|]; split; [reflexivity|]; cbn [snd]; discriminate].
    destruct (M2 _ _ Em) as [q' Hq]. rewrite Heql in Hq. destruct (SRC _ _ F _ Hq) as [[i' v'] [q1 [_ [B [_ [D1 [D2 [_ D3]]]]]]]]. destruct (D3 _ B) as [X [_ [o [w [Z1 [Ho [Hw [Av Ch]]]]]]]]. cbn [fst snd] in *.
    destruct (va_asks_ok _ _ _ _ _ _ _ _ _ H Hva) as [Hi [Hv _]]. apply code_inj in X; auto. destruct X as [<- <-]. subst ow. destruct (code_div (c_vcs c) o w Hw) as [Q1 Q2]. rewrite Q1, Q2, (proj2 (Nat.ltb_lt _ _) Ho).
    eexists. split; [reflexivity|]. split; [reflexivity|]. cbn [fst snd]. intros o1 w1 Q. injection Q as <- <-. auto. }
  exists D. split; auto.
  assert (MF : map fst D = r_va s).
  { assert (X : map fst D = map fst (combine (r_va s) qs)). { clear ED. induction FD as [|? ? ? ? [X _] FD IH]; cbn [map]; [reflexivity|]. rewrite IH, X. reflexivity. }
    rewrite X. clear -F. induction F; cbn; auto. f_equal. auto. }
  assert (GR : forall i v o w, In ((i, v), Some (o, w)) D -> v < c_vcs c /\ m_in m (i * c_vcs c + v) = Some (o * c_vcs c + w) /\ o < c_outs c /\ w < c_vcs c /\ available_for (bs_b (r_next s o)) w = true /\ In (o, w) (channels_of (v_route (r_vc s i v)))).
  { intros i v o w Hin. assert (Hva : In (i, v) (r_va s)) by (rewrite <- MF; apply in_map_iff; exists ((i, v), Some (o, w)); auto).
    destruct (va_asks_ok _ _ _ _ _ _ _ _ _ H Hva) as [Hi [Hv _]]. split; auto. clear ED MF. induction FD as [|xq d ? ? [X Y] FD IH]; [destruct Hin|]. destruct Hin as [->|Hin]; [|auto]. cbn [fst snd] in *. specialize (Y o w eq_refl). rewrite <- X in Y. exact Y. }
  split; [auto|]. split.
  - apply sep_ok; [rewrite MF; auto|]. intros [i v] [o w] [i' v'] [o' w'] A B N X. injection X as -> ->. destruct (GR _ _ _ _ A) as [V1 [A1 _]], (GR _ _ _ _ B) as [V2 [B1 _]]. apply M1 in A1, B1. rewrite A1 in B1.
    remember (i * c_vcs c + v) as z1. remember (i' * c_vcs c + v') as z2. assert (Z1 : z1 = z2) by congruence. subst z1 z2. apply code_inj in Z1; auto. apply N. destruct Z1; congruence.
  - intros i v o w Hin. destruct (GR _ _ _ _ Hin) as [_ [_ X]]. exact X.
Qed.

Lemma read_some : forall l i o q, read_req l i o = Some q -> In (i, o, q) l.
Proof.
  intros l i o q H. unfold read_req in H. match type of H with context [find ?p ?z] => destruct (find p z) as [a|] eqn:E end; [|discriminate]. apply find_some in E. destruct E as [A B]. apply andb_true_iff in B. rewrite !Nat.eqb_eq in B.
  destruct a as [[i' o'] q']. cbn [fst snd] in *. destruct B as [-> ->]. injection H as ->. auto.
Qed.
Lemma read_none : forall l i o q, read_req l i o = None -> ~ In (i, o, q) l.
Proof.
  intros l i o q H X. unfold read_req in H. match type of H with context [find ?p ?z] => destruct (find p z) as [a|] eqn:E end; [discriminate|]. pose proof (find_none _ _ E _ X) as Y. cbn [fst snd] in Y. rewrite !Nat.eqb_refl in Y. discriminate.
Qed.
Definition asksOK (now : Z) (s : router P) (l : list ask) : Prop :=
  NoDup (map fst l) /\ forall i o q, In (i, o, q) l -> exists v w, q_label q = Z.of_nat v /\ In (i, v) (r_sa s) /\ v_out (r_vc s i v) = Some (o, w) /\ o < c_outs c /\ i < c_in c /\
    po_full P now (bs_b (r_next s o)) w (bs_p (r_next s o)) = Some false.
Lemma sa_asks_ok : forall xs s g pr pv ps px now, Inv c P I xs pr pv ps px s g -> forall q a, (forall iv, In iv q -> In iv (r_sa s)) -> asksOK now s (fst a) ->
  exists a', fold_opt (sa_ask c now s) q a = Some a' /\ asksOK now s (fst a').
Proof.
  intros xs s g pr pv ps px now H q. induction q as [|[i v] q IH]; intros a Hq A; [exists a; auto|]. cbn [fold_opt].
  assert (Hin : In (i, v) (r_sa s)) by (apply Hq; left; auto).
  destruct (iv_q _ _ _ _ _ _ _ _ _ _ H) as [_ [_ [_ Q]]]. destruct (proj1 (Q i v) (in_or_app _ _ _ (or_introl Hin))) as [Hi [Hv [S Nb]]].
  pose proof (iv_vc _ _ _ _ _ _ _ _ _ _ H i v Hi Hv) as K. destruct (vk_st _ _ _ _ _ _ _ K) as [gs0 [G0 S0]]. unfold stok in S0. rewrite S in S0. destruct S0 as [o [w [Eo [Ho [Hw _]]]]].
  destruct (v_buf (r_vc s i v)) as [|f r] eqn:Eb; [congruence|]. unfold sa_ask at 1. rewrite (front_some _ _ _ _ _ _ _ _ _ _ Active i v f r H Hi Hv S); [|discriminate|auto].
  rewrite Eo, (proj2 (Nat.ltb_lt _ _) Ho), (proj2 (Nat.ltb_lt _ _) Hw). cbn [andb].
  destruct (pk_full _ _ _ HP now (bs_b (r_next s o)) (bs_p (r_next s o)) w (so_base _ _ _ _ _ (iv_next _ _ _ _ _ _ _ _ _ _ H o Ho)) (so_pol _ _ _ _ _ (iv_next _ _ _ _ _ _ _ _ _ _ H o Ho)) Hw) as [fl Ef].
  rewrite Ef. destruct (fl || _) eqn:Fl; [apply IH; [intros; apply Hq; right; auto|exact A]|]. apply orb_false_iff in Fl. destruct Fl as [-> _].
  apply IH; [intros; apply Hq; right; auto|]. cbn [fst]. destruct A as [A1 A2]. unfold sa_add.
  assert (NEW : exists v0 w0, q_label {| q_label := Z.of_nat v; q_ipri := 0; q_opri := 0 |} = Z.of_nat v0 /\ In (i, v0) (r_sa s) /\ v_out (r_vc s i v0) = Some (o, w0) /\ o < c_outs c /\ i < c_in c /\
    po_full P now (bs_b (r_next s o)) w0 (bs_p (r_next s o)) = Some false) by (exists v, w; auto 10).
  assert (SN : forall (l : list ask) (z : ask), NoDup (map fst l) -> ~ In (fst z) (map fst l) -> NoDup (map fst (l ++ [z]))).
  { intros l z Hl Hz. rewrite map_app. apply NoDup_app; auto; [repeat constructor; auto|]. intros y Hy [<-|[]]. auto. }
  destruct (read_req (fst a) i o) as [q0|] eqn:Er.
  - destruct (supersedes _ _ _ _ _ _); [|split; auto]. split.
    + apply SN.
      * clear -A1. induction (fst a) as [|b l IHl]; cbn [filter map] in *; [constructor|]. inversion A1 as [|? ? B1 B2]; subst. destruct (negb _); cbn [map]; auto. constructor; auto.
        intros X. apply B1. apply in_map_iff in X. destruct X as [y [E Y]]. apply filter_In in Y. apply in_map_iff. exists y. tauto.
      * intros X. apply in_map_iff in X. destruct X as [y [E Y]]. apply filter_In in Y. destruct Y as [_ Y]. rewrite E in Y. cbn [fst snd] in Y. rewrite !Nat.eqb_refl in Y. discriminate.
    + intros i' o' q' X. apply in_app_iff in X. destruct X as [X|[X|[]]]; [apply A2; apply filter_In in X; tauto|]. injection X as <- <- <-. exact NEW.
  - split.
    + apply SN; auto. intros X. apply in_map_iff in X. destruct X as [[io y] [E Y]]. cbn [fst] in E. subst io. apply (read_none _ _ _ y Er). auto.
    + intros i' o' q' X. apply in_app_iff in X. destruct X as [X|[X|[]]]; [auto|]. injection X as <- <- <-. exact NEW.
Qed.
Definition sa_dec (l : list ask) (m : match_) (stalled : list (nat * nat)) (iv : nat * nat) : option nat :=
  if existsb (fun b => Nat.eqb (fst iv) (fst b) && Nat.eqb (snd iv) (snd b)) stalled then None
  else match m_in m (fst iv) with
       | None => None
       | Some o => match read_req l (fst iv) o with Some q => if (q_label q =? Z.of_nat (snd iv))%Z then Some o else None | None => None end
       end.
Lemma sa_reads : forall l m st q a, snd (fold_left (fun a iv => sa_read c l m st iv a) q a) = snd a ++ map (fun iv => (iv, sa_dec l m st iv)) q.
Proof.
  intros l m st q. induction q as [|[i v] q IH]; intros a; cbn [fold_left map]; [rewrite app_nil_r; auto|]. rewrite IH.
  assert (X : snd (sa_read c l m st (i, v) a) = snd a ++ [((i, v), sa_dec l m st (i, v))]).
  { unfold sa_read, sa_dec. cbn [fst snd]. destruct (existsb _ st); auto. destruct (m_in m i) as [o|]; auto. destruct (read_req l i o) as [q0|]; auto. destruct (q_label q0 =? Z.of_nat v)%Z; auto. }
  rewrite X, <- app_assoc. reflexivity.
Qed.
Lemma sa_evaluate_ok : forall xs s g pr pv ps px x, Inv c P I xs pr pv ps px s g ->
  (forall l, legal_asks (c_in c) (c_outs c) l -> matching l (i_sa x l)) ->
  exists rr D, sa_evaluate c x s = Some (rr, D) /\ DsaOK (i_now x) s (r_sa s) D.
Proof.
  intros xs s g pr pv ps px x H Al. destruct (sa_asks_ok _ _ _ _ _ _ _ (i_now x) H (r_sa s) ([], [])) as [[l st] [E [A1 A2]]]; [auto|split; [constructor|intros ? ? ? []]|]. cbn [fst] in A1, A2.
  assert (Lg : legal_asks (c_in c) (c_outs c) l).
  { split; auto. apply Forall_forall. intros [[i o] q] Ha. destruct (A2 i o q Ha) as [v [w [B1 [_ [_ [B2 [B3 _]]]]]]]. cbn [fst snd]. rewrite B1. split; auto. split; auto. lia. }
  destruct (Al _ Lg) as [M1 M2]. unfold sa_evaluate. rewrite E. remember (i_sa x l) as m. pose proof (sa_reads l m st (r_sa s) (r_rr s, [])) as SR. cbn [snd app] in SR.
  destruct (fold_left _ (r_sa s) (r_rr s, [])) as [rr D]. cbn [snd] in SR. exists rr, D. split; auto.
  assert (MF : map fst D = r_sa s) by (rewrite SR, map_map; cbn [fst]; apply map_id).
  assert (Nsa : NoDup (r_sa s)). { destruct (iv_q _ _ _ _ _ _ _ _ _ _ H) as [_ [_ [N _]]]. apply NoDup_left in N. auto. }
  assert (GR : forall i v o, In ((i, v), Some o) D -> m_in m i = Some o /\ exists q, read_req l i o = Some q /\ q_label q = Z.of_nat v).
  { intros i v o Hin. rewrite SR in Hin. apply in_map_iff in Hin. destruct Hin as [iv [Q _]]. remember (sa_dec l m st iv) as d. assert (iv = (i, v)) by congruence. assert (Hd : d = Some o) by congruence. subst iv d. unfold sa_dec in Hd. cbn [fst snd] in Hd.
    destruct (existsb _ st); [discriminate|]. destruct (m_in m i) as [o0|]; [|discriminate]. destruct (read_req l i o0) as [q|] eqn:Er; [|discriminate]. destruct (q_label q =? Z.of_nat v)%Z eqn:Eq; [|discriminate]. injection Hd as ->.
    split; auto. exists q. split; auto. apply Z.eqb_eq. auto. }
  split; auto. split.
  - apply sep_ok; [rewrite MF; auto|]. intros [i v] o [i' v'] o' A B N. destruct (GR _ _ _ A) as [X1 [q1 [X2 X3]]], (GR _ _ _ B) as [Y1 [q2 [Y2 Y3]]]. cbn [fst]. split.
    + intros ->. rewrite X1 in Y1. injection Y1 as <-. rewrite X2 in Y2. injection Y2 as <-. apply N. f_equal. lia.
    + intros ->. apply M1 in X1, Y1. rewrite X1 in Y1. injection Y1 as <-. rewrite X2 in Y2. injection Y2 as <-. apply N. f_equal. lia.
  - intros i v o Hin. destruct (GR _ _ _ Hin) as [_ [q [X2 X3]]]. apply read_some in X2. destruct (A2 _ _ _ X2) as [v0 [w [B1 [_ [B2 [_ [_ B3]]]]]]]. exists w. assert (v0 = v) by lia. subst v0. split; auto. apply (rm_full _ _ _ _ HR). auto.
Qed.

(** ** Routing *)
Definition keeps (s s' : router P) : Prop := r_out s' = r_out s /\ r_proc s' = r_proc s /\ r_cb s' = r_cb s.
Lemma route_update_ok : forall xs i v pr pv ps px s g x, Inv c P I xs ((i, v) :: pr) pv ps px s g -> In x xs -> (c_rdelay c = true -> forall j v f, j < c_in c -> v < c_vcs c -> In f (g_rx g j v) -> f_head f = true -> good_route c (i_rf x j f)) ->
  exists b', route_update c x (i, v) s = Some (set_qs (r_rq s) (r_va s ++ [(i, v)]) (r_sa s) (set_vc i v b' s)) /\
    Inv c P I xs pr pv ps px (set_qs (r_rq s) (r_va s ++ [(i, v)]) (r_sa s) (set_vc i v b' s)) g /\ v_state (r_vc s i v) = Routing.
Proof.
  intros xs i v pr pv ps px s g x H Hx Rf. pose proof (iv_q _ _ _ _ _ _ _ _ _ _ H) as IQ. destruct IQ as [[_ Q] _]. destruct (proj1 (Q i v)) as [Hi [Hv S]]; [apply in_app_iff; right; left; auto|]. unfold waits_rt in S.
  pose proof (iv_vc _ _ _ _ _ _ _ _ _ _ H i v Hi Hv) as K. destruct (vk_st _ _ _ _ _ _ _ K) as [gs0 [G0 S0]]. unfold stok in S0. rewrite S in S0. destruct S0 as [Nb [-> R]].
  destruct (v_buf (r_vc s i v)) as [|f r] eqn:Eb; [congruence|]. destruct (vk_front _ _ _ _ _ _ _ _ _ K Eb) as [gs [s1 [G [_ [Ps _]]]]]. assert (gs = None) by congruence. subst gs. cbn [option_map pstep] in Ps. destruct (f_head f) eqn:Hd; [|discriminate].
  unfold route_update. rewrite R. cbn [negb]. rewrite (front_some _ _ _ _ _ _ _ _ _ _ Routing i v f r H Hi Hv S); [|discriminate|auto]. rewrite Hd.
  eexists. split; [reflexivity|]. split; [|auto]. set (b' := {| v_buf := v_buf (r_vc s i v); v_state := VAlloc; v_route := i_rf x i f; v_out := None; v_exp := v_exp (r_vc s i v) |}).
  pose proof (queues_out_rt c _ _ _ _ _ _ _ (iv_q _ _ _ _ _ _ _ _ _ _ H)) as QB. pose proof (queues_place c _ _ _ _ _ _ _ i v b' QB Hi Hv) as QP.
  destruct H as [K1 K2 K3 K4 K5 K6 K7 K8]. constructor; rs; auto.
  - apply I_vc_upd; auto. intros _ _. destruct K as [V1 V2 V3 V4 V5 V6]. constructor; auto. exists None. split; auto. unfold stok, b'. cbn [v_state v_buf v_route]. split; auto. split; [apply (Rf R i v f Hi Hv); auto; rewrite V1, Eb; apply in_app_iff; right; left; auto|]. exists f, r. split; auto. unfold offered. rewrite R. exists x. auto.
  - apply own_same; auto; cbn [v_state]; rewrite ?S; [split; discriminate|discriminate].
  - apply occ_same; auto.
Qed.
Lemma not_listed : forall xs pr pv ps px s g i v a, Inv c P I xs pr pv ps px s g -> In a pv -> v_state (r_vc s i v) <> VAlloc -> a <> (i, v).
Proof. intros xs pr pv ps px s g i v a H Ha N ->. destruct (iv_q _ _ _ _ _ _ _ _ _ _ H) as [_ [[_ Q] _]]. destruct (proj1 (Q i v)) as [_ [_ S]]; [apply in_app_iff; auto|]. auto. Qed.
Lemma not_listed_sa : forall xs pr pv ps px s g i v a, Inv c P I xs pr pv ps px s g -> In a ps -> v_state (r_vc s i v) <> Active -> a <> (i, v).
Proof. intros xs pr pv ps px s g i v a H Ha N ->. destruct (iv_q _ _ _ _ _ _ _ _ _ _ H) as [_ [_ [_ Q]]]. destruct (proj1 (Q i v)) as [_ [_ [S _]]]; [apply in_app_iff; auto|]. auto. Qed.
Lemma route_updates_ok : forall xs pv ps px g x Dv Ds pr s, Inv c P I xs pr pv ps px s g -> In x xs -> (c_rdelay c = true -> forall j v f, j < c_in c -> v < c_vcs c -> In f (g_rx g j v) -> f_head f = true -> good_route c (i_rf x j f)) ->
  DvaOK s pv Dv -> DsaOK (i_now x) s ps Ds ->
  exists s', fold_opt (route_update c x) pr s = Some s' /\ Inv c P I xs [] pv ps px s' g /\ DvaOK s' pv Dv /\ DsaOK (i_now x) s' ps Ds /\ keeps s s' /\ r_xb s' = r_xb s /\ r_oc s' = r_oc s /\ r_rq s' = r_rq s.
Proof.
  intros xs pv ps px g x Dv Ds pr. induction pr as [|[i v] pr IH]; intros s H Hx Rf Hv Hs.
  - exists s. split; [reflexivity|]. split; auto. split; auto. split; auto. split; [repeat split|]. auto.
  - destruct (route_update_ok _ _ _ _ _ _ _ _ _ x H Hx Rf) as [b' [E [H' S]]]. cbn [fold_opt]. rewrite E.
    destruct (IH _ H' Hx Rf) as [s' [E' [A [B [C [D F]]]]]].
    + destruct Hv as [D1 [D2 D3]]. split; auto. split; auto. intros a y o w Hin. rs. rewrite upd2_other; [eauto|].
      eapply not_listed; [exact H|rewrite <- D1; apply in_map_iff; exists ((a, y), Some (o, w)); auto|congruence].
    + destruct Hs as [D1 [D2 D3]]. split; auto. split; auto. intros a y o Hin. rs. rewrite upd2_other; [eauto|].
      eapply not_listed_sa; [exact H|rewrite <- D1; apply in_map_iff; exists ((a, y), Some o); auto|congruence].
    + exists s'. split; [exact E'|]. split; auto.
Qed.

(** ** Channels are given out *)
Lemma take_inv : forall w tag s s', bs_take (c_b c) P w tag s = Some s' -> bs_b s' = take_b w tag (bs_b s) /\ po_take P w (bs_p s) = Some (bs_p s').
Proof. intros w tag s s' H. unfold bs_take in H. destruct (negb _); [discriminate|]. destruct (0 <=? _)%Z; [discriminate|]. destruct (po_take P w (bs_p s)) as [p|]; [|discriminate]. injection H as <-. auto. Qed.
Lemma own_take : forall xs f rx gone L h i v o w b t tag, I_vc c xs f rx gone -> I_own c f gone L h -> i < c_in c -> v < c_vcs c -> o < c_outs c -> w < c_vcs c -> v_state (f i v) <> Active -> gparse (gone i v) = Some None ->
  v_state b = Active -> v_out b = Some (o, w) -> busy w (h o) = false -> I_own c (upd2 f i v b) gone L (fupd h o (h o ++ [(t, ETake w tag)])).
Proof.
  intros xs f rx gone L h i v o w b t tag HV [A [B C]] Hi Hv Ho Hw Sf G Sb Eo Nb.
  assert (NO : forall a y, ~ owns c f a y o w) by (intros a y X; destruct (A _ _ _ _ X); congruence).
  assert (Ow : owns c (upd2 f i v b) i v o w) by (unfold owns; rewrite upd2_same; auto).
  assert (CASE : forall a y o' w', owns c (upd2 f i v b) a y o' w' -> ((a, y) = (i, v) /\ (o', w') = (o, w)) \/ ((a, y) <> (i, v) /\ owns c f a y o' w' /\ (o', w') <> (o, w))).
  { intros a y o' w' X. destruct (nn_dec (a, y) (i, v)) as [E|E].
    - left. split; auto. injection E as -> ->. destruct X as [_ [_ [_ X]]]. rewrite upd2_same in X. congruence.
    - right. split; auto. rewrite owns_upd_other in X by auto. split; auto. intros Q. injection Q as -> ->. apply (NO _ _ X). }
  split; [|split].
  - intros a y o' w' X. apply CASE in X. destruct X as [[E1 E2]|[E1 [X E2]]].
    + injection E1 as -> ->. injection E2 as -> ->. rewrite fupd_same, busy_snoc. cbn [busy_step]. rewrite Nat.eqb_refl. split; auto. exists None. split; auto.
      destruct (C o w Ho Hw) as [[a [y X]]|X]; [exfalso; apply (NO _ _ X)|exact (proj1 X)].
    + destruct (A _ _ _ _ X) as [X1 X2]. split; auto. unfold fupd. destruct (Nat.eqb_spec o' o) as [->|]; auto. rewrite busy_snoc. cbn [busy_step]. destruct (Nat.eqb_spec w w') as [->|]; [congruence|auto].
  - intros a y a' y' o' w' X Y. apply CASE in X, Y. destruct X as [[E1 E2]|[E1 [X E2]]], Y as [[E3 E4]|[E3 [Y E4]]]; try congruence. eapply B; eauto.
  - intros o' w' Ho' Hw'. destruct (nn_dec (o', w') (o, w)) as [E|E]; [injection E as -> ->; left; eauto|]. destruct (C o' w' Ho' Hw') as [[a [y X]]|[X Y]].
    + left. exists a, y. apply owns_upd_other; auto. intros Q. injection Q as -> ->. destruct X as [_ [_ [X _]]]. congruence.
    + right. split; auto. unfold fupd. destruct (Nat.eqb_spec o' o) as [->|]; auto. rewrite busy_snoc. cbn [busy_step]. destruct (Nat.eqb_spec w w') as [->|]; [congruence|auto].
Qed.
Lemma va_updates_ok : forall xs ps px now Ds Dv pv s g, Inv c P I xs [] pv ps px s g -> DvaOK s pv Dv -> DsaOK now s ps Ds ->
  exists s' g', fold_opt (va_update c) Dv s = Some s' /\ Inv c P I xs [] [] ps px s' g' /\ DsaOK now s' ps Ds /\ keeps s s' /\ r_xb s' = r_xb s /\ r_oc s' = r_oc s /\ r_rq s' = r_rq s /\ same_but_h g g'.
Proof.
  intros xs ps px now Ds Dv. induction Dv as [|[[i v] gr] Dv IH]; intros pv s g H Hd Hs.
  - destruct Hd as [D1 _]. cbn [map] in D1. subst pv. exists s, g. split; [reflexivity|]. split; auto. split; auto. split; [repeat split|]. split; auto. split; auto. split; auto. repeat (split; [reflexivity|]). reflexivity.
  - destruct Hd as [D1 [D2 D3]]. cbn [map fst] in D1. subst pv. pose proof (iv_q _ _ _ _ _ _ _ _ _ _ H) as IQ. destruct IQ as [_ [[Nq Q] _]]. destruct (proj1 (Q i v)) as [Hi [Hv S]]; [apply in_app_iff; right; left; auto|]. unfold waits_va in S.
    pose proof (iv_vc _ _ _ _ _ _ _ _ _ _ H i v Hi Hv) as K. destruct (vk_st _ _ _ _ _ _ _ K) as [gs0 [G0 S0]]. unfold stok in S0. rewrite S in S0. destruct S0 as [-> [Gr [f [r [Eb Of]]]]].
    destruct (vk_front _ _ _ _ _ _ _ _ _ K Eb) as [gs [s1 [G [_ [Ps _]]]]]. assert (gs = None) by congruence. subst gs. cbn [option_map pstep] in Ps. destruct (f_head f) eqn:Hd; [|discriminate].
    cbn [fold_opt]. unfold va_update at 1. rewrite (front_some _ _ _ _ _ _ _ _ _ _ VAlloc i v f r H Hi Hv S); [|discriminate|auto]. rewrite Hd.
    destruct gr as [[o w]|].
    + destruct (D3 i v o w (or_introl eq_refl)) as [Ho [Hw [Av Ch]]]. rewrite (proj2 (Nat.ltb_lt _ _) Ho), (proj2 (Nat.ltb_lt _ _) Hw), Av. cbn [andb].
      destruct (step_ok (c_b c) P I HP (g_h g o) (0%Z, ETake w (Z.of_nat (i * c_vcs c + v))) (r_next s o) (iv_next _ _ _ _ _ _ _ _ _ _ H o Ho)) as [b1 [E1 St]]; [cbn [legal]; split; auto; split; [lia|auto]|].
      cbn [bs_step] in E1. rewrite E1. destruct (take_inv _ _ _ _ E1) as [T1 T2].
      assert (Nb : busy w (g_h g o) = false). { destruct (st_tracks _ _ _ HP _ _ (iv_next _ _ _ _ _ _ _ _ _ _ H o Ho)) as [_ X]. destruct (X w Hw) as [_ [_ [Y _]]]. apply Y. auto. }
      set (b' := {| v_buf := v_buf (r_vc s i v); v_state := Active; v_route := v_route (r_vc s i v); v_out := Some (o, w); v_exp := v_exp (r_vc s i v) |}).
      pose proof (queues_out_va c _ _ _ _ _ _ _ (iv_q _ _ _ _ _ _ _ _ _ _ H)) as QB. pose proof (queues_place c _ _ _ _ _ _ _ i v b' QB Hi Hv) as QP.
      cbn [sep] in D2. destruct D2 as [D2a D2b].
      destruct (IH (map fst Dv) (set_qs (r_rq s) (r_va s) (r_sa s ++ [(i, v)]) (set_vc i v b' (set_next o b1 s))) (with_h o (0%Z, ETake w (Z.of_nat (i * c_vcs c + v))) g)) as [s' [g' [E' [A1 [A2 [A3 A4]]]]]].
      * pose proof H as [K1 K2 K3 K4 K5 K6 K7 K8]. constructor; rs; cbn [with_h g_rx g_gone g_L g_h g_tx g_cr g_ct]; auto.
        -- apply I_vc_upd; auto. intros _ _. destruct K as [V1 V2 V3 V4 V5 V6]. constructor; auto. exists None. split; auto. unfold stok, b'. cbn [v_state v_buf v_out]. exists o, w. split; auto. split; auto. split; auto.
           exists f, r. split; auto. eapply offered_chosen; eauto.
        -- unfold at_rt, at_va, at_sa in QP. cbn [b' v_state v_buf] in QP. rewrite Eb in QP. exact QP.
        -- eapply own_take; eauto. congruence.
        -- intros a Ha. unfold fupd. destruct (Nat.eqb_spec a o) as [->|]; [auto|apply K4; auto].
        -- apply io_h; auto.
        -- destruct K6 as [C1 C2 C3]. constructor; auto. intros a y Ha. rewrite (C1 a y Ha). unfold fupd. destruct (Nat.eqb_spec a o) as [->|]; auto. rewrite credited_app. cbn [credited]. lia.
        -- apply occ_same; auto.
      * split; auto. split; auto. intros a y o' w' Hin. destruct (D3 a y o' w' (or_intror Hin)) as [X1 [X2 [X3 X4]]]. split; auto. split; auto. rs. split.
        -- unfold fupd. destruct (Nat.eqb_spec o' o) as [->|]; auto. rewrite T1. unfold available_for in *. cbn [take_b b_use]. rewrite fupd_other; auto. intros ->. apply (D2a _ _ Hin). auto.
        -- rewrite upd2_other; auto. intros X. injection X as -> ->. apply NoDup_remove_2 in Nq. apply Nq. apply in_app_iff. right. apply in_map_iff. exists ((i, v), Some (o', w')). auto.
      * destruct Hs as [E1' [E2 E3]]. split; auto. split; auto. intros a y o' Hin. assert (Hp : In (a, y) ps) by (rewrite <- E1'; apply in_map_iff; exists ((a, y), Some o'); auto).
        assert (NE : (a, y) <> (i, v)) by (eapply not_listed_sa; [exact H|exact Hp|congruence]). rs. rewrite upd2_other by auto. destruct (E3 a y o' Hin) as [w' [X1 X2]]. exists w'. split; auto.
        unfold fupd. destruct (Nat.eqb_spec o' o) as [->|]; auto. rewrite T1. apply (rm_take _ _ _ _ HR now (bs_b (r_next s o)) (bs_p (r_next s o)) w w' _ (bs_p b1)); auto.
        intros ->. destruct (iv_q _ _ _ _ _ _ _ _ _ _ H) as [_ [_ [_ Qs]]]. destruct (proj1 (Qs a y)) as [Ha [Hy [Sa _]]]; [apply in_app_iff; auto|].
        destruct (iv_own _ _ _ _ _ _ _ _ _ _ H) as [Ao _]. destruct (Ao a y o w') as [Z1 _]; [split; auto|]. congruence.
      * exists s', g'. split; [exact E'|]. split; auto.
    + destruct (IH (map fst Dv) (set_qs (r_rq s) (r_va s ++ [(i, v)]) (r_sa s) s) g) as [s' [g' [E' [A1 [A2 [A3 A4]]]]]].
      * pose proof H as [K1 K2 K3 K4 K5 K6 K7 K8]. constructor; rs; auto. rewrite <- app_assoc. auto.
      * split; auto. split; auto. intros a y o w Hin. apply (D3 a y o w (or_intror Hin)).
      * exact Hs.
      * exists s', g'. split; [exact E'|]. split; auto.
Qed.

(** ** Flits leave *)
Lemma forward_same : forall x o w f, f_id (forward c x o w f) = f_id f /\ f_pid (forward c x o w f) = f_pid f /\ f_head (forward c x o w f) = f_head f /\ f_tail (forward c x o w f) = f_tail f /\ f_vc (forward c x o w f) = w.
Proof. intros. unfold forward. destruct (negb (c_rdelay c) && f_head f); cbn; auto. Qed.

Lemma after_ok : forall xs x i v b rx gone f rest o w, In x xs -> vcok c xs i v b rx gone -> v_buf b = f :: rest -> v_state b = Active -> v_out b = Some (o, w) ->
  exists b' gs gs', (forall s : router P, r_vc s i v = b -> after_send c i v f rest s = Some (set_qs (at_rt (i, v) b' (r_rq s)) (at_va (i, v) b' (r_va s)) (at_sa (i, v) b' (r_sa s)) (set_vc i v b' s))) /\
    vcok c xs i v b' rx (gone ++ [(f, (o, forward c x o w f))]) /\ v_buf b' = rest /\ gparse gone = Some gs /\ gparse (gone ++ [(f, (o, forward c x o w f))]) = Some gs' /\
    pstep (Some (option_map fst gs)) f = Some (option_map fst gs') /\ (if f_tail f then v_state b' <> Active else v_state b' = Active /\ v_out b' = Some (o, w)).
Proof.
  intros xs x i v b rx gone f rest o w Hx K Eb S Eo. destruct (vk_front _ _ _ _ _ _ _ _ _ K Eb) as [gs [s1 [G [St [Ps Pr]]]]].
  unfold stok in St. rewrite S in St. destruct St as [o' [w' [Eo' [Ho [Hw Sg]]]]]. assert (o' = o /\ w' = w) by (split; congruence). destruct H as [-> ->]. clear Eo'.
  set (t := (f, (o, forward c x o w f))). destruct (forward_same x o w f) as [F1 [F2 [F3 [F4 F5]]]].
  assert (Wt : way t = (o, w)) by (unfold way, t; cbn [fst snd]; rewrite F5; auto).
  set (gs' := if f_tail f then None else Some (f_pid f, (o, w))).
  assert (G' : gparse (gone ++ [t]) = Some gs').
  { rewrite gparse_snoc, G. unfold gs'. destruct gs as [[p ow]|]; cbn [gstep pstep option_map fst] in *.
    - subst ow. unfold t at 1 2. cbn [fst]. destruct (negb (f_head f)); [|discriminate]. cbn [andb] in *. destruct (f_pid f =? p)%Z eqn:Q; [|discriminate]. apply Z.eqb_eq in Q. rewrite Wt, (proj2 (way_eqb_ok (o, w) (o, w)) eq_refl). unfold t. cbn [fst andb]. rewrite Q. auto.
    - unfold t at 1 2 3. cbn [fst]. rewrite Wt. destruct (f_head f); [|discriminate]. auto. }
  assert (Ps' : pstep (Some (option_map fst gs)) f = Some (option_map fst gs')).
  { pose proof (gparse_fst _ _ G') as Q. rewrite map_app in Q. cbn [map] in Q. rewrite parse_snoc, (gparse_fst _ _ G) in Q. exact Q. }
  assert (Hs1 : s1 = option_map fst gs') by congruence.
  assert (Tr : Forall (trip_ok c xs i) (gone ++ [t])).
  { apply Forall_app. split; [apply (vk_gone _ _ _ _ _ _ _ K)|]. constructor; [|constructor]. unfold t, trip_ok. rewrite F5. repeat (split; [auto; fail|]). split; [|unfold forward, on_channel; destruct (c_rdelay c), (f_head f); cbn [orb negb andb f_la]; auto; exists x; split; [exact Hx|reflexivity]]. intros Hd.
    destruct gs as [[p ow]|]; [cbn [option_map fst pstep] in Ps; rewrite Hd in Ps; discriminate|]. destruct Sg as [f0 [r0 [E0 Ch]]]. assert (f0 = f) by congruence. subst f0. exact Ch. }
  pose proof (vk_rx _ _ _ _ _ _ _ K) as Rx. rewrite Eb in Rx.
  assert (MK : forall b', v_buf b' = rest -> v_exp b' = v_exp b -> stok c xs i b' gs' -> vcok c xs i v b' rx (gone ++ [t])).
  { intros b' B1 B2 B3. destruct K as [V1 V2 V3 V4 V5 V6]. constructor; auto.
    - rewrite B1, map_app, <- app_assoc. exact Rx.
    - rewrite B2. auto.
    - exists gs'. auto. }
  destruct rest as [|nf rest'].
  - exists {| v_buf := []; v_state := if f_tail f then Idle else v_state b; v_route := v_route b; v_out := v_out b; v_exp := v_exp b |}, gs, gs'. split; [|split; [apply MK; auto|]].
    + intros s Es. unfold after_send. rewrite Es. unfold at_rt, at_va, at_sa. cbn [v_state v_buf]. rewrite S. destruct (f_tail f); reflexivity.
    + unfold stok, gs'. cbn [v_state v_buf v_out]. rewrite S. destruct (f_tail f); [auto|]. exists o, w. auto.
    + split; auto. split; auto. split; auto. split; auto. cbn [v_state v_out]. rewrite S. destruct (f_tail f); [discriminate|auto].
  - assert (Vn : f_vc nf = v) by (pose proof (vk_vc _ _ _ _ _ _ _ K) as F; rewrite Rx in F; apply Forall_app in F; destruct F as [_ F]; inversion F as [|? ? _ F']; subst; inversion F'; auto).
    destruct (f_tail f) eqn:Tl.
    + assert (Hn : f_head nf = true). { cbn [fold_left] in Pr. rewrite Hs1 in Pr. unfold gs' in Pr. cbn [option_map pstep] in Pr. destruct (f_head nf); auto. rewrite pstep_none in Pr. congruence. }
      destruct (c_rdelay c) eqn:R.
      * exists {| v_buf := nf :: rest'; v_state := Routing; v_route := v_route b; v_out := v_out b; v_exp := v_exp b |}, gs, gs'. split; [|split; [apply MK; auto|]].
        -- intros s Es. unfold after_send. rewrite Es, Vn, Nat.eqb_refl, Tl, Hn, R. reflexivity.
        -- unfold stok, gs'. cbn. split; [discriminate|auto].
        -- cbn [v_buf v_state]. repeat (split; [auto; fail|]). discriminate.
      * exists {| v_buf := nf :: rest'; v_state := VAlloc; v_route := f_la nf; v_out := None; v_exp := v_exp b |}, gs, gs'. split; [|split; [apply MK; auto|]].
        -- intros s Es. unfold after_send. rewrite Es, Vn, Nat.eqb_refl, Tl, Hn, R. reflexivity.
        -- unfold stok, gs'. cbn [v_state v_buf v_route]. split; auto. split.
           ++ pose proof (vk_la _ _ _ _ _ _ _ K R) as F. rewrite Rx in F. apply Forall_app in F. destruct F as [_ F]. inversion F as [|? ? _ F']; subst. inversion F'; auto.
           ++ exists nf, rest'. split; auto. unfold offered. rewrite R. auto.
        -- cbn [v_buf v_state]. repeat (split; [auto; fail|]). discriminate.
    + exists {| v_buf := nf :: rest'; v_state := v_state b; v_route := v_route b; v_out := v_out b; v_exp := v_exp b |}, gs, gs'. split; [|split; [apply MK; auto|]].
      * intros s Es. unfold after_send. rewrite Es, Vn, Nat.eqb_refl, Tl. unfold at_rt, at_va, at_sa. cbn [v_state v_buf]. rewrite S. reflexivity.
      * unfold stok, gs'. cbn [v_state v_buf v_out]. rewrite S. exists o, w. auto.
      * cbn [v_buf v_state v_out]. repeat (split; [auto; fail|]). auto.
Qed.

Lemma pstep_same : forall a f f', f_head f' = f_head f -> f_tail f' = f_tail f -> f_pid f' = f_pid f -> pstep a f' = pstep a f.
Proof. intros a f f' A B C. unfold pstep. rewrite A, B, C. reflexivity. Qed.
Lemma own_send : forall f gone L h i v o w b now t g fl gs gs', I_own c f gone L h -> owns c f i v o w -> o < c_outs c -> w < c_vcs c -> gparse (gone i v) = Some gs -> gparse (gone i v ++ [t]) = Some gs' ->
  pstep (Some (option_map fst gs)) fl = Some (option_map fst gs') -> f_head g = f_head fl -> f_tail g = f_tail fl -> f_pid g = f_pid fl -> f_vc g = w ->
  (if f_tail fl then v_state b <> Active else v_state b = Active /\ v_out b = Some (o, w)) -> (f_tail fl = true -> gs' = None) ->
  I_own c (upd2 f i v b) (upd2 gone i v (gone i v ++ [t])) (fupd L o (L o ++ [((i, v), g)])) (fupd h o (h o ++ [(now, ESend w (f_tail fl))])).
Proof.
  intros f gone L h i v o w b now t g fl gs gs' [A [B C]] Ow Ho Hw G G' Ps E1 E2 E3 E4 Sb Tn. destruct (A _ _ _ _ Ow) as [A1 [gs0 [A2 A3]]]. assert (gs0 = gs) by congruence. subst gs0.
  assert (PW : gparse (on_lab w (L o ++ [((i, v), g)])) = Some (option_map (fun a => (fst a, (i, v))) gs')).
  { unfold on_lab in *. rewrite filter_app, map_app. cbn [map snd filter]. rewrite E4, Nat.eqb_refl. cbn [map]. rewrite gparse_snoc, A3.
    destruct gs as [[p ow]|]; cbn [option_map fst gstep pstep] in *; unfold lab; cbn [fst snd]; rewrite E1, E2, ?E3.
    - unfold way. cbn [fst snd on_channel f_vc]. rewrite (proj2 (way_eqb_ok (i, v) (i, v)) eq_refl), andb_true_r. destruct (negb (f_head fl) && (f_pid fl =? p)%Z); [|discriminate].
      destruct (f_tail fl); injection Ps as Ps; destruct gs' as [[p' ow']|]; cbn [option_map fst] in *; congruence.
    - unfold way. cbn [fst snd on_channel f_vc]. destruct (f_head fl); [|discriminate]. destruct (f_tail fl); injection Ps as Ps; destruct gs' as [[p' ow']|]; cbn [option_map fst] in *; congruence. }
  assert (PO : forall o' w', (o', w') <> (o, w) -> on_lab w' (fupd L o (L o ++ [((i, v), g)]) o') = on_lab w' (L o')).
  { intros o' w' N. unfold fupd. destruct (Nat.eqb_spec o' o) as [->|]; auto. unfold on_lab. rewrite filter_app, map_app. cbn [filter snd]. destruct (Nat.eqb_spec (f_vc g) w') as [X|]; [congruence|]. cbn [map]. apply app_nil_r. }
  assert (CASE : forall a y o' w', owns c (upd2 f i v b) a y o' w' -> ((a, y) = (i, v) /\ (o', w') = (o, w) /\ f_tail fl = false) \/ ((a, y) <> (i, v) /\ owns c f a y o' w' /\ (o', w') <> (o, w))).
  { intros a y o' w' X. destruct (nn_dec (a, y) (i, v)) as [E|E].
    - left. split; auto. injection E as -> ->. destruct X as [_ [_ [X Y]]]. rewrite upd2_same in X, Y. destruct (f_tail fl); [congruence|]. destruct Sb. split; [congruence|auto].
    - right. split; auto. rewrite owns_upd_other in X by auto. split; auto. intros Q. injection Q as -> ->. apply E. eapply B; eauto. }
  split; [|split].
  - intros a y o' w' X. apply CASE in X. destruct X as [[X1 [X2 X3]]|[X1 [X X2]]].
    + injection X1 as -> ->. injection X2 as -> ->. rewrite !fupd_same, upd2_same, busy_snoc. cbn [busy_step]. rewrite Nat.eqb_refl, X3. split; auto. exists gs'. auto.
    + rewrite upd2_other by auto. rewrite PO by auto. destruct (A _ _ _ _ X) as [Y1 Y2]. split; auto. unfold fupd. destruct (Nat.eqb_spec o' o) as [->|]; auto. rewrite busy_snoc. cbn [busy_step]. destruct (Nat.eqb_spec w w') as [->|]; [congruence|auto].
  - intros a y a' y' o' w' X Y. apply CASE in X, Y. destruct X as [[X1 [X2 X3]]|[X1 [X X2]]], Y as [[Y1 [Y2 Y3]]|[Y1 [Y Y2]]]; try congruence. eapply B; eauto.
  - intros o' w' Ho' Hw'. destruct (nn_dec (o', w') (o, w)) as [E|E].
    + injection E as -> ->. rewrite fupd_same, PW. destruct (f_tail fl) eqn:T; [right; rewrite Tn, fupd_same, busy_snoc by auto; cbn [busy_step]; rewrite Nat.eqb_refl; auto|]. left. exists i, v. unfold owns. rewrite upd2_same. destruct Ow as [O1 [O2 _]]. destruct Sb. auto.
    + rewrite PO by auto. destruct (C o' w' Ho' Hw') as [[a [y X]]|[X Y]].
      * left. exists a, y. apply owns_upd_other; auto. intros Q. injection Q as -> ->. destruct X as [_ [_ [_ X]]], Ow as [_ [_ [_ Y]]]. congruence.
      * right. split; auto. unfold fupd. destruct (Nat.eqb_spec o' o) as [->|]; auto. rewrite busy_snoc. cbn [busy_step]. destruct (Nat.eqb_spec w w') as [->|]; [congruence|auto].
Qed.

Lemma from_app : forall i v a b, from i v (a ++ b) = from i v a ++ from i v b.
Proof. intros. unfold from. rewrite filter_app, map_app. auto. Qed.
Lemma left_app : forall o a b, left_for o (a ++ b) = left_for o a ++ left_for o b.
Proof. intros. unfold left_for. rewrite filter_app, map_app. auto. Qed.
Lemma sel_app : forall o a b, sel o (a ++ b) = sel o a ++ sel o b.
Proof. intros. unfold sel. apply flat_map_app. Qed.
Definition with_send (now : Z) (i v o : nat) (t : trip) (w : nat) (g : gh) : gh :=
  {| g_rx := g_rx g; g_gone := upd2 (g_gone g) i v (g_gone g i v ++ [t]); g_L := fupd (g_L g) o (g_L g o ++ [((i, v), snd (snd t))]);
     g_h := fupd (g_h g) o (g_h g o ++ [(now, ESend w (f_tail (fst t)))]); g_tx := g_tx g; g_cr := g_cr g; g_ct := g_ct g |}.
Definition same_ports (g g' : gh) : Prop := g_rx g' = g_rx g /\ g_tx g' = g_tx g /\ g_cr g' = g_cr g /\ g_ct g' = g_ct g.

Lemma sa_updates_ok : forall xs px x D ps s g, In x xs -> Inv c P I xs [] [] ps px s g -> DsaOK (i_now x) s ps D -> free_for s D ->
  exists s' g', fold_opt (sa_update c x) D s = Some s' /\ Inv c P I xs [] [] [] px s' g' /\ keeps s s' /\ same_ports g g' /\ (r_xb s' = [] -> r_xb s = [] /\ r_rq s' = r_rq s /\ r_va s' = r_va s).
Proof.
  intros xs px x D. induction D as [|[[i v] gr] D IH]; intros ps s g Hx H Hd Hf.
  - destruct Hd as [D1 _]. cbn [map] in D1. subst ps. exists s, g. split; [reflexivity|]. split; auto. split; [repeat split|]. split; [repeat split|]. auto.
  - destruct Hd as [D1 [D2 D3]]. cbn [map fst] in D1. subst ps. pose proof (iv_q _ _ _ _ _ _ _ _ _ _ H) as IQ. destruct IQ as [_ [_ [Nq Q]]]. destruct (proj1 (Q i v)) as [Hi [Hv [S Nb]]]; [apply in_app_iff; right; left; auto|].
    pose proof (iv_vc _ _ _ _ _ _ _ _ _ _ H i v Hi Hv) as K. destruct (v_buf (r_vc s i v)) as [|f r] eqn:Eb; [congruence|].
    cbn [fold_opt]. unfold sa_update at 1. rewrite (front_some _ _ _ _ _ _ _ _ _ _ Active i v f r H Hi Hv S), Eb; [|discriminate|auto].
    destruct gr as [o|].
    + destruct (D3 i v o (or_introl eq_refl)) as [w [Eo Fu]]. rewrite Eo. destruct (vk_st _ _ _ _ _ _ _ K) as [gs0 [G0 S0]]. unfold stok in S0. rewrite S in S0. destruct S0 as [o' [w' [Eo' [Ho [Hw _]]]]].
      assert (X : o' = o /\ w' = w) by (split; congruence). destruct X as [-> ->]. clear Eo' gs0 G0.
      rewrite (proj2 (Nat.ltb_lt _ _) Ho), (proj2 (Nat.ltb_lt _ _) Hw), Nat.eqb_refl. cbn [andb].
      assert (Ow : owns c (r_vc s) i v o w) by (split; auto). destruct (iv_own _ _ _ _ _ _ _ _ _ _ H) as [Ao _]. destruct (Ao _ _ _ _ Ow) as [Bw _].
      pose proof (iv_next _ _ _ _ _ _ _ _ _ _ H o Ho) as Sto. pose proof (proj1 (so_busy _ _ _ _ _ Sto w Hw) Bw) as Aw.
      destruct (send_step (c_b c) P I (g_h g o) (i_now x) w (f_tail f) (r_next s o) Sto Hw Aw) as [b1 [E1 St]]; [apply (rm_send _ _ _ _ HR (i_now x)); auto; [apply (so_base _ _ _ _ _ Sto)|apply (so_pol _ _ _ _ _ Sto)]|]. rewrite E1.
      destruct (Hf i v o (or_introl eq_refl)) as [Fx Fo].
      destruct (after_ok xs x i v (r_vc s i v) _ _ f r o w Hx K Eb S Eo) as [b' [gs [gs' [Af [Kb [Bb [G [G' [Ps Sb]]]]]]]]].
      set (t := (f, (o, forward c x o w f))) in *. destruct (forward_same x o w f) as [F1 [F2 [F3 [F4 F5]]]].
      rewrite Af by reflexivity. rs. cbn [sep] in D2. destruct D2 as [D2a D2b].
      pose proof (queues_out_sa c _ _ _ _ _ _ _ (iv_q _ _ _ _ _ _ _ _ _ _ H)) as QB. pose proof (queues_place c _ _ _ _ _ _ _ i v b' QB Hi Hv) as QP.
      rewrite Fo. cbn [set_insert].
      match goal with |- context [fold_opt (sa_update c x) D ?z] => set (s1 := z) end.
      destruct (IH (map fst D) s1 (with_send (i_now x) i v o t w g) Hx) as [s' [g' [E' [A1 [A2 [A3 A4]]]]]].
      * pose proof H as [K1 K2 K3 K4 K5 K6 K7 K8]. constructor; subst s1; rs; cbn [with_send g_rx g_gone g_L g_h g_tx g_cr g_ct]; auto.
        -- intros a y Ha Hy. destruct (nn_dec (a, y) (i, v)) as [E|E]; [injection E as -> ->; rewrite !upd2_same; auto|rewrite !upd2_other by auto; auto].
        -- apply (own_send _ _ _ _ i v o w b' (i_now x) t (forward c x o w f) f gs gs'); auto. intros T. rewrite gparse_snoc, G in G'. unfold t in G'. destruct gs as [[p ow]|]; cbn [gstep fst] in G'; rewrite T in G'.
           ++ destruct (_ && _) in G'; [congruence|discriminate].
           ++ destruct (f_head f); [congruence|discriminate].
        -- intros a Ha. unfold fupd. destruct (Nat.eqb_spec a o) as [->|]; [auto|apply K4; auto].
        -- destruct K5 as [B1 B2 B3 B4 B5 B6 B7]. unfold t. cbn [snd fst]. constructor; auto.
           ++ intros a Ha. rewrite sel_app. unfold fupd. destruct (Nat.eqb_spec a o) as [->|N].
              ** rewrite map_app, (B1 o Ha). cbn [map snd]. rewrite Fx, app_nil_r. unfold sel at 3. cbn [flat_map fst snd]. rewrite Nat.eqb_refl. cbn [app]. rewrite <- !app_assoc. reflexivity.
              ** rewrite (B1 a Ha). unfold sel at 5. cbn [flat_map fst snd]. rewrite (proj2 (Nat.eqb_neq o a)) by auto. rewrite !app_nil_r. reflexivity.
           ++ intros a Ha. destruct (B2 a Ha) as [X Y]. split; auto. rewrite sel_app, app_length. cbn [sel flat_map fst snd]. destruct (Nat.eqb_spec o a) as [<-|N]; [rewrite Fx; cbn; lia|]. cbn [app length]. lia.
           ++ intros a y Ha. unfold fupd. destruct (Nat.eqb_spec a o) as [->|N]; [|auto]. rewrite sent_app, map_app, on_vc_len, (B3 o y Ha). cbn [sent map snd]. cbn [on_vc filter]. rewrite F5. destruct (Nat.eqb w y); cbn [length]; lia.
           ++ intros a z Hz. unfold fupd in Hz. destruct (Nat.eqb_spec a o) as [->|N]; [|eauto]. apply in_app_iff in Hz. destruct Hz as [Hz|[<-|[]]]; [eauto|]. cbn. auto.
           ++ intros a y z Ha Hy Hz. unfold fupd at 1. destruct (Nat.eqb_spec z o) as [->|N].
              ** rewrite from_app, (B5 a y o Ha Hy Hz). unfold from. cbn [filter map fst snd]. destruct (nn_dec (a, y) (i, v)) as [E|E].
                 --- injection E as -> ->. rewrite !Nat.eqb_refl. cbn [andb map snd]. rewrite upd2_same, left_app. unfold left_for at 3. cbn [filter map fst snd]. rewrite Nat.eqb_refl. reflexivity.
                 --- rewrite upd2_other by auto. assert (X : Nat.eqb i a && Nat.eqb v y = false). { destruct (Nat.eqb_spec i a), (Nat.eqb_spec v y); auto. congruence. } rewrite X. cbn [map]. apply app_nil_r.
              ** rewrite (B5 a y z Ha Hy Hz). destruct (nn_dec (a, y) (i, v)) as [E|E]; [|rewrite upd2_other by auto; auto]. injection E as -> ->. rewrite upd2_same, left_app. unfold left_for at 3. cbn [filter fst snd].
                 rewrite (proj2 (Nat.eqb_neq o z)) by auto. cbn [map]. rewrite app_nil_r. reflexivity.
           ++ apply Forall_app. split; auto.
        -- destruct K6 as [C1 C2 C3]. constructor; auto. intros a y Ha. rewrite (C1 a y Ha). unfold fupd. destruct (Nat.eqb_spec a o) as [->|]; auto. rewrite credited_app. cbn [credited]. lia.
        -- intros a Ha. destruct (K7 a Ha) as [X [X1 Y]]. unfold fupd. destruct (Nat.eqb_spec a i) as [->|N].
           ++ rewrite Fo, app_nil_r in X, Y. split; [rewrite app_assoc; apply Forall_app; split; auto|]. split; [inversion X1; constructor; auto|]. intros y Hy. rewrite app_assoc, count_occ_app, (Y y Hy). cbn [count_occ]. destruct (Nat.eq_dec v y) as [->|N].
              ** rewrite upd2_same, app_length. reflexivity.
              ** rewrite upd2_other by congruence. lia.
           ++ split; auto. split; auto. intros y Hy. rewrite upd2_other by congruence. auto.
        -- eapply occ_eq; [|apply occ_upd; [exact K8|auto|auto]]. intros a. unfold fupd. destruct (Nat.eqb a i); auto. rewrite Bb, Eb. cbn [length]. lia.
      * split; auto. split; auto. intros a y o' Hin. destruct (D2a _ _ Hin) as [Ni No]. cbn [fst] in Ni. destruct (D3 a y o' (or_intror Hin)) as [w' [X1 X2]]. exists w'. subst s1. rs. rewrite upd2_other by congruence. rewrite fupd_other by auto. auto.
      * intros a y o' Hin. destruct (D2a _ _ Hin) as [Ni No]. cbn [fst] in Ni. destruct (Hf a y o' (or_intror Hin)) as [X1 X2]. subst s1. rs. rewrite fupd_other by auto. split; auto. rewrite sel_app, X1. unfold sel. cbn [flat_map fst snd]. rewrite (proj2 (Nat.eqb_neq o o')); auto.
      * exists s', g'. split; [exact E'|]. split; [exact A1|]. split; [exact A2|]. split; [exact A3|]. intros Hxb. destruct (A4 Hxb) as [Y _]. subst s1. rs. apply app_eq_nil in Y. destruct Y; discriminate.
    + destruct (IH (map fst D) (set_qs (r_rq s) (r_va s) (r_sa s ++ [(i, v)]) s) g Hx) as [s' [g' [E' [A1 [A2 [A3 A4]]]]]].
      * pose proof H as [K1 K2 K3 K4 K5 K6 K7 K8]. constructor; rs; auto. rewrite <- app_assoc. auto.
      * split; auto. split; auto. intros a y o Hin. apply (D3 a y o (or_intror Hin)).
      * intros a y o Hin. apply (Hf a y o (or_intror Hin)).
      * exists s', g'. split; [exact E'|]. split; auto.
Qed.

(** ** The crossbar *)
Lemma xb_updates_ok : forall xs px s g, Inv c P I xs [] [] [] px s g ->
  exists s', fold_opt (xb_update c) px s = Some s' /\ Inv c P I xs [] [] [] [] s' g /\ r_proc s' = r_proc s /\ r_cb s' = r_cb s /\ r_xb s' = r_xb s /\ r_rq s' = r_rq s /\ r_va s' = r_va s /\ r_sa s' = r_sa s.
Proof.
  intros xs px. induction px as [|[f [i o]] px IH]; intros s g H.
  - exists s. split; [reflexivity|]. split; auto. repeat (split; [reflexivity|]). reflexivity.
  - pose proof H as [K1 K2 K3 K4 K5 K6 K7 K8]. pose proof K5 as [B1 B2 B3 B4 B5 B6 B7]. inversion B6 as [|? ? [Hi Ho] B6']; subst. cbn [fst snd] in Hi, Ho.
    destruct (B2 o Ho) as [X _]. unfold sel in X. cbn [flat_map fst snd] in X. rewrite Nat.eqb_refl in X. cbn [app] in X. rewrite app_length in X. cbn [length] in X.
    cbn [fold_opt]. unfold xb_update at 1. rewrite (proj2 (Nat.ltb_lt _ _) Hi), (proj2 (Nat.ltb_lt _ _) Ho). cbn [andb]. rewrite app_length. cbn [length].
    assert (Y : ((c_obuf c <? 0)%Z || (Z.of_nat (length (r_out s o) + 1) <=? c_obuf c + 1)%Z) = true).
    { destruct (c_obuf c <? 0)%Z eqn:E; auto. apply Z.ltb_ge in E. apply Z.leb_le. lia. }
    rewrite Y. destruct (IH (set_xb (r_xb s) (fupd (r_out s) o (r_out s o ++ [f])) s) g) as [s' [E' [A1 A2]]].
    + constructor; rs; auto. constructor; auto.
      * intros a Ha. rewrite (B1 a Ha). unfold sel at 1. cbn [flat_map fst snd]. fold (sel a px). unfold fupd. rewrite (Nat.eqb_sym o a). destruct (Nat.eqb_spec a o) as [->|]; [|reflexivity]. cbn [app]. rewrite <- app_assoc. reflexivity.
      * intros a Ha. destruct (B2 a Ha) as [Z1 Z2]. split; auto. unfold sel in Z1. cbn [flat_map fst snd] in Z1. fold (sel a px) in Z1. unfold fupd. rewrite (Nat.eqb_sym o a) in Z1. destruct (Nat.eqb_spec a o) as [->|]; [|exact Z1]. rewrite <- app_assoc. exact Z1.
    + exists s'. split; [exact E'|]. split; auto.
Qed.
End Steps.
