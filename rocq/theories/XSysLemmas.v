(** The AXI-MM adapters of a system, one thread at a time. *)
From Coq Require Import ZArith Arith Bool List Lia.
From Verif Require Import Bits Fupd VcModel AximmFormatModel AximmInModel AximmSpec AximmInProofs AximmOutModel AximmOutSpec StreamSpec StreamProofs EndToEndMMSpec FlitCode XSysModel XSysSpec.
From Verif Require EndToEndMMProofs.
Import ListNotations.
Open Scope nat_scope.

Lemma type_of_num : forall t, type_of (type_num t) = t.
Proof. intros []; reflexivity. Qed.
Lemma xdecode_code : forall f, xdecode (xcode f) = f.
Proof.
  intros [s [h t y v d j p q x]]. unfold xdecode, xcode. rewrite zdecode_code. cbn [xb_src xb_flit xf_head xf_tail xf_type xf_vc xf_dest xf_iface xf_pid xf_sid xf_payload]. rewrite !type_of_num. destruct h, t; reflexivity.
Qed.

(** ** Input sides *)
Lemma x_run_snoc : forall c h ev s, x_run c s (h ++ [ev]) = match x_run c s h with Some (s1, o1) => match x_step c s1 ev with Some (s2, o2) => Some (s2, o1 ++ o2) | None => None end | None => None end.
Proof.
  intros c h ev. induction h as [|a h IH]; intros s; cbn [x_run app].
  - destruct (x_step c s ev) as [[s2 o2]|]; auto. cbn [app]. rewrite app_nil_r. reflexivity.
  - destruct (x_step c s a) as [[s1 o1]|]; auto. rewrite IH. destruct (x_run c s1 h) as [[s2 o2]|]; auto. destruct (x_step c s2 ev) as [[s3 o3]|]; auto. rewrite app_assoc. reflexivity.
Qed.
Lemma xthreads_snoc : forall c ev old l t s, run_xthreads c ev old (l ++ [t]) s = match run_xthreads c ev old l s with Some (s1, o1) => match run_xthread c ev old t s1 with Some (s2, o2) => Some (s2, o1 ++ o2) | None => None end | None => None end.
Proof.
  intros c ev old l t. induction l as [|a l IH]; intros s; cbn [run_xthreads app].
  - destruct (run_xthread c ev old t s) as [[s2 o2]|]; auto. cbn [app]. rewrite app_nil_r. reflexivity.
  - destruct (run_xthread c ev old a s) as [[s1 o1]|]; auto. rewrite IH. destruct (run_xthreads c ev old l s1) as [[s2 o2]|]; auto. destruct (run_xthread c ev old t s2) as [[s3 o3]|]; auto. rewrite app_assoc. reflexivity.
Qed.
Lemma xthread_ext : forall c ev ev' old t s, x_off ev = x_off ev' -> x_newid ev = x_newid ev' -> (t = TNoc -> x_can ev = x_can ev') -> run_xthread c ev old t s = run_xthread c ev' old t s.
Proof. intros c ev ev' old t s H1 H2 H3. destruct t; cbn [run_xthread]; auto; [unfold input_interface, handshakes; rewrite H1, H2; reflexivity|]. rewrite (H3 eq_refl). reflexivity. Qed.
Lemma xthreads_ext : forall c ev ev' old l s, x_off ev = x_off ev' -> x_newid ev = x_newid ev' -> (In TNoc l -> x_can ev = x_can ev') -> run_xthreads c ev old l s = run_xthreads c ev' old l s.
Proof.
  intros c ev ev' old l. induction l as [|t l IH]; intros s H1 H2 H3; [reflexivity|]. cbn [run_xthreads]. rewrite (xthread_ext c ev ev') by (auto; intros ->; apply H3; left; auto).
  destruct (run_xthread c ev' old t s) as [[s1 o1]|]; auto. rewrite IH; auto. intros H. apply H3. right. auto.
Qed.
Lemma settle_ext : forall c ev ev' s, x_off ev = x_off ev' -> x_wake ev = x_wake ev' -> settle c ev s = settle c ev' s.
Proof. intros c ev ev' s H1 H2. unfold settle, sens_now. rewrite H1, H2. reflexivity. Qed.

(** What was taken stood there. *)
Lemma handshakes_stand : forall c ev old t, In t (handshakes c ev old) -> stands (xc_side c) (x_off ev) t.
Proof.
  intros c ev old t H. unfold handshakes in H. destruct (rdy old) as [[r1 r2] r3].
  assert (X : forall A (r : bool) (f : A -> xtxn) (x : option A), In t match (if r then x else None) with Some y => [f y] | None => [] end -> exists y, x = Some y /\ t = f y).
  { intros A r f x Hx. destruct r; [|destruct Hx]. destruct x as [y|]; [|destruct Hx]. destruct Hx as [<-|[]]. eauto. }
  destruct (xc_side c); rewrite !in_app_iff in H; repeat destruct H as [H|H]; apply X in H; destruct H as [y [E ->]]; exact E.
Qed.
Lemma thread_accs : forall c ev old t s s' o, run_xthread c ev old t s = Some (s', o) -> forall x, In x (accs o) -> In (fst x) (handshakes c ev old).
Proof.
  intros c ev old t s s' o H x Hx. destruct t; cbn [run_xthread] in H.
  - injection H as <- <-. rewrite accs_map in Hx. apply in_map_iff in Hx. destruct Hx as [y [<- Hy]]. exact Hy.
  - destruct (packetise c old) as [[[[fs cy] m] aw]|]; [|discriminate]. injection H as <- <-. destruct Hx.
  - destruct (match itobe s with Some f => _ | None => _ end) as [[f|] q]; [destruct (x_can ev)|]; injection H as <- <-; destruct Hx.
Qed.
Lemma threads_accs : forall c ev old l s s' o, run_xthreads c ev old l s = Some (s', o) -> forall x, In x (accs o) -> In (fst x) (handshakes c ev old).
Proof.
  intros c ev old l. induction l as [|t l IH]; intros s s' o H x Hx; cbn [run_xthreads] in H; [injection H as <- <-; destruct Hx|].
  destruct (run_xthread c ev old t s) as [[s1 o1]|] eqn:E1; [|discriminate]. destruct (run_xthreads c ev old l s1) as [[s2 o2]|] eqn:E2; [|discriminate]. injection H as <- <-.
  rewrite accs_app, in_app_iff in Hx. destruct Hx as [Hx|Hx]; [eapply thread_accs|eapply IH]; eauto.
Qed.
Lemma run_accs : forall c evs s s' o, x_run c s evs = Some (s', o) -> forall x, In x (accs o) -> exists ev, In ev evs /\ stands (xc_side c) (x_off ev) (fst x).
Proof.
  intros c evs. induction evs as [|ev evs IH]; intros s s' o H x Hx; cbn [x_run] in H; [injection H as <- <-; destruct Hx|].
  destruct (x_step c s ev) as [[s1 o1]|] eqn:E1; [|discriminate]. destruct (x_run c s1 evs) as [[s2 o2]|] eqn:E2; [|discriminate]. injection H as <- <-.
  rewrite accs_app, in_app_iff in Hx. destruct Hx as [Hx|Hx].
  - exists ev. split; [left; auto|]. unfold x_step in E1. destruct (settle c ev s) as [s0|]; [|discriminate]. eapply handshakes_stand. eapply threads_accs; eauto.
  - destruct (IH _ _ _ E2 x Hx) as [ev' [A B]]. exists ev'. split; [right|]; auto.
Qed.
Lemma stands_out : forall k k' o t, stands k o t -> k' <> k -> out_type k' (kind t) = true.
Proof. intros [] [] o [] H N; try destruct H; try congruence; reflexivity. Qed.

(** Where write data go. *)
Lemma ann_aw : forall c (Q : Z -> Prop) l aw gg, legal gg l -> (gg = true -> Q aw) -> (forall h i, In (XAW h, i) l -> Q (node_of c (h_addr h))) ->
  forall a w, In a (annotate c aw l) -> sd_txn a = XW w -> Q (sd_aw a).
Proof.
  intros c Q l. induction l as [|[t i] l IH]; intros aw gg L G H a w Ha Hw; [destruct Ha|]. cbn [annotate] in Ha. destruct Ha as [<-|Ha].
  - cbn [sd_txn sd_aw] in *. subst t. cbn [legal] in L. apply G. apply L.
  - assert (H' : forall h j, In (XAW h, j) l -> Q (node_of c (h_addr h))) by (intros h j Hh; apply (H h j); right; auto). cbn [legal] in L. destruct t; cbn [next_aw] in Ha; try (eapply IH; eauto; fail).
    + eapply (IH _ true L); eauto. intros _. apply (H h i). left. auto.
    + destruct L as [L1 L2]. eapply (IH _ _ L2); eauto.
Qed.
Lemma ann_in : forall c l aw a, In a (annotate c aw l) -> In (sd_txn a, sd_id a) l.
Proof. intros c l. induction l as [|[t i] l IH]; intros aw a H; [destruct H|]. destruct H as [<-|H]; [left|right]; eauto. Qed.

(** The injection thread. *)
Lemma noc_spec : forall c ev old s, exists s', run_xthread c ev old TNoc s = Some (s', match offered_flit s with Some f => if x_can ev then [Inj {| xb_src := xc_node c; xb_flit := f |}] else [] | None => [] end).
Proof.
  intros c ev old s. cbn [run_xthread]. unfold offered_flit. destruct (itobe s) as [f|]; [destruct (x_can ev); eauto|]. destruct (injq s) as [|f q]; cbn [head]; [eauto|]. destruct (x_can ev); eauto.
Qed.
Lemma offered_waiting : forall s f, offered_flit s = Some f -> exists r, AximmInProofs.waiting s = f :: r.
Proof.
  intros s f H. unfold offered_flit in H. unfold AximmInProofs.waiting. destruct (itobe s) as [g|]; cbn [AximmInProofs.opt app]; [injection H as ->; eauto|]. destruct (injq s) as [|g q]; [discriminate|]. cbn [head] in H. injection H as ->. eauto.
Qed.
Lemma thread_goes : forall c ev old t s, good_xcfg c -> exists s' o, run_xthread c ev old t s = Some (s', o).
Proof.
  intros c ev old t s G. destruct (threads_some c G ev old [t] s) as [r E]. cbn [run_xthreads] in E. destruct (run_xthread c ev old t s) as [[s' o]|]; [eauto|discriminate].
Qed.
Lemma thread_quiet : forall c ev old t s s' o, t <> TNoc -> run_xthread c ev old t s = Some (s', o) -> put o = [].
Proof.
  intros c ev old t s s' o Ht H. destruct t; cbn [run_xthread] in H; [| |congruence].
  - injection H as <- <-. induction (handshakes c ev old); auto.
  - destruct (packetise c old) as [[[[fs cy] m] aw]|]; [|discriminate]. injection H as <- <-. reflexivity.
Qed.

(** Clocks. *)
Lemma clocked_ths : forall r a b st, map x_ths a = map x_ths b -> clocked r st a -> clocked r st b.
Proof.
  intros r a. induction a as [|x a IH]; intros [|y b] st E H; try discriminate; auto. cbn [map] in E. injection E as E1 E2. cbn [clocked] in *. assert (Hh : forall t, has t y = has t x) by (intros t; unfold has; rewrite E1; reflexivity).
  rewrite !Hh. destruct st as [k|]; [destruct H as [H1 H2]; split; auto; destruct (has TNode x); [destruct H2; split; auto|]; eapply IH; eauto|eapply IH; eauto].
Qed.
Lemma clocked_less : forall r h ev ev' st, (forall t, In t (x_ths ev') -> In t (x_ths ev)) -> clocked r st (h ++ [ev]) -> clocked r st (h ++ [ev']).
Proof.
  intros r h ev ev' st L. assert (Hh : forall t, has t ev' = true -> has t ev = true).
  { intros t H. change (has t ev') with (hast t (x_ths ev')) in H. change (has t ev) with (hast t (x_ths ev)). rewrite hast_in in *. auto. }
  revert st. induction h as [|x h IH]; intros st H.
  - cbn [app clocked] in *. destruct st as [k|]; auto. destruct H as [H1 H2]. split.
    + pose proof (Hh TAdapt). destruct (has TAdapt ev'), (has TAdapt ev); try lia; try (specialize (H eq_refl); discriminate).
    + destruct (has TNode ev') eqn:E; auto. rewrite (Hh TNode E) in H2. split; auto. apply H2.
  - cbn [app clocked] in *. destruct st as [k|]; [|apply IH; exact H]. destruct H as [H1 H2]. split; [exact H1|]. destruct (has TNode x); [destruct H2 as [H2 H3]; split; [exact H2|apply IH; exact H3]|apply IH; exact H2].
Qed.
Lemma clocked_pre : forall r a b st, clocked r st (a ++ b) -> clocked r st a.
Proof.
  intros r a b. induction a as [|x a IH]; intros st H; cbn [app clocked] in *; [exact Logic.I|]. destruct st as [k|]; [|apply IH; exact H]. destruct H as [H1 H2]. split; [exact H1|]. destruct (has TNode x); [destruct H2 as [H2 H3]; split; [exact H2|apply IH; exact H3]|apply IH; exact H2].
Qed.

(** What is accepted is put in or still inside. *)
Lemma once_more : forall c evs s o, good_xcfg c -> Forall ok_xinstant evs -> clocked (xc_ratio c) None evs -> x_run c x_init evs = Some (s, o) ->
  (exists late, injs o ++ AximmInProofs.waiting s ++ late = packets c 0 (accs o)) /\ (valid (nd s) = false -> AximmInProofs.waiting s = [] -> injs o = packets c 0 (accs o)) /\ legal false (accs o).
Proof.
  intros c evs s o G F K R. destruct (run_inv c G evs s o F K R) as (PP & pend & HI). split; [|split; [|apply (v_legal _ _ _ _ _ _ _ HI)]].
  - exists (packets c (final_aw c 0 PP) pend). rewrite (v_acc _ _ _ _ _ _ _ HI), packets_app, <- (v_out _ _ _ _ _ _ _ HI), app_assoc. reflexivity.
  - intros V W. pose proof (v_pend _ _ _ _ _ _ _ HI) as PD. pose proof (v_out _ _ _ _ _ _ _ HI) as OU. rewrite W, app_nil_r in OU. rewrite OU, (v_acc _ _ _ _ _ _ _ HI). destruct pend as [|[t i] [|]]; [rewrite app_nil_r; reflexivity| |destruct PD].
    destruct PD as [PD _]. congruence.
Qed.

(** ** Output sides *)
Definition yfrees (v : nat) (o : list yobs) : nat := length (filter (fun x => match x with YFree z => Nat.eqb (Z.to_nat z) v | _ => false end) o).
Lemma yfrees_app : forall v a b, yfrees v (a ++ b) = yfrees v a + yfrees v b.
Proof. intros. unfold yfrees. rewrite filter_app, app_length. reflexivity. Qed.
Lemma yload_yload : forall x y s, yload x (yload y s) = yload x s. Proof. reflexivity. Qed.
Lemma yload_nil : forall s, yin s = [] -> yload [] s = s. Proof. intros [] H. cbn in H. subst. reflexivity. Qed.
Lemma yload_depack : forall c x s, y_depack c (yload x s) = option_map (fun r => (yload x (fst r), snd r)) (y_depack c s).
Proof.
  intros c x s. unfold y_depack.
  assert (SC : forall n q, y_scan (yload x s) n q = y_scan s n q).
  { intros n. induction n as [|n IH]; intros [|v r]; try reflexivity. cbn [y_scan]. change (complete (yload x s) v) with (complete s v). destruct (complete s v); auto. }
  change (ydepk (yload x s)) with (ydepk s). change (yprio (yload x s)) with (yprio s). rewrite SC. destruct (if ydepk s then yprio s else y_scan s (ntypes c) (yprio s)) as [|v r]; auto.
  change (complete (yload x s) v) with (complete s v). destruct (complete s v); [|reflexivity]. change (youtq (yload x s)) with (youtq s). destruct (Nat.ltb _ 2); [|reflexivity]. change (yej (yload x s) v) with (yej s v). destruct (yej s v) as [|f rest]; auto.
  destruct (xf_tail f); [|reflexivity]. change (ypopc (yload x s)) with (ypopc s). change (ypushc (yload x s)) with (ypushc s). destruct (Nat.leb _ _); reflexivity.
Qed.
Lemma yload_out : forall c r x s, y_out c r (yload x s) = option_map (fun q => (yload x (fst q), snd q)) (y_out c r s).
Proof.
  intros c r x s. unfold y_out. change (yport (yload x s)) with (yport s). change (yhold (yload x s)) with (yhold s). change (youtq (yload x s)) with (youtq s).
  destruct (match yhold s with Some _ => _ | None => _ end) as [[[|f p]|] q]; try reflexivity. destruct (_ && _); [|reflexivity]. destruct (show (y_w c) (f :: p)); reflexivity.
Qed.
Lemma yload_thread : forall c ev ev' t x s, t <> TEj -> y_rdy ev = y_rdy ev' -> y_thread c ev t (yload x s) = option_map (fun r => (yload x (fst r), snd r)) (y_thread c ev' t s).
Proof. intros c ev ev' t x s Ht Hr. destruct t; [congruence| |]; cbn [y_thread]; [apply yload_depack|]. rewrite Hr. apply yload_out. Qed.
Lemma y_threads_snoc : forall c ev l t s, y_threads c ev (l ++ [t]) s =
  match y_threads c ev l s with Some (s1, o1) => match y_thread c ev t s1 with Some (s2, o2) => Some (s2, o1 ++ o2) | None => None end | None => None end.
Proof.
  intros c ev l t. induction l as [|a l IH]; intros s; cbn [y_threads app].
  - destruct (y_thread c ev t s) as [[s2 o2]|]; auto. cbn [app]. rewrite app_nil_r. reflexivity.
  - destruct (y_thread c ev a s) as [[s1 o1]|]; auto. rewrite IH. destruct (y_threads c ev l s1) as [[s2 o2]|]; auto. destruct (y_thread c ev t s2) as [[s3 o3]|]; auto. rewrite app_assoc. reflexivity.
Qed.
Lemma y_threads_ext : forall c ev ev' l s, y_rdy ev = y_rdy ev' -> (In TEj l -> y_avail ev = y_avail ev') -> y_threads c ev l s = y_threads c ev' l s.
Proof.
  intros c ev ev' l. induction l as [|t l IH]; intros s H1 H2; [reflexivity|]. cbn [y_threads]. assert (E : y_thread c ev t s = y_thread c ev' t s) by (destruct t; cbn [y_thread]; rewrite ?H1, ?H2; auto; left; auto).
  rewrite E. destruct (y_thread c ev' t s) as [[s1 o1]|]; auto. rewrite IH; auto. intros H. apply H2. right. auto.
Qed.
Lemma y_run_snoc : forall c h ev s, y_run c (h ++ [ev]) s = match y_run c h s with Some (s1, o1) => match y_step c ev s1 with Some (s2, o2) => Some (s2, o1 ++ o2) | None => None end | None => None end.
Proof.
  intros c h ev. induction h as [|a h IH]; intros s; cbn [y_run app].
  - destruct (y_step c ev s) as [[s2 o2]|]; auto. cbn [app]. rewrite app_nil_r. reflexivity.
  - destruct (y_step c a s) as [[s1 o1]|]; auto. rewrite IH. destruct (y_run c h s1) as [[s2 o2]|]; auto. destruct (y_step c ev s2) as [[s3 o3]|]; auto. rewrite app_assoc. reflexivity.
Qed.
Lemma yeject_none : forall c x s, ypend s = None -> y_eject c false (yload x s) = Some (yload x s, []).
Proof. intros c x s H. unfold y_eject. cbn [yload ypend]. rewrite H. reflexivity. Qed.
Lemma yeject_nil : forall c s, ypend s = None -> y_eject c true (yload [] s) = Some (yload [] s, []).
Proof. intros c s H. unfold y_eject. cbn [yload ypend yin]. rewrite H. reflexivity. Qed.
Definition yejected (v : nat) (f : xflit) (s : yst) : yst :=
  {| yin := []; ypend := None; yej := fupd (yej s) v (yej s v ++ [f]); ypushc := ypushc s; ypushn := if xf_tail f then fupd (ypushn s) v (S (ypushc s v)) else ypushn s;
     ypopc := ypopc s; yprio := yprio s; ydepk := ydepk s; ycon := ycon s; youtq := youtq s; yhold := yhold s; yport := yport s |}.
Lemma yeject_one : forall c f x s v, ypend s = None -> fifo_of_vc c (xf_vc f) = Some v -> length (yej s v) < y_depth c -> y_eject c true (yload (f :: x) s) = Some (yload x (yejected v f s), [YArrive f]).
Proof. intros c f x s v H1 H2 H3. unfold y_eject. cbn [yload ypend yin]. rewrite H1, H2. cbn [yload yej]. rewrite (proj2 (Nat.ltb_lt _ _) H3). reflexivity. Qed.
(** The other threads and the ejection FIFOs. *)
Lemma ythread_frees : forall c ev t s s' o, t <> TEj -> y_thread c ev t s = Some (s', o) -> yin s' = yin s /\ ypend s' = ypend s /\
  ((yej s' = yej s /\ (forall v, yfrees v o = 0) /\ forall n, flat_map (fun x => match x with YFree v => [TermModel.VFree n (Z.to_nat v)] | _ => [] end) o = []) \/
   exists v f r, yej s v = f :: r /\ yej s' = fupd (yej s) v r /\ o = [YFree (trunc (y_vcidw c) (xf_vc f))]).
Proof.
  intros c ev t s s' o Ht H. destruct t; [congruence| |]; cbn [y_thread] in H.
  - unfold y_depack in H. destruct (if ydepk s then _ else _) as [|v r]; [discriminate|]. destruct (complete s v); [|injection H as <- <-; split; [reflexivity|split; [reflexivity|left; split; [reflexivity|split; intros; reflexivity]]]].
    destruct (Nat.ltb _ 2); [|injection H as <- <-; split; [reflexivity|split; [reflexivity|left; split; [reflexivity|split; intros; reflexivity]]]].
    destruct (yej s v) as [|f rest] eqn:E; [discriminate|]. destruct (xf_tail f); [destruct (Nat.leb _ _); [|discriminate]|]; injection H as <- <-; (split; [reflexivity|split; [reflexivity|right; exists v, f, rest; auto]]).
  - unfold y_out in H. set (o0 := match yport s with Some x => _ | None => _ end) in *.
    assert (A : (forall v, yfrees v o0 = 0) /\ forall n, flat_map (fun x => match x with YFree v => [TermModel.VFree n (Z.to_nat v)] | _ => [] end) o0 = []) by (subst o0; destruct (yport s); split; reflexivity).
    destruct (match yhold s with Some _ => _ | None => _ end) as [[[|f p]|] q]; [discriminate| |injection H as <- <-; tauto]. destruct (_ && _); [|injection H as <- <-; tauto]. destruct (show (y_w c) (f :: p)); [|discriminate]. injection H as <- <-; tauto.
Qed.

(** ** While no tail of one type has arrived, the output side does nothing for that type *)
Definition arr (o : list yobs) : list xflit := flat_map (fun x => match x with YArrive f => [f] | _ => [] end) o.
Lemma arr_app : forall a b, arr (a ++ b) = arr a ++ arr b. Proof. intros. apply flat_map_app. Qed.
Section Quiet.
Variables (c : ycfg) (v : nat) (A : xflit -> Prop).
Hypothesis AF : forall f, A f -> fifo_of_vc c (xf_vc f) = Some (num (xf_type f)).
Definition takes (f : xflit) : Prop := A f /\ num (xf_type f) <> v.
Record calm (s : yst) : Prop := {
  cm_in : Forall A (yin s);
  cm_pend : forall f, ypend s = Some f -> A f;
  cm_ej : forall u f, In f (yej s u) -> A f /\ num (xf_type f) = u;
  cm_con : Forall takes (ycon s);
  cm_outq : Forall (Forall takes) (youtq s);
  cm_hold : forall p, yhold s = Some p -> Forall takes p;
  cm_port : forall t, yport s = Some t -> num (kind t) <> v }.
Definition calm_obs (o : list yobs) : Prop := forall x, In x o -> match x with YFree z => exists f, takes f /\ z = trunc (y_vcidw c) (xf_vc f) | YSeen t _ => num (kind t) <> v | YArrive _ => True end.
Lemma show_kind : forall w p t, show w p = Some t -> exists f r, p = f :: r /\ kind t = xf_type f.
Proof. intros w [|f r] t H; [discriminate|]. unfold show in H. destruct (_ <? _)%Z; [|discriminate]. injection H as <-. exists f, r. split; auto. destruct (xf_type f); reflexivity. Qed.
Lemma calm_eject : forall av s s' o, y_eject c av s = Some (s', o) -> calm s -> calm s' /\ calm_obs o /\ ypushc s' = ypushc s /\
  (forall f, ypend s' = Some f -> ypend s = Some f \/ In f (arr o)) /\ (ypushn s' v = ypushn s v \/ exists f, (ypend s = Some f \/ In f (arr o)) /\ num (xf_type f) = v /\ xf_tail f = true).
Proof.
  intros av s s' o H CM. unfold y_eject in H.
  set (pq := match ypend s with Some f => (Some f, yin s, []) | None => match av, yin s with true, f :: r => (Some f, r, [YArrive f]) | _, _ => (None, yin s, []) end end) in H.
  assert (X : match pq with (p, inq, o1) => Forall A inq /\ (forall f, p = Some f -> A f /\ (ypend s = Some f \/ In f (arr o1))) /\ calm_obs o1 /\ (p = None -> inq = yin s /\ ypend s = None) end).
  { subst pq. destruct (ypend s) as [f|] eqn:E.
    - split; [apply (cm_in _ CM)|]. split; [intros g Q; injection Q as <-; split; [apply (cm_pend _ CM); auto|auto]|]. split; [intros x []|discriminate].
    - pose proof (cm_in _ CM) as Ci. destruct av; [|split; [auto|split; [discriminate|split; [intros x []|auto]]]]. destruct (yin s) as [|f r]; [split; [auto|split; [discriminate|split; [intros x []|auto]]]|].
      inversion Ci; subst. split; auto. split; [intros g Q; injection Q as <-; split; auto; right; left; auto|]. split; [intros x [<-|[]]; exact Logic.I|discriminate]. }
  destruct pq as [[p inq] o1]. destruct X as (X1 & X2 & X3 & X4). destruct p as [f|].
  - destruct (X2 f eq_refl) as [Af Wf]. rewrite (AF f Af) in H. destruct (Nat.ltb _ _).
    + injection H as <- <-. split; [constructor; cbn [yin ypend yej ycon youtq yhold yport]; try apply CM; auto; try discriminate|].
      * intros u g Hg. unfold fupd in Hg. destruct (Nat.eqb_spec u (num (xf_type f))) as [->|]; [|apply (cm_ej _ CM); auto]. rewrite in_app_iff in Hg. destruct Hg as [Hg|[<-|[]]]; [apply (cm_ej _ CM); auto|auto].
      * split; auto. split; [reflexivity|]. cbn [ypend ypushn]. split; [discriminate|]. destruct (xf_tail f) eqn:Et; [|auto]. unfold fupd. destruct (Nat.eqb_spec v (num (xf_type f))) as [Ev|]; [right; exists f; auto|auto].
    + injection H as <- <-. split; [constructor; cbn [yin ypend yej ycon youtq yhold yport]; try apply CM; auto; intros g Q; injection Q as <-; auto|].
      split; auto. split; [reflexivity|]. cbn [ypend ypushn]. split; [intros g Q; injection Q as <-; auto|auto].
  - injection H as <- <-. split; [exact CM|]. split; [exact X3|]. split; [reflexivity|]. split; [intros f Q; left; exact Q|left; reflexivity].
Qed.
Lemma calm_thread : forall ev t s s' o, y_thread c ev t s = Some (s', o) -> calm s -> ypushc s v = 0 -> calm s' /\ calm_obs o /\ ypushc s' = ypushc s /\
  (forall f, ypend s' = Some f -> ypend s = Some f \/ In f (arr o)) /\ (ypushn s' v = ypushn s v \/ exists f, (ypend s = Some f \/ In f (arr o)) /\ num (xf_type f) = v /\ xf_tail f = true).
Proof.
  intros ev t s s' o H CM P0. destruct t; cbn [y_thread] in H; [eapply calm_eject; eauto| |].
  - unfold y_depack in H. destruct (if ydepk s then _ else _) as [|u r]; [discriminate|]. destruct (complete s u) eqn:Cu.
    + assert (Nu : u <> v) by (intros ->; unfold complete in Cu; rewrite P0 in Cu; apply Nat.ltb_lt in Cu; lia).
      destruct (Nat.ltb _ _); [|injection H as <- <-; split; [constructor; cbn; apply CM|split; [intros x []|cbn; auto]]]. destruct (yej s u) as [|f rest] eqn:Eu; [discriminate|].
      destruct (cm_ej _ CM u f) as [Af Nf]; [rewrite Eu; left; auto|]. assert (Tf : takes f) by (split; [auto|congruence]).
      assert (EJ : forall z g, In g (fupd (yej s) u rest z) -> A g /\ num (xf_type g) = z).
      { intros z g Hg. unfold fupd in Hg. destruct (Nat.eqb_spec z u) as [->|]; [|apply (cm_ej _ CM); auto]. apply (cm_ej _ CM). rewrite Eu. right. auto. }
      assert (OB : calm_obs [YFree (trunc (y_vcidw c) (xf_vc f))]) by (intros x [<-|[]]; exists f; auto).
      assert (CN : Forall takes (ycon s ++ [f])) by (apply Forall_app; split; [apply (cm_con _ CM)|auto]).
      destruct (xf_tail f).
      * destruct (Nat.leb _ _); [|discriminate]. injection H as <- <-. split; [constructor; cbn [yin ypend yej ycon youtq yhold yport]; [apply (cm_in _ CM)|apply (cm_pend _ CM)|exact EJ|constructor|apply Forall_app; split; [apply (cm_outq _ CM)|auto]|apply (cm_hold _ CM)|apply (cm_port _ CM)]|split; [exact OB|cbn; auto]].
      * injection H as <- <-. split; [constructor; cbn [yin ypend yej ycon youtq yhold yport]; [apply (cm_in _ CM)|apply (cm_pend _ CM)|exact EJ|exact CN|apply (cm_outq _ CM)|apply (cm_hold _ CM)|apply (cm_port _ CM)]|split; [exact OB|cbn; auto]].
    + injection H as <- <-. split; [constructor; cbn; apply CM|split; [intros x []|cbn; auto]].
  - unfold y_out in H. cbv zeta in H.
    set (hq := match yhold s, youtq s with None, p :: q => (Some p, q) | h, q => (h, q) end) in H.
    assert (X : match hq with (h, q) => (forall p, h = Some p -> Forall takes p) /\ Forall (Forall takes) q end).
    { subst hq. pose proof (cm_outq _ CM) as Cq. destruct (yhold s) as [p|] eqn:Eh; [split; auto; intros p' Q; apply (cm_hold _ CM); congruence|]. destruct (youtq s) as [|p q]; [split; [discriminate|auto]|]. inversion Cq; subst. split; auto. intros p' Q. injection Q as <-. auto. }
    assert (OB : calm_obs match yport s with Some t => [YSeen t (y_rdy ev (chan_of t))] | None => [] end) by (destruct (yport s) as [t|] eqn:Ep; [intros x [<-|[]]; apply (cm_port _ CM); auto|intros x []]).
    destruct hq as [h q]. destruct X as [X1 X2]. destruct h as [p|].
    + destruct p as [|f p]; [discriminate|]. destruct (_ && _)%bool.
      * destruct (show (y_w c) (f :: p)) as [t|] eqn:Es; [|discriminate]. injection H as <- <-. split; [constructor; cbn [yin ypend yej ycon youtq yhold yport]; [apply (cm_in _ CM)|apply (cm_pend _ CM)|apply (cm_ej _ CM)|apply (cm_con _ CM)|exact X2|discriminate|]|split; [exact OB|cbn; auto]].
        intros t' Q. injection Q as <-. destruct (show_kind _ _ _ Es) as [f' [r [Ef ->]]]. injection Ef as -> ->. pose proof (X1 _ eq_refl) as Y. inversion Y as [|? ? [_ Y1] _]; subst. exact Y1.
      * injection H as <- <-. split; [constructor; cbn [yin ypend yej ycon youtq yhold yport]; [apply (cm_in _ CM)|apply (cm_pend _ CM)|apply (cm_ej _ CM)|apply (cm_con _ CM)|exact X2|exact X1|discriminate]|split; [exact OB|cbn; auto]].
    + injection H as <- <-. split; [constructor; cbn [yin ypend yej ycon youtq yhold yport]; [apply (cm_in _ CM)|apply (cm_pend _ CM)|apply (cm_ej _ CM)|apply (cm_con _ CM)|exact X2|discriminate|discriminate]|split; [exact OB|cbn; auto]].
Qed.
Lemma calm_obs_app : forall a b, calm_obs a -> calm_obs b -> calm_obs (a ++ b).
Proof. intros a b H1 H2 x Hx. apply in_app_iff in Hx. destruct Hx; [apply H1|apply H2]; auto. Qed.
Lemma calm_threads : forall ev l s s' o, y_threads c ev l s = Some (s', o) -> calm s -> ypushc s v = 0 -> calm s' /\ calm_obs o /\ ypushc s' v = 0 /\
  (forall f, ypend s' = Some f -> ypend s = Some f \/ In f (arr o)) /\ (ypushn s' v = ypushn s v \/ exists f, (ypend s = Some f \/ In f (arr o)) /\ num (xf_type f) = v /\ xf_tail f = true).
Proof.
  intros ev l. induction l as [|t l IH]; intros s s' o H CM P0; cbn [y_threads] in H.
  - injection H as <- <-. split; auto. split; [intros x []|]. auto.
  - destruct (y_thread c ev t s) as [[s1 o1]|] eqn:E1; [|discriminate]. destruct (y_threads c ev l s1) as [[s2 o2]|] eqn:E2; [|discriminate]. injection H as <- <-.
    destruct (calm_thread _ _ _ _ _ E1 CM P0) as (A1 & A2 & A3 & A4 & A5). rewrite <- A3 in P0. destruct (IH _ _ _ E2 A1 P0) as (B1 & B2 & B3 & B4 & B5). rewrite arr_app.
    assert (W : forall f, ypend s1 = Some f \/ In f (arr o2) -> ypend s = Some f \/ In f (arr o1 ++ arr o2)).
    { intros f [Q|Q]; [destruct (A4 f Q); [auto|right; apply in_app_iff; auto]|right; apply in_app_iff; auto]. }
    split; auto. split; [apply calm_obs_app; auto|]. split; auto. split; [intros f Q; apply W, B4, Q|].
    destruct B5 as [B5|(f & F1 & F2)]; [|right; exists f; split; auto]. rewrite B5. destruct A5 as [A5|(f & F1 & F2)]; [auto|]. right. exists f. split; auto. destruct F1; [auto|right; apply in_app_iff; auto].
Qed.
(** An execution up to the instant after the last tail of the type that has not arrived. *)
Lemma calm_run : forall h x s o, y_run c h (y_init c x) = Some (s, o) -> Forall A x -> (forall f, In f (arr o) -> num (xf_type f) = v -> xf_tail f = false) ->
  calm s /\ calm_obs o /\ ypushc s v = 0 /\ ypushn s v = 0 /\ (forall f, ypend s = Some f -> In f (arr o)).
Proof.
  intros h x. induction h as [|ev h IH] using rev_ind; intros s o H FA NT.
  - cbn [y_run] in H. injection H as <- <-. split; [constructor; cbn; auto; try discriminate; intros u f []|]. split; [intros y []|]. cbn. split; auto. split; auto. discriminate.
  - rewrite y_run_snoc in H. destruct (y_run c h (y_init c x)) as [[s1 o1]|] eqn:E1; [|discriminate]. unfold y_step in H. destruct (y_threads c ev (y_ths ev) s1) as [[s2 o2]|] eqn:E2; [|discriminate]. injection H as <- <-.
    rewrite arr_app in NT. destruct (IH _ _ eq_refl FA) as (A1 & A2 & A3 & A4 & A5); [intros f Hf; apply NT; apply in_app_iff; auto|].
    destruct (calm_threads _ _ _ _ _ E2 A1 A3) as (B1 & B2 & B3 & B4 & B5).
    split; [constructor; cbn; apply B1|]. split; [apply calm_obs_app; auto|]. cbn [y_commit ypushc ypushn ypend]. assert (N : ypushn s2 v = 0).
    { destruct B5 as [->|(f & F1 & F2 & F3)]; [auto|]. rewrite (NT f) in F3; [discriminate| |auto]. apply in_app_iff. destruct F1; auto. }
    split; auto. split; auto. intros f Q. rewrite arr_app, in_app_iff. destruct (B4 f Q); auto.
Qed.
End Quiet.
Lemma y_thread_arr : forall c ev t s s' o, y_thread c ev t s = Some (s', o) -> arr o ++ yin s' = yin s.
Proof.
  intros c ev t s s' o H. destruct t; cbn [y_thread] in H.
  - unfold y_eject in H. destruct (ypend s) as [f|].
    + destruct (fifo_of_vc c (xf_vc f)); [|discriminate]. destruct (Nat.ltb _ _); injection H as <- <-; reflexivity.
    + destruct (y_avail ev); [destruct (yin s) as [|f r] eqn:Ei|].
      * injection H as <- <-. cbn. auto.
      * destruct (fifo_of_vc c (xf_vc f)); [|discriminate]. destruct (Nat.ltb _ _); injection H as <- <-; reflexivity.
      * injection H as <- <-. reflexivity.
  - unfold y_depack in H. destruct (if ydepk s then _ else _) as [|u r]; [discriminate|]. destruct (complete s u); [|injection H as <- <-; reflexivity].
    destruct (Nat.ltb _ _); [|injection H as <- <-; reflexivity]. destruct (yej s u) as [|f rest]; [discriminate|]. destruct (xf_tail f); [destruct (Nat.leb _ _); [|discriminate]|]; injection H as <- <-; reflexivity.
  - unfold y_out in H. cbv zeta in H. destruct (match yhold s, youtq s with None, p :: q => (Some p, q) | h, q => (h, q) end) as [h q].
    assert (X : arr match yport s with Some t => [YSeen t (y_rdy ev (chan_of t))] | None => [] end = []) by (destruct (yport s); reflexivity).
    destruct h as [[|f p]|]; [discriminate| |]; [destruct (_ && _)%bool; [destruct (show _ _); [|discriminate]|]|]; injection H as <- <-; rewrite X; reflexivity.
Qed.
Lemma y_run_arr : forall c h s s' o, y_run c h s = Some (s', o) -> arr o ++ yin s' = yin s.
Proof.
  assert (TH : forall c ev l s s' o, y_threads c ev l s = Some (s', o) -> arr o ++ yin s' = yin s).
  { intros c ev l. induction l as [|t l IH]; intros s s' o H; cbn [y_threads] in H; [injection H as <- <-; reflexivity|]. destruct (y_thread c ev t s) as [[s1 o1]|] eqn:E1; [|discriminate].
    destruct (y_threads c ev l s1) as [[s2 o2]|] eqn:E2; [|discriminate]. injection H as <- <-. rewrite arr_app, <- app_assoc, (IH _ _ _ E2). eapply y_thread_arr; eauto. }
  intros c h. induction h as [|ev h IH]; intros s s' o H; cbn [y_run] in H; [injection H as <- <-; reflexivity|]. unfold y_step in H. destruct (y_threads c ev (y_ths ev) s) as [[s1 o1]|] eqn:E1; [|discriminate].
  destruct (y_run c h (y_commit s1)) as [[s2 o2]|] eqn:E2; [|discriminate]. injection H as <- <-. rewrite arr_app, <- app_assoc, (IH _ _ _ E2). apply (TH _ _ _ _ _ _ E1).
Qed.
