(** Proofs about the input side of the AXI-MM adapters. *)
From Coq Require Import ZArith Bool List Lia.
From Verif Require Import Bits BitsProofs VcModel AddrModel AximmFormatModel AximmInModel AximmSpec AximmFormatProofs.
Import ListNotations.
Local Open Scope Z_scope.

Definition opt {A} (x : option A) : list A := match x with Some y => [y] | None => [] end.

(** Flits still inside of the adapter. *)
Definition waiting (s : xst) : list xflit := opt (itobe s) ++ injq s.

Lemma accs_app : forall a b, accs (a ++ b) = accs a ++ accs b.
Proof. intros. apply flat_map_app. Qed.
Lemma injs_app : forall a b, injs (a ++ b) = injs a ++ injs b.
Proof. intros. apply flat_map_app. Qed.

Lemma accs_map : forall l i, accs (map (fun x => Acc x i) l) = map (fun x => (x, i)) l.
Proof. induction l as [|x l IH]; intros i; [reflexivity|]. cbn. f_equal. apply IH. Qed.
Lemma injs_map : forall l i, injs (map (fun x => Acc x i) l) = [].
Proof. induction l as [|x l IH]; intros i; [reflexivity|]. apply IH. Qed.

Definition hast (t : xthread) (ts : list xthread) : bool :=
  existsb (fun u => match t, u with TNode, TNode | TAdapt, TAdapt | TNoc, TNoc => true | _, _ => false end) ts.

Lemma hast_cons : forall t u ts, hast t (u :: ts) =
  (match t, u with TNode, TNode | TAdapt, TAdapt | TNoc, TNoc => true | _, _ => false end) || hast t ts.
Proof. reflexivity. Qed.

Lemma hast_in : forall t ts, hast t ts = true <-> In t ts.
Proof.
  intros t ts. unfold hast. rewrite existsb_exists. split.
  - intros (u & H1 & H2). destruct t, u; try discriminate; assumption.
  - intros H. exists t. split; [assumption|]. destruct t; reflexivity.
Qed.

Lemma hast_notin : forall t ts, ~ In t ts -> hast t ts = false.
Proof. intros t ts H. destruct (hast t ts) eqn:E; [|reflexivity]. apply hast_in in E. contradiction. Qed.

(** What the threads of one instant do together. *)
Lemma threads_effect : forall c ev old ts s s' o, NoDup ts ->
  run_xthreads c ev old ts s = Some (s', o) ->
  nd s' = (if hast TNode ts then input_interface c ev old else nd s) /\
  accs o = (if hast TNode ts then map (fun x => (x, x_newid ev)) (handshakes c ev old) else []) /\
  rdy s' = rdy s /\ seen s' = seen s /\
  (if hast TAdapt ts
   then exists fs cy n aw, packetise c old = Some (fs, cy, n, aw) /\
          pcyc (ad s') = cy /\ nfl (ad s') = n /\ awdest (ad s') = aw /\
          injs o ++ waiting s' = waiting s ++ fs
   else ad s' = ad s /\ injs o ++ waiting s' = waiting s).
Proof.
  intros c ev old ts. induction ts as [|t ts IH]; intros s s' o Hnd Hr.
  - cbn in Hr. injection Hr as <- <-. cbn. repeat split; reflexivity.
  - cbn [run_xthreads] in Hr.
    destruct (run_xthread c ev old t s) as [[s1 o1]|] eqn:E1; [|discriminate].
    destruct (run_xthreads c ev old ts s1) as [[s2 o2]|] eqn:E2; [|discriminate].
    injection Hr as <- <-. apply NoDup_cons_iff in Hnd. destruct Hnd as [Hni Hnd].
    specialize (IH s1 s2 o2 Hnd E2). rewrite !hast_cons, accs_app, injs_app.
    destruct IH as (I1 & I2 & I3 & I4 & I5).
    destruct t; cbn [run_xthread] in E1.
    + injection E1 as <- <-. pose proof (hast_notin _ _ Hni) as Hn. rewrite Hn in I1, I2.
      cbn [nd ad rdy seen orb] in *. rewrite accs_map, injs_map, I2, app_nil_r, I3, I4.
      split; [exact I1|]. split; [reflexivity|]. split; [reflexivity|]. split; [reflexivity|].
      cbn [app]. exact I5.
    + destruct (packetise c old) as [[[[fs cy] n] aw]|] eqn:Ep; [|discriminate].
      injection E1 as <- <-. pose proof (hast_notin _ _ Hni) as Hn. rewrite Hn in I5.
      cbn [nd ad rdy seen orb] in *. rewrite I1, I2, I3, I4. 
      split; [reflexivity|]. split; [reflexivity|]. split; [reflexivity|]. split; [reflexivity|].
      destruct I5 as [Ia Iw]. exists fs, cy, n, aw. split; [reflexivity|].
      rewrite Ia. cbn [pcyc nfl awdest]. split; [reflexivity|]. split; [reflexivity|]. split; [reflexivity|].
      cbn [injs flat_map app]. change (injs o2) with (injs o2). 
      transitivity (injs o2 ++ waiting s2); [reflexivity|]. rewrite Iw. unfold waiting. cbn [itobe injq].
      rewrite app_assoc. reflexivity.
    + cbn [orb].
      assert (Hs1 : nd s1 = nd s /\ ad s1 = ad s /\ rdy s1 = rdy s /\ seen s1 = seen s /\ accs o1 = [] /\
                    injs o1 ++ waiting s1 = waiting s).
      { unfold waiting. destruct (itobe s) as [f|] eqn:Et.
        - destruct (x_can ev); injection E1 as <- <-; cbn; repeat split; reflexivity.
        - destruct (injq s) as [|f q] eqn:Eq.
          + injection E1 as <- <-; cbn. repeat split; reflexivity.
          + destruct (x_can ev); injection E1 as <- <-; cbn; repeat split; reflexivity. }
      destruct Hs1 as (S1 & S2 & S3 & S4 & S5 & S6).
      rewrite I1, I2, I3, I4, S1, S3, S4, S5.
      split; [reflexivity|]. split; [reflexivity|]. split; [reflexivity|]. split; [reflexivity|].
      destruct (hast TAdapt ts).
      * destruct I5 as (fs & cy & n & aw & P1 & P2 & P3 & P4 & P5).
        exists fs, cy, n, aw. repeat (split; [assumption|]).
        rewrite <- app_assoc, P5, app_assoc, S6. reflexivity.
      * destruct I5 as [P1 P2]. rewrite P1, S2. split; [reflexivity|].
        rewrite <- app_assoc, P2. exact S6.
Qed.

(** Length of the injection FIFO over one instant. *)
Lemma threads_len : forall c ev old ts s s' o, NoDup ts ->
  run_xthreads c ev old ts s = Some (s', o) ->
  if hast TAdapt ts
  then exists fs cy n aw, packetise c old = Some (fs, cy, n, aw) /\
         (length (injq s') <= length (injq s) + length fs)%nat /\
         (full (ad s') = false -> Z.of_nat (length (injq s')) + max_flits c <= xc_depth c)
  else (length (injq s') <= length (injq s))%nat.
Proof.
  intros c ev old ts. induction ts as [|t ts IH]; intros s s' o Hnd Hr.
  - cbn in Hr. injection Hr as <- <-. cbn. lia.
  - cbn [run_xthreads] in Hr.
    destruct (run_xthread c ev old t s) as [[s1 o1]|] eqn:E1; [|discriminate].
    destruct (run_xthreads c ev old ts s1) as [[s2 o2]|] eqn:E2; [|discriminate].
    injection Hr as <- <-. apply NoDup_cons_iff in Hnd. destruct Hnd as [Hni Hnd].
    specialize (IH s1 s2 o2 Hnd E2). rewrite !hast_cons.
    destruct t; cbn [run_xthread] in E1; cbn [orb].
    + injection E1 as <- <-. exact IH.
    + pose proof (threads_effect c ev old ts s1 s2 o2 Hnd E2) as TE.
      rewrite (hast_notin _ _ Hni) in IH, TE. destruct TE as (_ & _ & _ & _ & TE & _).
      destruct (packetise c old) as [[[[fs cy] n] aw]|] eqn:Ep; [|discriminate].
      injection E1 as <- <-. cbn [injq ad] in *. exists fs, cy, n, aw. split; [reflexivity|].
      rewrite app_length in IH. split; [exact IH|]. rewrite TE. cbn [full]. rewrite Z.ltb_ge, app_length. lia.
    + assert (Hl : (length (injq s1) <= length (injq s))%nat).
      { destruct (itobe s) as [f|]; [destruct (x_can ev); injection E1 as <- <-; cbn; lia|].
        destruct (injq s); [|destruct (x_can ev)]; injection E1 as <- <-; cbn; lia. }
      destruct (hast TAdapt ts).
      * destruct IH as (fs & cy & n & aw & P1 & P2 & P3). exists fs, cy, n, aw. repeat split; auto. lia.
      * lia.
Qed.

(** Whether a write burst is open after the transactions [l], and whether write data came
    only inside of bursts. *)
Definition openb (g : bool) (l : list (xtxn * Z)) : bool :=
  fold_left (fun g x => match fst x with XAW _ => true | XW w => negb (w_last w) | _ => g end) l g.

Fixpoint legal (g : bool) (l : list (xtxn * Z)) : Prop :=
  match l with
  | [] => True
  | (t, _) :: l' =>
    match t with
    | XAW _ => legal true l'
    | XW w => g = true /\ legal (negb (w_last w)) l'
    | _ => legal g l'
    end
  end.

Lemma openb_app : forall g a b, openb g (a ++ b) = openb (openb g a) b.
Proof. intros. unfold openb. apply fold_left_app. Qed.

Lemma legal_snoc : forall l g t i, legal g l -> ((exists w, t = XW w) -> openb g l = true) -> legal g (l ++ [(t, i)]).
Proof.
  induction l as [|[u j] l IH]; intros g t i H1 H2.
  - cbn in *. destruct t; auto. split; auto. apply H2. eauto.
  - cbn [app legal] in *. destruct u; try (apply IH; [exact H1|exact H2]).
    destruct H1 as [H1 H3]. split; [exact H1|]. apply IH; [exact H3|exact H2].
Qed.

Definition final_aw (c : xcfg) (aw : Z) (l : list (xtxn * Z)) : Z :=
  fold_left (fun a x => next_aw c a (fst x)) l aw.

Lemma packets_app : forall c l1 l2 aw,
  packets c aw (l1 ++ l2) = packets c aw l1 ++ packets c (final_aw c aw l1) l2.
Proof.
  intros c l1. induction l1 as [|[t i] l1 IH]; intros l2 aw; [reflexivity|].
  cbn [app packets]. rewrite IH, app_assoc. reflexivity.
Qed.

Lemma final_aw_app : forall c l1 l2 aw, final_aw c aw (l1 ++ l2) = final_aw c (final_aw c aw l1) l2.
Proof. intros. unfold final_aw. apply fold_left_app. Qed.

Section In.
Variable c : xcfg.
Hypothesis HC : good_xcfg c.

Lemma xpack_some : forall r, exists p, xpack (xc_w c) r = Some p.
Proof.
  intros r. destruct (gx_w c HC) as (H1 & H2 & _). unfold xpack.
  assert (E : (addrw + ctrlw + respw + x_userw (xc_w c) <? xpayloadw (xc_w c)) = true)
    by (apply Z.ltb_lt; unfold xpayloadw, addrw, ctrlw, respw; lia).
  rewrite E. destruct (i_type r); eexists; reflexivity.
Qed.

Lemma make_some : forall r, exists l, make_xflits c r = Some l.
Proof. intros r. unfold make_xflits. destruct (xpack_some r) as [p ->]. eexists; reflexivity. Qed.

Lemma packet_some : forall aw t sid, make_xflits c (capture_of c aw t sid) = Some (packet_of c aw t sid).
Proof. intros. unfold packet_of. destruct (make_some (capture_of c aw t sid)) as [l ->]. reflexivity. Qed.

Lemma cap_addr_stale : forall t h sid r0, t = AR \/ t = AW ->
  make_xflits c (cap_addr (xc_w c) t h sid r0) = make_xflits c (cap_addr (xc_w c) t h sid regs0).
Proof. intros t h sid r0 [Ht|Ht]; subst t; reflexivity. Qed.
Lemma cap_w_stale : forall x aw sid r0,
  make_xflits c (cap_w (xc_w c) x aw sid r0) = make_xflits c (cap_w (xc_w c) x aw sid regs0).
Proof. reflexivity. Qed.
Lemma cap_r_stale : forall x sid r0,
  make_xflits c (cap_r (xc_w c) x sid r0) = make_xflits c (cap_r (xc_w c) x sid regs0).
Proof. reflexivity. Qed.
Lemma cap_b_stale : forall x sid r0,
  make_xflits c (cap_b (xc_w c) x sid r0) = make_xflits c (cap_b (xc_w c) x sid regs0).
Proof. reflexivity. Qed.

(** The ready logic: never aborts, at most one channel, and only while the FSM rests. *)
Lemma eval_ok : forall k g se, exists a b w,
  eval_ready k g se = Some (a, b, w) /\
  (a = true -> b = false /\ w = false) /\ (b = true -> w = false) /\
  (se_cyc se <> 0 -> a = false /\ b = false /\ w = false) /\
  (w = true -> k = Slave /\ g = true) /\
  (forall v1 v2 v3, se_valid se = (v1, v2, v3) -> (a = true -> v1 = true) /\ (b = true -> v2 = true) /\ (w = true -> v3 = true)).
Proof.
  intros k g se. destruct (se_valid se) as [[v1 v2] v3] eqn:Ev.
  unfold eval_ready, ready_slave, ready_master. rewrite Ev.
  destruct k.
  - destruct (se_prio se =? 0); [|destruct (se_prio se =? 1)];
      destruct (se_full se), v1, v2, v3, g; cbn;
      do 3 eexists; (split; [reflexivity|]);
      destruct (Z.eqb_spec (se_cyc se) 0); cbn;
      repeat split; intros; try congruence; try (inversion H; subst); auto; try congruence; try contradiction.
  - destruct (se_prio se =? 0);
      destruct (se_full se), v1, v2; cbn;
      do 3 eexists; (split; [reflexivity|]);
      destruct (Z.eqb_spec (se_cyc se) 0); cbn;
      repeat split; intros; try congruence; try (inversion H; subst); auto; try congruence; try contradiction.
Qed.

(** [rdy] is what InputReady computes from [seen] and the present [_got_aw]. *)
Definition fresh (s : xst) : Prop :=
  match seen s with
  | None => True
  | Some se => eval_ready (xc_side c) (got (nd s)) se = Some (rdy s)
  end.

Lemma sens_eqb_eq : forall a b, sens_eqb a b = true -> a = b.
Proof.
  intros [f1 [[a1 a2] a3] p1 c1] [f2 [[b1 b2] b3] p2 c2]. unfold sens_eqb. cbn [se_full se_valid se_prio se_cyc].
  rewrite !andb_true_iff, !eqb_true_iff, !Z.eqb_eq. intros (((((-> & ->) & ->) & ->) & ->) & ->). reflexivity.
Qed.

Lemma settle_ok : forall ev s, exists s', settle c ev s = Some s' /\
  nd s' = nd s /\ ad s' = ad s /\ injq s' = injq s /\ itobe s' = itobe s /\
  seen s' = Some (sens_now c ev s) /\
  (fresh s \/ (exists se, seen s = Some se /\ se_cyc se <> pcyc (ad s)) -> fresh s').
Proof.
  intros ev s. unfold settle.
  destruct (eval_ok (xc_side c) (got (nd s)) (sens_now c ev s)) as (a & b & w & E & _).
  destruct (seen s) as [se|] eqn:Es.
  - destruct (sens_eqb se (sens_now c ev s)) eqn:Ee.
    + apply sens_eqb_eq in Ee. subst se. destruct (x_wake ev); cbn [andb negb].
      * rewrite E. eexists. split; [reflexivity|]. repeat (split; [reflexivity|]).
        intros _. exact E.
      * exists s. repeat (split; [reflexivity|]). split; [exact Es|].
        intros [H|(se & H1 & H2)]; [exact H|]. injection H1 as <-. exfalso. apply H2. reflexivity.
    + cbn [andb]. rewrite E. eexists. split; [reflexivity|]. repeat (split; [reflexivity|]). intros _. exact E.
  - cbn [andb]. rewrite E. eexists. split; [reflexivity|]. repeat (split; [reflexivity|]). intros _. exact E.
Qed.

(** The destination remembered for write data. *)
Lemma dest_node_of : forall a, 0 <= a < 2 ^ 64 ->
  dest_node (x_nodew (xc_w c)) a = node_of c a /\ 0 <= node_of c a < 2 ^ x_nodew (xc_w c).
Proof.
  intros a Ha. destruct (gx_node c HC) as [N1 N2]. unfold dest_node, node_of, addrw.
  assert (R : 0 <= a / 2 ^ (64 - x_nodew (xc_w c)) < 2 ^ x_nodew (xc_w c)).
  { split; [apply Z.div_pos; [lia|apply Z.pow_pos_nonneg; lia]|].
    apply Z.div_lt_upper_bound; [apply Z.pow_pos_nonneg; lia|].
    rewrite <- Z.pow_add_r by lia. replace (64 - x_nodew (xc_w c) + x_nodew (xc_w c)) with 64 by lia. lia. }
  split; [|exact R]. rewrite get_div_mod by lia.
  replace (64 - 1 - (64 - x_nodew (xc_w c)) + 1) with (x_nodew (xc_w c)) by lia. apply Z.mod_small. exact R.
Qed.

Lemma awdest_of : forall h sid r0, 0 <= h_addr h < 2 ^ 64 ->
  trunc (x_destw (xc_w c)) (dest_node (x_nodew (xc_w c))
     (trunc 64 (i_payload (cap_addr (xc_w c) AW h sid r0)))) = node_of c (h_addr h).
Proof.
  intros h sid r0 Hh. cbn [cap_addr i_payload].
  destruct (gx_w c HC) as (W1 & W2 & _). destruct (gx_node c HC) as [N1 N2]. pose proof (gx_dest c HC) as N3.
  assert (2 ^ 64 <= 2 ^ x_maxdw (xc_w c)) by (apply Z.pow_le_mono_r; lia).
  rewrite (trunc_small (x_maxdw (xc_w c))) by lia. rewrite (trunc_small 64) by lia.
  destruct (dest_node_of (h_addr h) Hh) as [-> R].
  apply trunc_small; [lia|]. 
  assert (2 ^ x_nodew (xc_w c) <= 2 ^ x_destw (xc_w c)) by (apply Z.pow_le_mono_r; lia). lia.
Qed.

(** A node clock edge accepts nothing, or captures the one transaction it accepts. *)
Lemma node_edge : forall ev s, fresh s -> seen s = Some (sens_now c ev s) -> ok_offers (x_off ev) ->
  (handshakes c ev s = [] /\
   input_interface c ev s = {| regs := regs (nd s); valid := false; got := got (nd s); iprio := iprio (nd s) |}) \/
  (exists t, handshakes c ev s = [t] /\ pcyc (ad s) = 0 /\ full (ad s) = false /\
     valid (input_interface c ev s) = true /\
     i_type (regs (input_interface c ev s)) = kind t /\
     make_xflits c (regs (input_interface c ev s)) = Some (packet_of c (awdest (ad s)) t (x_newid ev)) /\
     (forall h, t = XAW h -> 
        trunc (x_destw (xc_w c)) (dest_node (x_nodew (xc_w c))
          (trunc 64 (i_payload (regs (input_interface c ev s))))) = node_of c (h_addr h)) /\
     got (input_interface c ev s) = (match t with XAW _ => true | XW w => negb (w_last w) | _ => got (nd s) end) /\
     ((exists w, t = XW w) -> got (nd s) = true)).
Proof.
  intros ev s Hf Hs (HO1 & HO2). unfold fresh in Hf. rewrite Hs in Hf.
  destruct (eval_ok (xc_side c) (got (nd s)) (sens_now c ev s)) as (a & b & w & E & X1 & X2 & X3 & X4 & X5).
  rewrite E in Hf. injection Hf as Hf.
  assert (Hfull : (a = true \/ b = true \/ w = true) -> full (ad s) = false).
  { revert E. unfold eval_ready, ready_slave, ready_master. cbn [sens_now se_full se_prio se_valid se_cyc].
    destruct (valids (xc_side c) (x_off ev)) as [[v1 v2] v3]. destruct (full (ad s)); [|reflexivity].
    destruct (xc_side c); [destruct (iprio (nd s) =? 0); [|destruct (iprio (nd s) =? 1)]|destruct (iprio (nd s) =? 0)];
      cbn; intros E; injection E as <- <- <-; rewrite !andb_false_r; intros [?|[?|?]]; discriminate. }
  assert (Hz : (a = true \/ b = true \/ w = true) -> pcyc (ad s) = 0).
  { intros H. destruct (Z.eq_dec (pcyc (ad s)) 0) as [|N]; [assumption|].
    destruct (X3 N) as (-> & -> & ->). destruct H as [H|[H|H]]; discriminate. }
  unfold handshakes, input_interface. rewrite <- Hf. clear E X3.
  destruct (xc_side c) eqn:Ek.
  - (* slave *)
    destruct a.
    { destruct (X1 eq_refl) as [-> ->]. destruct (of_ar (x_off ev)) as [h|] eqn:Eo; cbn [app].
      - right. exists (XAR h). rewrite <- packet_some by assumption. cbn [valid regs got kind capture_of].
        split; [reflexivity|]. split; [auto|]. split; [auto|]. split; [reflexivity|]. split; [reflexivity|].
        split; [apply cap_addr_stale; auto|]. split; [intros; discriminate|]. split; [reflexivity|]. intros [? ?]; discriminate.
      - left. split; reflexivity. }
    destruct b.
    { try rewrite (X2 eq_refl). destruct (of_aw (x_off ev)) as [h|] eqn:Eo; cbn [app].
      - right. exists (XAW h). rewrite <- packet_some by assumption. cbn [valid regs got kind capture_of].
        split; [reflexivity|]. split; [auto|]. split; [auto|]. split; [reflexivity|]. split; [reflexivity|].
        split; [apply cap_addr_stale; auto|].
        split; [intros h' Hh'; injection Hh' as <-; apply awdest_of; auto|]. split; [reflexivity|]. intros [? ?]; discriminate.
      - left. split; reflexivity. }
    destruct w.
    { destruct (X4 eq_refl) as [_ Hg]. rewrite Hg. cbn [andb].
      destruct (of_w (x_off ev)) as [x|] eqn:Eo; cbn [app].
      - right. exists (XW x). rewrite <- packet_some by assumption. cbn [valid regs got kind capture_of].
        split; [reflexivity|]. split; [auto|]. split; [auto|]. split; [reflexivity|]. split; [reflexivity|].
        split; [apply cap_w_stale|]. split; [intros; discriminate|]. split; [reflexivity|]. auto.
      - left. split; reflexivity. }
    left. split; reflexivity.
  - destruct a.
    { destruct (X1 eq_refl) as [-> ->]. destruct (of_r (x_off ev)) as [h|] eqn:Eo; cbn [app].
      - right. exists (XR h). rewrite <- packet_some by assumption. cbn [valid regs got kind capture_of].
        split; [reflexivity|]. split; [auto|]. split; [auto|]. split; [reflexivity|]. split; [reflexivity|].
        split; [apply cap_r_stale|]. split; [intros; discriminate|]. split; [reflexivity|]. intros [? ?]; discriminate.
      - left. split; reflexivity. }
    destruct b.
    { try rewrite (X2 eq_refl). destruct (of_b (x_off ev)) as [h|] eqn:Eo; cbn [app].
      - right. exists (XB h). rewrite <- packet_some by assumption. cbn [valid regs got kind capture_of].
        split; [reflexivity|]. split; [auto|]. split; [auto|]. split; [reflexivity|]. split; [reflexivity|].
        split; [apply cap_b_stale|]. split; [intros; discriminate|]. split; [reflexivity|]. intros [? ?]; discriminate.
      - left. split; reflexivity. }
    left. split; reflexivity.
Qed.

(** The packetisation FSM. *)
Lemma limit_ok : forall n, 0 <= n <= 255 -> 1 <= limit c n <= 255 /\ xc_ratio c <= limit c n + 1 /\ n <= limit c n + 1.
Proof.
  intros n Hn. pose proof (gx_ratio c HC) as HR. unfold limit, u8.
  destruct (Z.leb_spec (xc_ratio c) n); rewrite Z.mod_small by lia; lia.
Qed.

Record Inv (clk : option Z) (s : xst) (A : list (xtxn * Z)) (I : list xflit) (P pend : list (xtxn * Z)) : Prop := {
  v_acc : A = P ++ pend;
  v_out : I ++ waiting s = packets c 0 P;
  v_aw : awdest (ad s) = final_aw c 0 P;
  v_nfl : 0 <= nfl (ad s) <= 255;
  v_fresh : fresh s \/ pend <> [] \/ (exists se, seen s = Some se /\ se_cyc se <> pcyc (ad s));
  v_cyc : 0 <= pcyc (ad s) <= limit c (nfl (ad s));
  v_pend : match pend with
           | [] => valid (nd s) = false \/
                   exists j, clk = Some j /\ 1 <= j /\
                     (pcyc (ad s) = j \/ (pcyc (ad s) = 0 /\ j = limit c (nfl (ad s)) + 1))
           | [(t, sid)] => valid (nd s) = true /\ clk = Some 0 /\ pcyc (ad s) = 0 /\
               i_type (regs (nd s)) = kind t /\
               make_xflits c (regs (nd s)) = Some (packet_of c (final_aw c 0 P) t sid) /\
               (forall h, t = XAW h ->
                 trunc (x_destw (xc_w c)) (dest_node (x_nodew (xc_w c))
                   (trunc 64 (i_payload (regs (nd s))))) = node_of c (h_addr h))
           | _ => False
           end;
  v_got : got (nd s) = openb false A;
  v_legal : legal false A;
  v_room : max_flits c <= xc_depth c ->
     Z.of_nat (length (injq s)) <= xc_depth c + 1 /\
     (full (ad s) = false \/ pend <> [] -> Z.of_nat (length (injq s)) + max_flits c <= xc_depth c)
}.

Lemma pack_len : forall aw t sid, Z.of_nat (length (packet_of c aw t sid)) <= max_flits c + 1.
Proof.
  intros aw t sid. unfold packet_of, make_xflits.
  destruct (xpack_some (capture_of c aw t sid)) as [p ->]. rewrite map_length, seq_length.
  set (k := i_type (capture_of c aw t sid)).
  destruct (gx_w c HC) as (W1 & W2 & W3 & _). pose proof (gx_dw c HC) as HD.
  assert (Hn : 0 <= xnum_flits (xc_w c) (xc_dw c) k).
  { unfold xnum_flits, flits_for, addrw, ctrlw, respw. destruct k; apply Z.div_pos; lia. }
  rewrite Z2Nat.id by lia. unfold max_flits, xnum_flits, flits_for, addrw, ctrlw, respw in *.
  set (m := if xc_dw c + 2 + 1 <? 64 + 13 then 64 + 13 else xc_dw c + 2 + 1).
  assert (Hm : 77 <= m /\ xc_dw c + 3 <= m) by (unfold m; destruct (Z.ltb_spec (xc_dw c + 2 + 1) (64 + 13)); lia).
  clearbody m.
  assert (G : forall x, x <= x_userw (xc_w c) + m ->
    (x + x_linkw (xc_w c) - 1) / x_linkw (xc_w c) <= (x_userw (xc_w c) + m) / x_linkw (xc_w c) + 1).
  { intros x Hx. transitivity ((x_userw (xc_w c) + m + x_linkw (xc_w c)) / x_linkw (xc_w c)).
    - apply Z.div_le_mono; lia.
    - replace (x_userw (xc_w c) + m + x_linkw (xc_w c)) with (x_userw (xc_w c) + m + 1 * x_linkw (xc_w c)) by lia.
      rewrite Z.div_add by lia. lia. }
  destruct k; apply G; lia.
Qed.

Lemma max_flits_nonneg : 0 <= max_flits c.
Proof.
  destruct (gx_w c HC) as (W1 & W2 & W3 & _). pose proof (gx_dw c HC) as HD.
  unfold max_flits, addrw, ctrlw, respw. apply Z.div_pos; [|lia].
  destruct (xc_dw c + 2 + 1 <? 64 + 13); lia.
Qed.

Lemma inv_init : Inv None x_init [] [] [] [].
Proof.
  pose proof (limit_ok 0 ltac:(lia)) as L.
  constructor; [reflexivity|reflexivity|reflexivity|cbn; lia|left; exact Logic.I|cbn [x_init ad pcyc nfl]; lia|left; reflexivity|reflexivity|exact Logic.I|].
  intros Hd. pose proof max_flits_nonneg. cbn [x_init injq length Z.of_nat]. split; [lia|]. intros _. lia.
Qed.

(** The FSM without a push. *)
Lemma fsm_idle : forall s, valid (nd s) && (pcyc (ad s) =? 0) = false -> 0 <= nfl (ad s) <= 255 ->
  0 <= pcyc (ad s) <= limit c (nfl (ad s)) ->
  exists cy, packetise c s = Some ([], cy, nfl (ad s), awdest (ad s)) /\ 0 <= cy <= limit c (nfl (ad s)) /\
    (pcyc (ad s) = 0 -> cy = 0) /\
    (pcyc (ad s) > 0 -> pcyc (ad s) < limit c (nfl (ad s)) -> cy = pcyc (ad s) + 1) /\
    (pcyc (ad s) = limit c (nfl (ad s)) -> cy = 0).
Proof.
  intros s Hv Hn Hc. unfold packetise. rewrite Hv. pose proof (limit_ok _ Hn) as (L1 & L2 & L3).
  destruct (Z.ltb_spec 0 (pcyc (ad s))).
  - destruct (Z.eqb_spec (pcyc (ad s)) (limit c (nfl (ad s)))) as [E|E].
    + exists 0. repeat split; try lia.
    + exists (pcyc (ad s) + 1). unfold u8. rewrite Z.mod_small by lia. repeat split; lia.
  - exists (pcyc (ad s)). repeat split; try lia.
Qed.

Definition next_clk (clk : option Z) (ev : xinstant) : option Z :=
  if has TNode ev then Some 0 else
  match clk with Some k => Some (k + (if has TAdapt ev then 1 else 0)) | None => None end.

Definition clk_ok (clk : option Z) (ev : xinstant) : Prop :=
  match clk with
  | None => True
  | Some k => k + (if has TAdapt ev then 1 else 0) <= xc_ratio c /\ (has TNode ev = true -> 1 <= k)
  end.

Lemma threads_some : forall ev old ts s, exists r, run_xthreads c ev old ts s = Some r.
Proof.
  intros ev old ts. induction ts as [|t ts IH]; intros s; [eexists; reflexivity|].
  cbn [run_xthreads].
  assert (exists r, run_xthread c ev old t s = Some r) as [[s1 o1] E].
  { destruct t; cbn [run_xthread].
    - eexists; reflexivity.
    - unfold packetise. destruct (valid (nd old) && (pcyc (ad old) =? 0)).
      + destruct (make_some (regs (nd old))) as [l ->]. eexists; reflexivity.
      + destruct (0 <? pcyc (ad old)); eexists; reflexivity.
    - destruct (itobe s) as [f|]; [destruct (x_can ev); eexists; reflexivity|].
      destruct (injq s); [|destruct (x_can ev)]; eexists; reflexivity. }
  rewrite E. destruct (IH s1) as [[s2 o2] ->]. eexists; reflexivity.
Qed.

Lemma step_some : forall s ev, exists r, x_step c s ev = Some r.
Proof.
  intros s ev. unfold x_step. destruct (settle_ok ev s) as (s' & -> & _). apply threads_some.
Qed.

Lemma inv_step : forall clk s A I P pend ev s' o,
  Inv clk s A I P pend -> ok_xinstant ev -> clk_ok clk ev -> x_step c s ev = Some (s', o) ->
  exists P' pend', Inv (next_clk clk ev) s' (A ++ accs o) (I ++ injs o) P' pend'.
Proof.
  intros clk s A I P pend ev s' o HI [Hnd Hoff] Hclk Hstep.
  unfold x_step in Hstep.
  destruct (settle_ok ev s) as (s1 & E1 & Snd & Sad & Sq & St & Sseen & Sfresh). rewrite E1 in Hstep.
  assert (Hw1 : waiting s1 = waiting s) by (unfold waiting; rewrite Sq, St; reflexivity).
  assert (Hnow : sens_now c ev s1 = sens_now c ev s) by (unfold sens_now; rewrite Snd, Sad; reflexivity).
  destruct (threads_effect c ev s1 (x_ths ev) s1 s' o Hnd Hstep) as (T1 & T2 & T3 & T4 & T5).
  change (hast TNode (x_ths ev)) with (has TNode ev) in *.
  change (hast TAdapt (x_ths ev)) with (has TAdapt ev) in *.
  destruct HI as [vA vO vW vN vF vC vP vG vL vR].
  pose proof (threads_len c ev s1 (x_ths ev) s1 s' o Hnd Hstep) as TL.
  change (hast TAdapt (x_ths ev)) with (has TAdapt ev) in TL. rewrite Sq in TL.
  pose proof (limit_ok _ vN) as (L1 & L2 & L3).
  unfold next_clk.
  destruct (has TNode ev) eqn:En.
  - (* a node edge: nothing is pending *)
    assert (pend = []) as Hp0.
    { destruct pend as [|[t i] [|? ?]]; [reflexivity| |contradiction].
      destruct vP as (_ & Hk & _). rewrite Hk in Hclk. cbn in Hclk. destruct Hclk as [_ Hk1]. specialize (Hk1 En). lia. }
    subst pend. rewrite app_nil_r in vA. subst A.
    assert (Hf1 : fresh s1) by (apply Sfresh; destruct vF as [?|[?|?]]; [left; assumption|congruence|right; assumption]).
    assert (Hnopush : has TAdapt ev = true -> valid (nd s1) && (pcyc (ad s1) =? 0) = false).
    { intros Ha. rewrite Snd, Sad. destruct vP as [V|(j & Hk & Hj & V)].
      - rewrite V. reflexivity.
      - rewrite Hk in Hclk. cbn in Hclk. rewrite Ha in Hclk. destruct Hclk as [Hk1 _].
        assert (Hpn : pcyc (ad s) <> 0) by (destruct V as [V|[_ V]]; lia).
        rewrite (proj2 (Z.eqb_neq _ _) Hpn), andb_false_r. reflexivity. }
    assert (Had : awdest (ad s') = awdest (ad s) /\ nfl (ad s') = nfl (ad s) /\
                  0 <= pcyc (ad s') <= limit c (nfl (ad s)) /\ (pcyc (ad s) = 0 -> pcyc (ad s') = 0) /\
                  injs o ++ waiting s' = waiting s).
    { destruct (has TAdapt ev) eqn:Ha.
      - destruct T5 as (fs & cy & n & aw & P1 & P2 & P3 & P4 & P5).
        destruct (fsm_idle s1 (Hnopush eq_refl)) as (cy' & F1 & F2 & F3 & _); rewrite ?Sad; auto.
        rewrite F1 in P1. injection P1 as <- <- <- <-. rewrite app_nil_r, Hw1 in P5.
        rewrite P2, P3, P4, Sad. rewrite Sad in F2, F3. auto.
      - destruct T5 as [P1 P2]. rewrite P1, Sad. rewrite Hw1 in P2. auto. }
    destruct Had as (D1 & D2 & D3 & D4 & D5).
    assert (Hroom : max_flits c <= xc_depth c -> Z.of_nat (length (injq s')) <= xc_depth c + 1 /\
       (length (injq s') <= length (injq s))%nat /\
       (full (ad s') = false -> Z.of_nat (length (injq s')) + max_flits c <= xc_depth c)).
    { intros Hd. specialize (vR Hd). destruct vR as [R1 R2].
      destruct (has TAdapt ev) eqn:Ha.
      - destruct TL as (fs & cy & n & aw & P1 & P2 & P3).
        destruct (fsm_idle s1 (Hnopush eq_refl)) as (cy' & F1 & _); rewrite ?Sad; auto.
        rewrite F1 in P1. injection P1 as <- <- <- <-. cbn [length] in P2. repeat split; auto; lia.
      - destruct T5 as [Q1 _]. rewrite Q1, Sad. repeat split; auto; try lia. intros Hff. specialize (R2 (or_introl Hff)). lia. }
    rewrite T2.
    destruct (node_edge ev s1 Hf1) as [(N1 & N2)|(t & N1 & N2 & Nf & N3 & N4 & N5 & N6 & N7 & N8)]; auto.
    { rewrite Sseen, Hnow. reflexivity. }
    + exists P, []. rewrite N1. cbn [map]. rewrite app_nil_r. constructor.
      * rewrite app_nil_r. reflexivity.
      * rewrite <- app_assoc, D5. exact vO.
      * congruence.
      * rewrite D2. exact vN.
      * left. unfold fresh in *. rewrite T3, T4, T1, N2. cbn [got]. exact Hf1.
      * rewrite D2. exact D3.
      * left. rewrite T1, N2. reflexivity.
      * rewrite T1, N2. cbn [got]. rewrite Snd. exact vG.
      * exact vL.
      * intros Hd. destruct (Hroom Hd) as (Q1 & Q2 & Q3). split; [exact Q1|].
        intros [Hx|Hx]; [auto|congruence].
    + exists P, [(t, x_newid ev)]. rewrite N1. cbn [map]. constructor.
      * reflexivity.
      * rewrite <- app_assoc, D5. exact vO.
      * congruence.
      * rewrite D2. exact vN.
      * right. left. discriminate.
      * rewrite D2. exact D3.
      * rewrite T1. rewrite <- vW, <- Sad. rewrite Sad in N2. split; [exact N3|]. split; [reflexivity|].
        split; [auto|]. split; [exact N4|]. split; [exact N5|exact N6].
      * rewrite T1, N7, openb_app, <- vG, Snd. destruct t; reflexivity.
      * apply legal_snoc; [exact vL|]. intros Hw. rewrite <- vG, <- Snd. auto.
      * intros Hd. destruct (Hroom Hd) as (Q1 & Q2 & Q3). split; [exact Q1|]. intros _.
        destruct (vR Hd) as [_ R2]. rewrite Sad in Nf. specialize (R2 (or_introl Nf)). lia.
  - (* no node edge *)
    rewrite T2, app_nil_r.
    destruct (has TAdapt ev) eqn:Ha.
    + destruct T5 as (fs & cy & n & aw & P1 & P2 & P3 & P4 & P5). rewrite Hw1 in P5.
      destruct pend as [|[t i] [|? ?]]; [| |contradiction].
      * assert (Hnp : valid (nd s1) && (pcyc (ad s1) =? 0) = false).
        { rewrite Snd, Sad. destruct vP as [V|(j & Hk & Hj & V)].
          - rewrite V. reflexivity.
          - rewrite Hk in Hclk. cbn in Hclk. rewrite Ha in Hclk. destruct Hclk as [Hk1 _].
            assert (Hpn : pcyc (ad s) <> 0) by (destruct V as [V|[_ V]]; lia).
            rewrite (proj2 (Z.eqb_neq _ _) Hpn), andb_false_r. reflexivity. }
        destruct (fsm_idle s1 Hnp) as (cy' & F1 & F2 & F3 & F4 & F5); rewrite ?Sad; auto.
        rewrite Sad in F2, F3, F4, F5. rewrite F1 in P1. injection P1 as <- <- <- <-. rewrite app_nil_r in P5.
        rewrite Sad in P3, P4.
        exists P, []. constructor; auto.
        -- rewrite <- app_assoc, P5. exact vO.
        -- congruence.
        -- rewrite P3. exact vN.
        -- left. assert (Hf1 : fresh s1) by (apply Sfresh; destruct vF as [?|[?|?]]; [left; assumption|congruence|right; assumption]).
           unfold fresh in *. rewrite T3, T4, T1. exact Hf1.
        -- rewrite P2, P3. exact F2.
        -- rewrite T1, Snd. destruct vP as [V|(j & Hk & Hj & V)]; [left; exact V|].
           right. subst clk. cbn in Hclk. rewrite Ha in Hclk. destruct Hclk as [Hk1 _].
           exists (j + 1). split; [reflexivity|]. split; [lia|]. rewrite P2, P3.
           assert (Ej : pcyc (ad s) = j) by (destruct V as [V|[_ V]]; [exact V|lia]).
           destruct (Z.eq_dec j (limit c (nfl (ad s)))) as [El|El].
           ++ right. split; [apply F5; lia|lia].
           ++ left. rewrite F4 by lia. lia.
        -- rewrite T1, Snd. exact vG.
        -- intros Hd. destruct (vR Hd) as [R1 R2].
           destruct TL as (fs' & cy2 & n2 & aw2 & Q1 & Q2 & Q3). rewrite F1 in Q1. injection Q1 as <- <- <- <-.
           cbn [length] in Q2. split; [lia|]. intros [Hx|Hx]; [auto|congruence].
      * destruct vP as (V1 & V2 & V3 & V4 & V5 & V6).
        pose proof P1 as P1'.
        unfold packetise in P1. rewrite Snd, Sad, V1, V3, V5, V4 in P1. cbn [andb Z.eqb] in P1.
        injection P1 as <- <- <- <-.
        assert (Hn : 0 <= u8 (xnum_flits (xc_w c) (xc_dw c) (kind t)) <= 255)
          by (unfold u8; pose proof (Z.mod_pos_bound (xnum_flits (xc_w c) (xc_dw c) (kind t)) 256); lia).
        pose proof (limit_ok _ Hn) as (M1 & M2 & M3).
        exists (P ++ [(t, i)]), []. constructor.
        -- rewrite app_nil_r. exact vA.
        -- rewrite packets_app. cbn [packets]. rewrite app_nil_r, <- vO, <- !app_assoc, P5. reflexivity.
        -- rewrite P4, final_aw_app. cbn [final_aw fold_left fst]. rewrite <- vW.
           destruct t; cbn [kind next_aw]; try reflexivity. apply V6. reflexivity.
        -- rewrite P3. exact Hn.
        -- right. right. rewrite T4, Sseen. eexists. split; [reflexivity|]. cbn [sens_now se_cyc]. rewrite P2, V3. discriminate.
        -- rewrite P2, P3. lia.
        -- right. exists 1. rewrite V2. split; [reflexivity|]. split; [lia|]. left. exact P2.
        -- rewrite T1, Snd. exact vG.
        -- exact vL.
        -- intros Hd. destruct (vR Hd) as [R1 R2].
           destruct TL as (fs' & cy2 & n2 & aw2 & Q1 & Q2 & Q3). rewrite P1' in Q1. injection Q1 as <- <- <- <-.
           assert (R3 : Z.of_nat (length (injq s)) + max_flits c <= xc_depth c) by (apply R2; right; discriminate). pose proof (pack_len (final_aw c 0 P) t i).
           split; [lia|]. intros [Hx|Hx]; [auto|congruence].
    + destruct T5 as [P1 P2]. rewrite Hw1 in P2.
      assert (Hclk' : match clk with Some k => Some (k + 0) | None => None end = clk) by (destruct clk; [f_equal; lia|reflexivity]).
      rewrite Hclk'. exists P, pend. constructor; auto.
      * rewrite <- app_assoc, P2. exact vO.
      * rewrite P1, Sad. exact vW.
      * rewrite P1, Sad. exact vN.
      * destruct vF as [vF|[vF|vF]].
        -- left. assert (Hf1 : fresh s1) by auto. unfold fresh in *. rewrite T3, T4, T1. exact Hf1.
        -- right. left. exact vF.
        -- left. assert (Hf1 : fresh s1) by auto. unfold fresh in *. rewrite T3, T4, T1. exact Hf1.
      * rewrite P1, Sad. exact vC.
      * rewrite T1, Snd, P1, Sad. exact vP.
      * rewrite T1, Snd. exact vG.
      * intros Hd. destruct (vR Hd) as [R1 R2]. rewrite P1, Sad. split; [lia|]. intros Hx. specialize (R2 Hx). lia.
Qed.

Fixpoint clk_run (clk : option Z) (evs : list xinstant) : option Z :=
  match evs with [] => clk | ev :: evs' => clk_run (next_clk clk ev) evs' end.

Lemma clocked_cons : forall clk ev evs, clocked (xc_ratio c) clk (ev :: evs) ->
  clk_ok clk ev /\ clocked (xc_ratio c) (next_clk clk ev) evs.
Proof.
  intros clk ev evs H. cbn [clocked] in H. unfold clk_ok, next_clk. destruct clk as [k|].
  - destruct H as [H1 H2]. destruct (has TNode ev).
    + destruct H2. repeat split; auto.
    + split; [|exact H2]. split; [exact H1|discriminate].
  - destruct (has TNode ev); auto.
Qed.

Lemma inv_run : forall evs clk s A I P pend s' o,
  Inv clk s A I P pend -> Forall ok_xinstant evs -> clocked (xc_ratio c) clk evs ->
  x_run c s evs = Some (s', o) ->
  exists P' pend', Inv (clk_run clk evs) s' (A ++ accs o) (I ++ injs o) P' pend'.
Proof.
  induction evs as [|ev evs IH]; intros clk s A I P pend s' o HI HF HK HR.
  - cbn in HR. injection HR as <- <-. cbn. rewrite !app_nil_r. eauto.
  - cbn [x_run] in HR. destruct (x_step c s ev) as [[s1 o1]|] eqn:E1; [|discriminate].
    destruct (x_run c s1 evs) as [[s2 o2]|] eqn:E2; [|discriminate]. injection HR as <- <-.
    apply Forall_cons_iff in HF. destruct HF as [HF1 HF2].
    destruct (clocked_cons _ _ _ HK) as [HK1 HK2].
    destruct (inv_step _ _ _ _ _ _ _ _ _ HI HF1 HK1 E1) as (P1 & pend1 & HI1).
    destruct (IH _ _ _ _ _ _ _ _ HI1 HF2 HK2 E2) as (P2 & pend2 & HI2).
    exists P2, pend2. rewrite accs_app, injs_app, !app_assoc. exact HI2.
Qed.

Lemma run_some : forall evs s, exists r, x_run c s evs = Some r.
Proof.
  induction evs as [|ev evs IH]; intros s; [eexists; reflexivity|].
  cbn [x_run]. destruct (step_some s ev) as [[s1 o1] ->]. destruct (IH s1) as [[s2 o2] ->]. eexists; reflexivity.
Qed.
End In.

Lemma clocked_exact : forall ratio evs st, 2 <= ratio -> match st with Some k => 0 <= k | None => True end ->
  clocked_exactly ratio st evs -> clocked ratio st evs.
Proof.
  intros ratio evs. induction evs as [|ev evs IH]; intros st HR Hst H; [exact I|].
  cbn [clocked clocked_exactly] in *. destruct st as [k|].
  - destruct (has TNode ev).
    + destruct H as [H1 H2]. split; [lia|]. split; [destruct (has TAdapt ev); lia|]. apply IH; auto. lia.
    + destruct H as [H1 H2]. split; [exact H1|]. apply IH; auto. destruct (has TAdapt ev); lia.
  - apply IH; auto. destruct (has TNode ev); auto. lia.
Qed.

Lemma clk_run_nonneg : forall evs clk, match clk with Some k => 0 <= k | None => True end ->
  match clk_run clk evs with Some k => 0 <= k | None => True end.
Proof.
  induction evs as [|ev evs IH]; intros clk H; [exact H|].
  cbn [clk_run]. apply IH. unfold next_clk. destruct (has TNode ev); [lia|]. destruct clk; auto.
  destruct (has TAdapt ev); lia.
Qed.

Lemma clk_run_app : forall a b clk, clk_run clk (a ++ b) = clk_run (clk_run clk a) b.
Proof. induction a as [|e a IH]; intros b clk; [reflexivity|]. cbn [app clk_run]. apply IH. Qed.

Lemma x_run_app : forall c a b s s' o, x_run c s (a ++ b) = Some (s', o) ->
  exists s1 o1 o2, x_run c s a = Some (s1, o1) /\ x_run c s1 b = Some (s', o2) /\ o = o1 ++ o2.
Proof.
  intros c a. induction a as [|e a IH]; intros b s s' o H.
  - exists s, [], o. auto.
  - cbn [app x_run] in *. destruct (x_step c s e) as [[s1 o1]|]; [|discriminate].
    destruct (x_run c s1 (a ++ b)) as [[s2 o2]|] eqn:E; [|discriminate]. injection H as <- <-.
    destruct (IH _ _ _ _ E) as (s3 & o3 & o4 & H1 & H2 & H3). subst o2.
    exists s3, (o1 ++ o3), o4. rewrite H1, app_assoc. auto.
Qed.

Lemma noc_run : forall c evs s s' o,
  Forall (fun ev => x_ths ev = [TNoc] /\ x_can ev = true) evs -> x_run c s evs = Some (s', o) ->
  (length (waiting s) <= length evs)%nat -> injs o = waiting s /\ waiting s' = [] /\ accs o = [].
Proof.
  intros c evs. induction evs as [|ev evs IH]; intros s s' o HF HR HL.
  - cbn in HR. injection HR as <- <-. cbn in *. destruct (waiting s); [auto|cbn in HL; lia].
  - apply Forall_cons_iff in HF. destruct HF as [[HT HCn] HF]. cbn [x_run] in HR.
    destruct (x_step c s ev) as [[s1 o1]|] eqn:E1; [|discriminate].
    destruct (x_run c s1 evs) as [[s2 o2]|] eqn:E2; [|discriminate]. injection HR as <- <-.
    unfold x_step in E1. destruct (settle_ok c ev s) as (s0 & E0 & _ & _ & Q & T & _). rewrite E0, HT in E1.
    cbn [run_xthreads run_xthread] in E1. rewrite HCn in E1. rewrite Q, T in E1.
    assert (Hw : waiting s1 = tl (waiting s) /\ injs o1 = firstn 1 (waiting s) /\ accs o1 = []).
    { unfold waiting at 2 3. destruct (itobe s) as [f|].
      - injection E1 as <- <-. auto.
      - destruct (injq s) as [|f q]; injection E1 as <- <-; auto. }
    destruct Hw as (W1 & W2 & W3).
    destruct (IH _ _ _ HF E2) as (I1 & I2 & I3).
    { rewrite W1. destruct (waiting s); cbn in *; lia. }
    rewrite accs_app, injs_app, W2, I1, W3, I3, I2, W1. split; [|auto].
    destruct (waiting s); reflexivity.
Qed.

Section In2.
Variable c : xcfg.
Hypothesis HC : good_xcfg c.

Lemma run_inv : forall evs s o, Forall ok_xinstant evs -> clocked (xc_ratio c) None evs ->
  x_run c x_init evs = Some (s, o) ->
  exists P pend, Inv c (clk_run None evs) s (accs o) (injs o) P pend.
Proof.
  intros evs s o HF HK HR.
  destruct (inv_run c HC evs None x_init [] [] [] [] s o (inv_init c HC) HF HK HR) as (P & pend & H).
  eauto.
Qed.

Lemma exactly_once : forall evs s o, Forall ok_xinstant evs -> clocked (xc_ratio c) None evs ->
  x_run c x_init evs = Some (s, o) -> exists late, injs o ++ late = packets c 0 (accs o).
Proof.
  intros evs s o HF HK HR. destruct (run_inv evs s o HF HK HR) as (P & pend & HI).
  exists (waiting s ++ packets c (final_aw c 0 P) pend).
  rewrite (v_acc _ _ _ _ _ _ _ HI), packets_app, <- (v_out _ _ _ _ _ _ _ HI), app_assoc. reflexivity.
Qed.

Lemma drained : forall evs a nocs s o, Forall ok_xinstant (evs ++ a :: nocs) ->
  clocked (xc_ratio c) None (evs ++ a :: nocs) ->
  x_ths a = [TAdapt] -> Forall (fun ev => x_ths ev = [TNoc] /\ x_can ev = true) nocs ->
  x_run c x_init (evs ++ a :: nocs) = Some (s, o) ->
  (length (packets c 0 (accs o)) <= length nocs)%nat ->
  injs o = packets c 0 (accs o).
Proof.
  intros evs a nocs s o HF HK HA HN HR HL.
  replace (evs ++ a :: nocs) with ((evs ++ [a]) ++ nocs) in * by (rewrite <- app_assoc; reflexivity).
  destruct (x_run_app _ _ _ _ _ _ HR) as (s1 & o1 & o2 & R1 & R2 & ->).
  assert (HK1 : clocked (xc_ratio c) None (evs ++ [a])).
  { revert HK. generalize (@None Z). generalize (evs ++ [a]). clear.
    induction l as [|e l IH]; intros st H; [exact I|]. cbn [app clocked] in *. destruct st as [k|].
    - destruct H as [H1 H2]. split; [exact H1|]. destruct (has TNode e).
      + destruct H2. split; auto.
      + auto.
    - auto. }
  apply Forall_app in HF. destruct HF as [HF1 HF2].
  destruct (run_inv _ _ _ HF1 HK1 R1) as (P & pend & HI).
  assert (Hp : pend = []).
  { pose proof (v_pend _ _ _ _ _ _ _ HI) as V. destruct pend as [|[t i] [|? ?]]; [reflexivity| |contradiction].
    destruct V as (_ & Hk & _). rewrite clk_run_app in Hk. cbn [clk_run] in Hk.
    pose proof (clk_run_nonneg evs None Logic.I) as Hn. unfold next_clk, has in Hk. rewrite HA in Hk. cbn in Hk.
    destruct (clk_run None evs) as [k|]; [|discriminate]. injection Hk as Hk. lia. }
  subst pend. pose proof (v_acc _ _ _ _ _ _ _ HI) as VA. rewrite app_nil_r in VA.
  pose proof (v_out _ _ _ _ _ _ _ HI) as VO. rewrite <- VA in VO.
  rewrite accs_app in HL |- *.
  assert (HL1 : (length (waiting s1) <= length nocs)%nat).
  { rewrite packets_app, app_length, <- VO, app_length in HL. lia. }
  destruct (noc_run _ _ _ _ _ HN R2 HL1) as (N1 & N2 & N3).
  rewrite injs_app, N1, N3, app_nil_r. exact VO.
Qed.

(** Shape of a packet. *)
Lemma dest_small : forall a, 0 <= a < 2 ^ 64 ->
  trunc (x_destw (xc_w c)) (dest_node (x_nodew (xc_w c)) a) = node_of c a.
Proof.
  intros a Ha. destruct (dest_node_of c HC a Ha) as [-> R]. destruct (gx_node c HC) as [N1 N2]. pose proof (gx_dest c HC) as N3.
  apply trunc_small; [lia|].
  assert (2 ^ x_nodew (xc_w c) <= 2 ^ x_destw (xc_w c)) by (apply Z.pow_le_mono_r; lia). lia.
Qed.

Lemma packet_shape : forall r p, xpack (xc_w c) r = Some p ->
  exists pk, make_xflits c r = Some pk /\
    is_packet c (i_type r) (xpid (xc_w c) r) (i_dest r) (xpayloads (xc_w c) (xc_dw c) (i_type r) p) pk.
Proof.
  intros r p Hp. unfold make_xflits. rewrite Hp. eexists. split; [reflexivity|].
  set (n := Z.to_nat (xnum_flits (xc_w c) (xc_dw c) (i_type r))).
  assert (Hn : (1 <= n)%nat).
  { unfold n. rewrite xnum_flits_want. destruct (gx_w c HC) as (W1 & W2 & W3 & _). pose proof (gx_dw c HC) as HD.
    destruct (flits_for_bounds (xc_w c) W1 (want (xc_w c) (xc_dw c) (i_type r))); [|lia].
    unfold want. destruct (i_type r); lia. }
  split; [|split].
  - destruct n; [lia|]. discriminate.
  - intros k f Hk. rewrite nth_error_map in Hk.
    destruct (nth_error (seq 0 n) k) as [j|] eqn:Ej; [|discriminate]. cbn in Hk. injection Hk as <-.
    assert (Hkn : (k < n)%nat) by (rewrite <- (seq_length n 0); apply nth_error_Some; congruence).
    assert (j = k) by (apply nth_error_nth with (d := O) in Ej; rewrite seq_nth in Ej by lia; lia). subst j.
    cbn [xf_head xf_tail xf_type xf_pid xf_dest xf_vc]. rewrite map_length, seq_length.
    repeat split.
    + destruct (Nat.eqb_spec k (n - 1)), (Nat.eqb_spec (S k) n); auto; lia.
    + unfold vcid_from_type. destruct (i_type r); reflexivity.
  - rewrite map_map. reflexivity.
Qed.

(** Destination of the data of a burst. *)
Lemma final_aw_last : forall l aw, final_aw c aw l =
  match rev (aws l) with h :: _ => node_of c (h_addr h) | [] => aw end.
Proof.
  induction l as [|[t i] l IH] using rev_ind; intros aw; [reflexivity|].
  rewrite final_aw_app. cbn [final_aw fold_left fst]. unfold aws. rewrite flat_map_app, rev_app_distr.
  cbn [flat_map fst]. destruct t; cbn [next_aw app rev]; try apply IH. reflexivity.
Qed.

Lemma packets_split : forall l aw i t sid, nth_error l i = Some (t, sid) ->
  packets c aw l = packets c aw (firstn i l) ++ packet_of c (final_aw c aw (firstn i l)) t sid ++
                   packets c (final_aw c aw (firstn (S i) l)) (skipn (S i) l).
Proof.
  intros l aw i t sid H.
  assert (E : l = firstn i l ++ (t, sid) :: skipn (S i) l).
  { rewrite <- (firstn_skipn i l) at 1. f_equal. revert l H. induction i as [|i IH]; intros l H.
    - destruct l; [discriminate|]. cbn in *. injection H as ->. reflexivity.
    - destruct l; [discriminate|]. cbn [nth_error skipn] in *. apply IH. exact H. }
  assert (E2 : firstn (S i) l = firstn i l ++ [(t, sid)]).
  { rewrite E at 1. rewrite firstn_app. assert (Hi : length (firstn i l) = i).
    { apply firstn_length_le. apply Nat.lt_le_incl, nth_error_Some. congruence. }
    rewrite Hi, firstn_all2 by lia. replace (S i - i)%nat with 1%nat by lia. reflexivity. }
  rewrite E2, final_aw_app. rewrite E at 1. rewrite packets_app. cbn [packets]. reflexivity.
Qed.

Lemma legal_open : forall l g i w sid, legal g l -> nth_error l i = Some (XW w, sid) -> openb g (firstn i l) = true.
Proof.
  induction l as [|[t j] l IH]; intros g i w sid HL Hn; [destruct i; discriminate|].
  destruct i as [|i].
  - cbn in Hn. injection Hn as -> ->. cbn in *. tauto.
  - cbn [nth_error firstn] in *. cbn [legal] in HL. unfold openb. cbn [fold_left fst].
    destruct t; try (eapply IH; eassumption). destruct HL as [_ HL]. eapply IH; eassumption.
Qed.

Lemma legal_firstn : forall l g i, legal g l -> legal g (firstn i l).
Proof.
  induction l as [|[t j] l IH]; intros g i H; [destruct i; exact I|].
  destruct i as [|i]; [exact I|]. cbn [firstn legal] in *. destruct t; auto. destruct H; auto.
Qed.

Lemma open_has_aw : forall l, legal false l -> openb false l = true -> aws l <> [].
Proof.
  intros l HL HO Habs.
  assert (G : forall l, aws l = [] -> legal false l -> openb false l = false).
  { clear. induction l as [|[t j] l IH]; intros Ha HL; [reflexivity|].
    unfold aws in Ha. cbn [flat_map fst] in Ha. apply app_eq_nil in Ha. destruct Ha as [H1 H2].
    cbn [legal] in HL. unfold openb. cbn [fold_left fst]. destruct t; try discriminate; try (apply IH; assumption).
    destruct HL; discriminate. }
  rewrite G in HO by assumption. discriminate.
Qed.

Lemma orderly_count : forall l g, legal g l -> orderly g l ->
  (length (aws l) + (if g then 1 else 0) = lasts l + (if openb g l then 1 else 0))%nat.
Proof.
  induction l as [|[t j] l IH]; intros g HL HO.
  - cbn. destruct g; reflexivity.
  - cbn [legal orderly] in *. unfold aws, lasts, openb in *. cbn [flat_map fst fold_left].
    destruct t; cbn [app length].
    + apply IH; auto.
    + destruct HO as [-> HO]. specialize (IH true HL HO). cbv beta iota in *. lia.
    + destruct HL as [-> HL]. specialize (IH (negb (w_last w)) HL HO). destruct (w_last w); cbn [negb app length] in *; lia.
    + apply IH; auto.
    + apply IH; auto.
Qed.

Lemma orderly_firstn : forall l g i, orderly g l -> orderly g (firstn i l).
Proof.
  induction l as [|[t j] l IH]; intros g i H; [destruct i; exact I|].
  destruct i as [|i]; [exact I|]. cbn [firstn orderly] in *. destruct t; auto. destruct H; auto.
Qed.

Lemma aws_firstn : forall l i, exists r, aws l = aws (firstn i l) ++ r.
Proof.
  intros l i. exists (aws (skipn i l)). unfold aws. rewrite <- flat_map_app, firstn_skipn. reflexivity.
Qed.

Lemma own_aw : forall l i w sid, legal false l -> orderly false l -> nth_error l i = Some (XW w, sid) ->
  exists h, nth_error (aws l) (lasts (firstn i l)) = Some h /\ final_aw c 0 (firstn i l) = node_of c (h_addr h).
Proof.
  intros l i w sid HL HO Hn.
  pose proof (legal_open _ _ _ _ _ HL Hn) as Hopen.
  pose proof (legal_firstn _ _ i HL) as HL1. pose proof (orderly_firstn _ _ i HO) as HO1.
  pose proof (orderly_count _ _ HL1 HO1) as HC1. rewrite Hopen in HC1.
  pose proof (open_has_aw _ HL1 Hopen) as Hne.
  rewrite final_aw_last. destruct (rev (aws (firstn i l))) as [|h r] eqn:Er.
  - exfalso. apply Hne. rewrite <- (rev_involutive (aws (firstn i l))), Er. reflexivity.
  - exists h. split; [|reflexivity].
    assert (Ea : aws (firstn i l) = rev r ++ [h]) by (rewrite <- (rev_involutive (aws (firstn i l))), Er; reflexivity).
    destruct (aws_firstn l i) as [q Eq]. rewrite Eq, Ea, <- app_assoc.
    rewrite Ea, app_length in HC1. cbn in HC1.
    rewrite nth_error_app2 by lia. replace (lasts (firstn i l) - length (rev r))%nat with 0%nat by lia. reflexivity.
Qed.
End In2.

Definition ok_txn (t : xtxn) : Prop :=
  match t with XAR h | XAW h => 0 <= h_addr h < 2 ^ 64 | _ => True end.

Lemma handshakes_ok : forall c ev s, ok_offers (x_off ev) -> Forall ok_txn (handshakes c ev s).
Proof.
  intros c ev s [H1 H2]. unfold handshakes. destruct (rdy s) as [[r1 r2] r3].
  destruct (xc_side c); repeat rewrite Forall_app; repeat split.
  - destruct r1; [|constructor]. destruct (of_ar (x_off ev)); repeat constructor; cbn; auto; apply H1; reflexivity.
  - destruct r2; [|constructor]. destruct (of_aw (x_off ev)); repeat constructor; cbn; auto; apply H2; reflexivity.
  - destruct r3; [|constructor]. destruct (of_w (x_off ev)); repeat constructor.
  - destruct r1; [|constructor]. destruct (of_r (x_off ev)); repeat constructor.
  - destruct r2; [|constructor]. destruct (of_b (x_off ev)); repeat constructor.
Qed.

Lemma accs_ok : forall c evs s s' o, Forall ok_xinstant evs -> x_run c s evs = Some (s', o) ->
  Forall (fun x => ok_txn (fst x)) (accs o).
Proof.
  intros c evs. induction evs as [|ev evs IH]; intros s s' o HF HR.
  - cbn in HR. injection HR as <- <-. constructor.
  - cbn [x_run] in HR. destruct (x_step c s ev) as [[s1 o1]|] eqn:E1; [|discriminate].
    destruct (x_run c s1 evs) as [[s2 o2]|] eqn:E2; [|discriminate]. injection HR as <- <-.
    apply Forall_cons_iff in HF. destruct HF as [[HN HO] HF].
    rewrite accs_app. apply Forall_app. split; [|eapply IH; eassumption].
    unfold x_step in E1. destruct (settle c ev s) as [s0|]; [|discriminate].
    destruct (threads_effect c ev s0 _ _ _ _ HN E1) as (_ & -> & _).
    destruct (hast TNode (x_ths ev)); [|constructor].
    rewrite Forall_map. cbn [fst]. apply handshakes_ok. exact HO.
Qed.

Lemma aws_ok : forall l h i, Forall (fun x => ok_txn (fst x)) l -> nth_error (aws l) i = Some h -> 0 <= h_addr h < 2 ^ 64.
Proof.
  intros l h i HF Hn. apply nth_error_In in Hn. unfold aws in Hn. apply in_flat_map in Hn.
  destruct Hn as ([t j] & H1 & H2). rewrite Forall_forall in HF. specialize (HF _ H1). cbn in *.
  destruct t; try contradiction. destruct H2 as [->|[]]. exact HF.
Qed.

Lemma packet_of_packet : forall c aw t sid, good_xcfg c ->
  exists p, xpack (xc_w c) (capture_of c aw t sid) = Some p /\
    is_packet c (kind t) (xpid (xc_w c) (capture_of c aw t sid)) (i_dest (capture_of c aw t sid))
      (xpayloads (xc_w c) (xc_dw c) (kind t) p) (packet_of c aw t sid).
Proof.
  intros c aw t sid HC. destruct (xpack_some c HC (capture_of c aw t sid)) as [p Ep].
  exists p. split; [exact Ep|]. destruct (packet_shape c HC _ _ Ep) as (pk & E1 & E2).
  unfold packet_of. rewrite E1. replace (kind t) with (i_type (capture_of c aw t sid)); [exact E2|].
  destruct t; reflexivity.
Qed.

Lemma packet_dest : forall c aw t sid f, good_xcfg c -> In f (packet_of c aw t sid) ->
  xf_dest f = i_dest (capture_of c aw t sid) /\ xf_type f = kind t.
Proof.
  intros c aw t sid f HC Hf. destruct (packet_of_packet c aw t sid HC) as (p & _ & _ & H & _).
  apply In_nth_error in Hf. destruct Hf as [k Hk]. destruct (H k f Hk) as (_ & _ & H1 & _ & H2 & _). auto.
Qed.

Lemma Forall_firstn' : forall (A : Type) (P : A -> Prop) n l, Forall P l -> Forall P (firstn n l).
Proof.
  intros A P n l H. rewrite <- (firstn_skipn n l) in H. apply Forall_app in H. tauto.
Qed.
Arguments Forall_firstn' {A P}.

Lemma trunc_node : forall c a, good_xcfg c -> 0 <= a < 2 ^ 64 -> trunc (x_destw (xc_w c)) (node_of c a) = node_of c a.
Proof.
  intros c a HC Ha. destruct (dest_node_of c HC a Ha) as [E R]. rewrite <- E at 1. apply dest_small; assumption.
Qed.

Lemma open_split : forall l, legal false l -> openb false l = true ->
  exists a h j b, l = a ++ (XAW h, j) :: b /\
    Forall (fun x => match fst x with XW w => w_last w = false | _ => True end) b.
Proof.
  induction l as [|[t i] l IH] using rev_ind; intros HL HO; [discriminate|].
  assert (HL1 : legal false l).
  { pose proof (legal_firstn _ _ (length l) HL) as H. rewrite firstn_app, Nat.sub_diag, firstn_all in H.
    cbn in H. rewrite app_nil_r in H. exact H. }
  unfold openb in HO. rewrite fold_left_app in HO. cbn [fold_left fst] in HO.
  assert (G : openb false l = true -> match t with XW w => w_last w = false | _ => True end ->
    exists a h j b, l ++ [(t, i)] = a ++ (XAW h, j) :: b /\
      Forall (fun x => match fst x with XW w => w_last w = false | _ => True end) b).
  { intros H1 H2. destruct (IH HL1 H1) as (a & h & j & b & -> & HF). exists a, h, j, (b ++ [(t, i)]). split.
    - rewrite <- app_assoc. reflexivity.
    - apply Forall_app. split; [exact HF|]. constructor; [exact H2|constructor]. }
  destruct t; try (apply G; [exact HO|exact I]).
  - exists l, h, i, []. split; [reflexivity|constructor].
  - apply G; [|destruct (w_last w); [discriminate|reflexivity]].
    pose proof (legal_open _ false (length l) w i HL) as H. rewrite firstn_app, Nat.sub_diag, firstn_all in H.
    cbn in H. rewrite app_nil_r in H. apply H. rewrite nth_error_app2, Nat.sub_diag by lia. reflexivity.
Qed.
