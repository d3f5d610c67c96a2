(** The engine against its instructions: the invariant of an execution. *)
From Coq Require Import ZArith Arith Bool List Lia.
From Verif Require Import StreamSpec MvmModel MvmSpec MvmProofs.
Import ListNotations.
Open Scope nat_scope.

Section Run.
Variable P : mparams.
Let n := m_dim P.
Let fsz := m_fifo P.
Variable prog : list inst.
Variable W : list (list vec).
Let depth := m_depth P.
Hypothesis F : fits P prog W.
Notation istep := (istep n depth prog W).
Notation runs := (runs n depth prog W).
Notation faulty := (faulty n depth prog W).
Notation flight := (flight P W).
Notation yield := (yield P W).

Definition vec_of (r : result) : vec := fst (fst r).
Definition layer_of (r : result) : Z := snd (fst r).
Definition mvm_of (r : result) : Z := snd r.
Definition res_of (s : rstage) : result := (r_res s, r_layer s, r_mvm s).
(** Results on their way to the output FIFO, the oldest first. *)
Definition due (s : rstage) : list result := if r_valid s then [res_of s] else [].
Fixpoint late (l : list rstage) : list result := match l with [] => [] | s :: r => late r ++ due s end.
Notation begun := (begun n).

Record inv (rx : list (Z * Z)) (out : list sent) (s : mstate) (k : nat) (os : list result) (st : istate) (D : list (nat * vec)) (O R Sd : list result) : Prop := {
  iv_run : runs (begun rx) k os st;
  iv_imem : g_imem (t_regs s) = prog; iv_pc : g_pc (t_regs s) = k_pc st;
  iv_ins : k_ins st = f_mem (g_ififo (t_regs s)) ++ pushed (g_iwen (t_regs s)) (g_iwdata (t_regs s));
  iv_reds : k_reds st = f_mem (g_rfifo (t_regs s)) ++ pushed (g_rwen (t_regs s)) (g_rwdata (t_regs s));
  iv_ilen : Forall (fun v => length v = n) (k_ins st); iv_rlen : Forall (fun v => length v = n) (k_reds st);
  iv_acc : kept_ok P D (g_accum (t_regs s));
  iv_fl : flight D (g_pipe (t_regs s)) (g_raddrs (t_regs s)) (k_kept st) O;
  iv_out : os = Sd ++ R ++ late (g_rpipe (t_regs s)) ++ O;
  iv_sent : out = map (as_sent (m_layer P)) Sd;
  iv_of : f_mem (g_ofifo (t_regs s)) = map vec_of R; iv_lf : f_mem (g_lfifo (t_regs s)) = map (fun r => [layer_of r]) R; iv_mf : f_mem (g_mfifo (t_regs s)) = map (fun r => [mvm_of r]) R;
  iv_fi : fifo_ok (fsz - 4) n (g_ififo (t_regs s)); iv_fr : fifo_ok (fsz - 4) n (g_rfifo (t_regs s));
  iv_fo : fifo_ok (ofull P) n (g_ofifo (t_regs s)); iv_fl1 : fifo_ok (ofull P) 1 (g_lfifo (t_regs s)); iv_fm : fifo_ok (ofull P) 1 (g_mfifo (t_regs s));
  iv_lpipe : length (g_pipe (t_regs s)) = m_rd P; iv_lrpipe : length (g_rpipe (t_regs s)) = m_comp P;
  iv_room : length R + length (late (g_rpipe (t_regs s))) + valids (g_pipe (t_regs s)) <= fsz - 4;
  iv_iroom : length (f_mem (g_ififo (t_regs s))) + length (pushed (g_iwen (t_regs s)) (g_iwdata (t_regs s))) <= fsz - 3;
  iv_rroom : length (f_mem (g_rfifo (t_regs s))) + length (pushed (g_rwen (t_regs s)) (g_rwdata (t_regs s))) <= fsz - 3;
  iv_mw : w_en (g_mw (t_regs s)) = None /\ w_addr (g_mw (t_regs s)) = 0; iv_wp : Forall (fun w => w_en w = None) (g_wpipe (t_regs s));
  iv_files : x_mem (t_files s) = W /\ x_rdata (t_files s) = map (fun m => nth (final 0 (g_raddrs (t_regs s))) m []) W;
  iv_wires : wires_ok P (t_regs s) (t_env s) (t_wires s) }.

(** ** Lists *)
Lemma last_split : forall A (d : A) l, l <> [] -> l = removelast l ++ [final d l].
Proof. intros. apply app_removelast_last. assumption. Qed.
Lemma late_app : forall a b, late (a ++ b) = late b ++ late a.
Proof. induction a as [|x a IH]; intros b; cbn; [rewrite app_nil_r; reflexivity|]. rewrite IH, app_assoc. reflexivity. Qed.
Lemma late_shift : forall x l, l <> [] -> due (final rstage0 l) ++ late (shift x l) = late l ++ due x.
Proof.
  intros x l H. rewrite (last_split _ rstage0 l H) at 3. rewrite late_app. cbn [late]. unfold shift. cbn [late]. rewrite !app_assoc. reflexivity.
Qed.
Lemma late_len : forall l, length (late l) <= length l.
Proof. induction l as [|x l IH]; cbn; [lia|]. rewrite app_length. unfold due. destruct (r_valid x); cbn; lia. Qed.
Lemma valids_shift : forall x l, l <> [] -> valids (shift x l) + (if s_valid (final stage0 l) then 1 else 0) = valids l + (if s_valid x then 1 else 0).
Proof.
  intros x l H. rewrite (last_split _ stage0 l H) at 3. unfold valids, shift. rewrite filter_app, app_length. cbn. destruct (s_valid x), (s_valid (final stage0 l)); cbn; lia.
Qed.
Lemma valids_len : forall l, valids l <= length l.
Proof. unfold valids. induction l as [|x l IH]; cbn; [lia|]. destruct (s_valid x); cbn; lia. Qed.
Lemma shift_len : forall A (x : A) l, l <> [] -> length (shift x l) = length l.
Proof. intros A x l H. rewrite (last_split _ x l H) at 2. rewrite app_length. cbn. lia. Qed.
Lemma shift_snoc : forall A (d x : A) l, l <> [] -> shift x l ++ [final d l] = x :: l.
Proof. intros. unfold shift. cbn. rewrite <- last_split by assumption. reflexivity. Qed.
Lemma some_len : forall A (l : list A) m, length l = m -> 0 < m -> l <> [].
Proof. intros A [|] m H H2; cbn in H; [lia|discriminate]. Qed.

(** ** Results of instructions *)
Definition proper (r : result) : Prop := length (vec_of r) = n /\ (-16 <= layer_of r < 16)%Z.
Lemma istep_proper : forall s s' o, istep s = Go s' o -> Forall proper o.
Proof.
  intros s s' o H. unfold MvmSpec.istep in H. destruct (nth_error prog (k_pc s)) as [i|] eqn:E; [|discriminate].
  destruct (depth <=? i_raddr i); [discriminate|]. destruct (negb (i_en i)); [discriminate|]. destruct (i_jump i); [injection H as <- <-; constructor|].
  destruct (k_ins s) as [|x xs]; [discriminate|]. destruct (if i_reduce i then _ else _) as [[r q]|]; [|discriminate]. destruct (depth <=? i_accum i); [discriminate|].
  apply nth_error_In in E. pose proof (f_inst _ _ _ F) as FI. rewrite Forall_forall in FI. apply FI in E as [E _].
  assert (Forall proper (if i_release i then [(product n W (i_raddr i) x r (if i_accum_en i then slot (i_accum i) (k_kept s) else None), i_layer i, i_mvm i)] else [])).
  { destruct (i_release i); [|constructor]. constructor; [|constructor]. split; [|exact E]. cbn. unfold product. rewrite map_length, seq_length. reflexivity. }
  destruct (i_accum_en i); [destruct (slot (i_accum i) (k_kept s)); [|discriminate]|]; injection H as _ <-; assumption.
Qed.
Lemma runs_proper : forall s k os s', runs s k os s' -> Forall proper os.
Proof. induction 1; [constructor|]. apply Forall_app. split; [assumption|]. eapply istep_proper. eassumption. Qed.

(** ** What is received *)
Lemma vectors_app : forall m k a b, vectors m k (a ++ b) = vectors m k a ++ vectors m k b.
Proof. intros. unfold vectors. rewrite filter_app, map_app. reflexivity. Qed.
Lemma vectors_event : forall k s, vectors n k (rx_event s) = pushed (takes (t_wires s) (t_env s) k) (lanes n (e_tdata (t_env s))).
Proof.
  intros k s. unfold rx_event, takes, pushed. destruct (rx_taken (t_wires s) (t_env s)); [|reflexivity]. unfold vectors, kind. rewrite kind_spec. cbn [filter andb].
  rewrite (of_kind_fst k (e_tuser (t_env s)) (e_tdata (t_env s))). destruct (of_kind k (e_tuser (t_env s), 0%Z)); [|reflexivity]. cbn. rewrite lanes_words. reflexivity.
Qed.
Lemma begun_app : forall rx a, begun (rx ++ a) = more (begun rx) (vectors n 3 a) (vectors n 2 a).
Proof. intros. unfold MvmSpec.begun, start, more. cbn. rewrite !vectors_app. reflexivity. Qed.

(** ** One instruction is issued, or none *)
(** It has to wait for a FIFO. *)
Definition blocked (s : mstate) : Prop := i_jump (c_inst (t_wires s)) = false /\
  (f_empty (g_ififo (t_regs s)) = true \/ (f_empty (g_rfifo (t_regs s)) = true /\ i_reduce (c_inst (t_wires s)) = true) \/ f_afull (g_ofifo (t_regs s)) = true).
Lemma issue_ok : forall rx out s k os st D O R Sd, inv rx out s k os st D O R Sd -> istep st <> Fault ->
  let g := t_regs s in let c := t_wires s in
  exists st1 o, (istep st = Go st1 o \/ (st1 = st /\ o = []) /\ (istep st = Wait \/ blocked s)) /\
    next_pc g c = k_pc st1 /\
    popped (c_iren c) (f_mem (g_ififo g)) ++ pushed (g_iwen g) (g_iwdata g) = k_ins st1 /\ (c_iren c = true -> f_mem (g_ififo g) <> []) /\
    popped (c_rren c) (f_mem (g_rfifo g)) ++ pushed (g_rwen g) (g_rwdata g) = k_reds st1 /\ (c_rren c = true -> f_mem (g_rfifo g) <> []) /\
    c_raddr c < depth /\
    flight D (issue P g c :: g_pipe g) (c_raddr c :: g_raddrs g) (k_kept st1) (O ++ o) /\
    (s_valid (issue P g c) = true -> length R < ofull P) /\ (istep st = Go st1 o -> s_valid (issue P g c) = false -> o = []).
Proof.
  intros rx out s k os st D O R Sd I NF g c. subst g c. set (g := t_regs s). set (c := t_wires s). pose proof (iv_wires _ _ _ _ _ _ _ _ _ _ I) as V. fold g c in V.
  pose proof (iv_fi _ _ _ _ _ _ _ _ _ _ I) as FI. pose proof (iv_fr _ _ _ _ _ _ _ _ _ _ I) as FR. pose proof (iv_fo _ _ _ _ _ _ _ _ _ _ I) as FO. fold g in FI, FR, FO.
  pose proof (iv_ins _ _ _ _ _ _ _ _ _ _ I) as IN. pose proof (iv_reds _ _ _ _ _ _ _ _ _ _ I) as RD. fold g in IN, RD.
  pose proof (iv_fl _ _ _ _ _ _ _ _ _ _ I) as FL. fold g in FL. pose proof (iv_of _ _ _ _ _ _ _ _ _ _ I) as OFE. fold g in OFE.
  pose proof (wo_inst _ _ _ _ V) as E. unfold g in E at 1 2. rewrite (iv_imem _ _ _ _ _ _ _ _ _ _ I), (iv_pc _ _ _ _ _ _ _ _ _ _ I) in E.
  set (i := c_inst c) in *.
  assert (IS := eq_refl (istep st)). unfold MvmSpec.istep in IS at 2. rewrite E in IS.
  assert (RA : c_raddr c < depth). { rewrite (wo_raddr _ _ _ _ V). fold i. destruct (Nat.leb_spec depth (i_raddr i)); [congruence|assumption]. }
  destruct (Nat.leb_spec depth (i_raddr i)) as [L|L]; [congruence|].
  unfold next_pc, issue. rewrite (wo_iren _ _ _ _ V), (wo_rren _ _ _ _ V), (wo_dot _ _ _ _ V), (wo_dotr _ _ _ _ V). fold i.
  assert (IDLE : can_dotr g i = false -> can_dot g i = false -> forall K O, flight D (g_pipe g) (g_raddrs g) K O ->
     flight D ((let s := hd stage0 (g_pipe g) in {| s_in := s_in s; s_red := s_red s; s_valid := false; s_accum := s_accum s; s_accum_en := s_accum_en s; s_release := s_release s; s_layer := s_layer s; s_mvm := s_mvm s |}) :: g_pipe g) (c_raddr c :: g_raddrs g) K O).
  { intros _ _ K O' H. apply fl_idle; auto. }
  destruct (can_dotr g i) eqn:CR; [|destruct (can_dot g i) eqn:CD].
  - pose proof CR as CR'. unfold can_dotr in CR. repeat rewrite andb_true_iff in CR. destruct CR as [[[[[A1 A2] A3] A4] A5] A6]. apply negb_true_iff in A1, A2, A3, A5.
    rewrite A4, A5, A6 in IS. cbn [negb] in IS. pose proof A1 as A1'. pose proof A2 as A2'. rewrite (fo_empty _ _ _ FI) in A1. rewrite (fo_empty _ _ _ FR) in A2.
    destruct (f_mem (g_ififo g)) as [|x xs] eqn:MI; [discriminate|]. destruct (f_mem (g_rfifo g)) as [|r q] eqn:MR; [discriminate|].
    pose proof (fo_rdata _ _ _ FI) as FI1. rewrite MI in FI1. pose proof (fo_rdata _ _ _ FR) as FR1. rewrite MR in FR1.
    rewrite IN, RD in IS. cbn [app] in IS. destruct (Nat.leb_spec depth (i_accum i)) as [LA|LA]; [congruence|].
    pose proof (iv_ilen _ _ _ _ _ _ _ _ _ _ I) as IL. rewrite IN in IL. cbn [app] in IL. inversion_clear IL as [|? ? IL1 _].
    pose proof (iv_rlen _ _ _ _ _ _ _ _ _ _ I) as RL. rewrite RD in RL. cbn [app] in RL. inversion_clear RL as [|? ? RL1 _].
    assert (G : exists s1 o, istep st = Go s1 o /\ k_pc s1 = S (k_pc st) /\ k_ins s1 = (if i_last i then xs ++ pushed (g_iwen g) (g_iwdata g) else x :: xs ++ pushed (g_iwen g) (g_iwdata g)) /\ k_reds s1 = q ++ pushed (g_rwen g) (g_rwdata g) /\
       k_kept s1 = (i_accum i, product n W (i_raddr i) x r (if i_accum_en i then slot (i_accum i) (k_kept st) else None)) :: k_kept st /\
       o = (if i_release i then [(product n W (i_raddr i) x r (if i_accum_en i then slot (i_accum i) (k_kept st) else None), i_layer i, i_mvm i)] else []) /\ (i_accum_en i = true -> slot (i_accum i) (k_kept st) <> None)).
    { destruct (i_accum_en i); [destruct (slot (i_accum i) (k_kept st)) eqn:SL; [|congruence]|]; eexists; eexists; (split; [exact IS|]); cbn; repeat split; try congruence; try reflexivity. }
    destruct G as [s1 [o [GO [G1 [G2 [G3 [G4 [G5 G6]]]]]]]]. exists s1, o. split; [left; exact GO|]. cbn [orb andb]. rewrite G1, G2, G3, G4, G5.
    split; [rewrite <- (iv_pc _ _ _ _ _ _ _ _ _ _ I); fold g; lia|]. split; [unfold popped; destruct (i_last i); reflexivity|]. split; [discriminate|]. split; [reflexivity|]. split; [discriminate|]. split; [exact RA|]. split.
    { pose proof (wo_raddr _ _ _ _ V) as RAE. fold i in RAE.
      epose proof (fl_op P W D {| s_in := f_rdata (g_ififo g); s_red := f_rdata (g_rfifo g); s_valid := true; s_accum := i_accum i; s_accum_en := i_accum_en i; s_release := i_release i; s_layer := i_layer i; s_mvm := i_mvm i |} _ (c_raddr c) _ _ _ FL) as FF.
      cbn [s_in s_red s_valid s_accum s_accum_en s_release s_layer s_mvm] in FF. unfold MvmProofs.yield in FF. cbn [s_in s_red s_valid s_accum s_accum_en s_release s_layer s_mvm] in FF. rewrite FI1, FR1 in FF |- *. rewrite RAE in FF at 1. rewrite RAE in FF |- *.
      apply FF; auto. }
    split; [intros _; rewrite (fo_afull _ _ _ FO) in A3; rewrite OFE, map_length in A3; apply Nat.leb_gt; exact A3|]. cbn. discriminate.
  - pose proof CD as CD'. unfold can_dot in CD. repeat rewrite andb_true_iff in CD. destruct CD as [[[[A1 A3] A4] A5] A6]. apply negb_true_iff in A1, A3, A5, A6.
    rewrite A4, A5, A6 in IS. cbn [negb] in IS. rewrite (fo_empty _ _ _ FI) in A1.
    destruct (f_mem (g_ififo g)) as [|x xs] eqn:MI; [discriminate|].
    pose proof (fo_rdata _ _ _ FI) as FI1. rewrite MI in FI1.
    rewrite IN in IS. cbn [app] in IS. destruct (Nat.leb_spec depth (i_accum i)) as [LA|LA]; [congruence|].
    pose proof (iv_ilen _ _ _ _ _ _ _ _ _ _ I) as IL. rewrite IN in IL. cbn [app] in IL. inversion_clear IL as [|? ? IL1 _].
    assert (G : exists s1 o, istep st = Go s1 o /\ k_pc s1 = S (k_pc st) /\ k_ins s1 = (if i_last i then xs ++ pushed (g_iwen g) (g_iwdata g) else x :: xs ++ pushed (g_iwen g) (g_iwdata g)) /\ k_reds s1 = k_reds st /\
       k_kept s1 = (i_accum i, product n W (i_raddr i) x (repeat 0%Z n) (if i_accum_en i then slot (i_accum i) (k_kept st) else None)) :: k_kept st /\
       o = (if i_release i then [(product n W (i_raddr i) x (repeat 0%Z n) (if i_accum_en i then slot (i_accum i) (k_kept st) else None), i_layer i, i_mvm i)] else []) /\ (i_accum_en i = true -> slot (i_accum i) (k_kept st) <> None)).
    { destruct (i_accum_en i); [destruct (slot (i_accum i) (k_kept st)) eqn:SL; [|congruence]|]; eexists; eexists; (split; [exact IS|]); cbn; repeat split; try congruence; try reflexivity. }
    destruct G as [s1 [o [GO [G1 [G2 [G3 [G4 [G5 G6]]]]]]]]. exists s1, o. split; [left; exact GO|]. cbn [orb andb]. rewrite G1, G2, G3, G4, G5.
    split; [rewrite <- (iv_pc _ _ _ _ _ _ _ _ _ _ I); fold g; lia|]. split; [unfold popped; destruct (i_last i); reflexivity|]. split; [discriminate|]. split; [cbn; congruence|]. split; [discriminate|]. split; [exact RA|]. split.
    { pose proof (wo_raddr _ _ _ _ V) as RAE. fold i in RAE.
      epose proof (fl_op P W D {| s_in := f_rdata (g_ififo g); s_red := repeat 0%Z n; s_valid := true; s_accum := i_accum i; s_accum_en := i_accum_en i; s_release := i_release i; s_layer := i_layer i; s_mvm := i_mvm i |} _ (c_raddr c) _ _ _ FL) as FF.
      cbn [s_in s_red s_valid s_accum s_accum_en s_release s_layer s_mvm] in FF. unfold MvmProofs.yield in FF. cbn [s_in s_red s_valid s_accum s_accum_en s_release s_layer s_mvm] in FF. rewrite FI1 in FF |- *. rewrite RAE in FF |- *.
      apply FF; auto. apply repeat_length. }
    split; [intros _; rewrite (fo_afull _ _ _ FO) in A3; rewrite OFE, map_length in A3; apply Nat.leb_gt; exact A3|]. cbn. discriminate.
  - specialize (IDLE eq_refl eq_refl _ _ FL). cbn [orb andb]. destruct (i_en i && i_jump i) eqn:J.
    + apply andb_true_iff in J as [J1 J2]. rewrite J1, J2 in IS. cbn [negb] in IS. eexists. exists []. split; [left; exact IS|]. cbn [k_pc k_ins k_reds k_kept popped]. rewrite app_nil_r.
      split; [reflexivity|]. split; [congruence|]. split; [discriminate|]. split; [congruence|]. split; [discriminate|]. split; [exact RA|]. split; [exact IDLE|]. split; [cbn; discriminate|reflexivity].
    + exists st, []. rewrite app_nil_r. cbn [popped]. split; [|split; [apply (iv_pc _ _ _ _ _ _ _ _ _ _ I)|]; split; [congruence|]; split; [discriminate|]; split; [congruence|]; split; [discriminate|]; split; [exact RA|]; split; [exact IDLE|]; split; [cbn; discriminate|reflexivity]].
      right. split; [split; reflexivity|]. destruct (i_en i) eqn:EN; [|left; exact IS]. cbn [negb andb] in IS, J. rewrite J in IS. unfold can_dotr, can_dot in CR, CD. rewrite EN, J in CR, CD. cbn [negb] in CR, CD. rewrite !andb_true_r in CR, CD.
      right. unfold blocked. fold g c i. split; [exact J|]. destruct (f_empty (g_ififo g)); [auto|]. destruct (f_afull (g_ofifo g)); [auto|]. cbn [negb andb] in CR, CD. destruct (i_reduce i); [|discriminate]. destruct (f_empty (g_rfifo g)); [auto|discriminate].
Qed.

(** ** Register files: only read *)
Lemma final_nth : forall (l : list nat) m, length l = m -> 0 < m -> nth (m - 1) l 0 = final 0 l.
Proof.
  intros l m L H. pose proof (some_len _ _ _ L H) as N. rewrite (last_split _ 0 l N) at 1. assert (length (removelast l) = m - 1).
  { rewrite (last_split _ 0 l N) in L. rewrite app_length in L. cbn in L. lia. }
  rewrite app_nth2 by lia. replace (m - 1 - length (removelast l)) with 0 by lia. reflexivity.
Qed.
Lemma files_ok : forall g g', w_en (final wstage0 (g_wpipe g')) = None -> w_en (final wstage0 (g_wpipe g)) = None -> length (g_raddrs g) = m_rd P -> length (g_raddrs g') = m_rd P -> final 0 (g_raddrs g') < depth ->
  forall ms d, (forall m, In m ms -> length m = depth) ->
  files_settle P g g' d ms (map (fun m => nth (final 0 (g_raddrs g)) m []) ms) = Some (ms, map (fun m => nth (final 0 (g_raddrs g')) m []) ms).
Proof.
  intros g g' N1 N2 L1 L2 B ms. induction ms as [|m ms IH]; intros d H; [reflexivity|]. cbn [files_settle map]. rewrite IH by (intros; apply H; right; assumption).
  assert (E : file_settle P g g' d m (nth (final 0 (g_raddrs g)) m []) = Some (m, nth (final 0 (g_raddrs g')) m [])).
  { unfold file_settle. destruct (file_woken P g g' d) eqn:FW.
    - unfold file_assign. destruct (nth_error m (final 0 (g_raddrs g'))) as [row|] eqn:E; [|apply nth_error_None in E; rewrite H in E by (left; reflexivity); lia].
      rewrite (nth_error_nth _ _ [] E). unfold writes. rewrite N1. reflexivity.
    - unfold file_woken in FW. apply negb_false_iff in FW. apply andb_true_iff in FW as [_ FW]. apply Nat.eqb_eq in FW.
      rewrite (f_wr _ _ _ F) in FW. rewrite !final_nth in FW; try assumption; try (apply (f_rd _ _ _ F)). rewrite FW. reflexivity. }
  rewrite E. reflexivity.
Qed.

Lemma final_forall : forall A (Q : A -> Prop) d l, Q d -> Forall Q l -> Q (final d l).
Proof.
  intros A Q d l Hd H. destruct l as [|x l]; [exact Hd|]. unfold final. rewrite Forall_forall in H. apply H. destruct (exists_last (l := x :: l)) as [l' [y E]]; [discriminate|]. rewrite E, last_last. apply in_or_app. right. left. reflexivity.
Qed.
Lemma shift_forall : forall A (Q : A -> Prop) x l, Q x -> Forall Q l -> Forall Q (shift x l).
Proof.
  intros A Q x l Hx H. unfold shift. constructor; [exact Hx|]. destruct l as [|y l]; [constructor|]. rewrite (last_split _ y (y :: l)) in H by discriminate. apply Forall_app in H. tauto.
Qed.

(** ** One cycle *)
Lemma as_sent_ok : forall v l m, (-16 <= l < 16)%Z -> (bus v, (tx_kind P l * 2 ^ 13)%Z, (l, m)) = as_sent (m_layer P) (v, l, m).
Proof.
  intros v l m H. unfold as_sent, tx_kind. rewrite bus_packed. do 3 f_equal. pose proof (f_layer _ _ _ F) as B.
  assert (E : ((l - 1) mod 2 ^ 32 =? Z.of_nat (m_layer P))%Z = (l =? Z.of_nat (m_layer P) + 1)%Z); [|rewrite E; reflexivity].
  destruct (Z.leb_spec 1 l).
  - rewrite Z.mod_small by lia. destruct (Z.eqb_spec (l - 1) (Z.of_nat (m_layer P))), (Z.eqb_spec l (Z.of_nat (m_layer P) + 1)); try reflexivity; lia.
  - rewrite <- (Z.mod_unique_pos (l - 1) (2 ^ 32) (-1) (l - 1 + 2 ^ 32)) by lia.
    destruct (Z.eqb_spec (l - 1 + 2 ^ 32) (Z.of_nat (m_layer P))), (Z.eqb_spec l (Z.of_nat (m_layer P) + 1)); try reflexivity; lia.
Qed.

Lemma map_tl : forall A B (f : A -> B) l, map f (tl l) = tl (map f l).
Proof. destruct l; reflexivity. Qed.

Definition clean (rx : list (Z * Z)) : Prop := forall k os st, runs (begun rx) k os st -> ~ Exists (null n) os.

Lemma faulty_less : forall rx a, ~ faulty (begun (rx ++ a)) -> ~ faulty (begun rx).
Proof. intros rx a H G. apply H. rewrite begun_app. apply faulty_more, G. Qed.
Lemma clean_less : forall rx a, clean (rx ++ a) -> clean rx.
Proof. intros rx a H k os st R. apply (H k os (more st (vectors n 3 a) (vectors n 2 a))). rewrite begun_app. apply runs_more, R. Qed.
Lemma nofault : forall rx k os st, ~ faulty (begun rx) -> runs (begun rx) k os st -> istep st <> Fault.
Proof. intros rx k os st H R E. apply H. exists k, os, st. auto. Qed.

Lemma tx_ok : forall rx out s k os st D O R Sd, inv rx out s k os st D O R Sd ->
  c_tvalid (t_wires s) = negb (f_empty (g_ofifo (t_regs s))) /\ (c_oren (t_wires s) = true -> R <> []) /\
  tx_event s = map (as_sent (m_layer P)) (if c_oren (t_wires s) then firstn 1 R else []).
Proof.
  intros rx out s k os st D O R Sd I. pose proof (iv_wires _ _ _ _ _ _ _ _ _ _ I) as V. pose proof (iv_fo _ _ _ _ _ _ _ _ _ _ I) as FO.
  pose proof (iv_fl1 _ _ _ _ _ _ _ _ _ _ I) as FL. pose proof (iv_fm _ _ _ _ _ _ _ _ _ _ I) as FM.
  pose proof (iv_of _ _ _ _ _ _ _ _ _ _ I) as OF. pose proof (iv_lf _ _ _ _ _ _ _ _ _ _ I) as LF. pose proof (iv_mf _ _ _ _ _ _ _ _ _ _ I) as MF.
  pose proof (runs_proper _ _ _ _ (iv_run _ _ _ _ _ _ _ _ _ _ I)) as PR. rewrite (iv_out _ _ _ _ _ _ _ _ _ _ I) in PR. apply Forall_app in PR as [_ PR]. apply Forall_app in PR as [PR _].
  assert (TV : c_tvalid (t_wires s) = negb (f_empty (g_ofifo (t_regs s)))).
  { rewrite (wo_tvalid _ _ _ _ V), (fo_empty _ _ _ FO). pose proof (fo_rdata _ _ _ FO) as RDT. rewrite OF in RDT |- *. destruct R as [|r R]; cbn [map] in *; [rewrite andb_false_r; reflexivity|].
    rewrite RDT. inversion_clear PR as [|? ? [PR1 _] _]. rewrite PR1. pose proof (f_dim _ _ _ F). fold n in H. destruct n; [lia|reflexivity]. }
  split; [exact TV|]. rewrite (wo_oren _ _ _ _ V). split.
  - intros H. apply andb_true_iff in H as [H _]. rewrite TV, (fo_empty _ _ _ FO), OF in H. intros ->. discriminate.
  - unfold tx_event. destruct (c_tvalid (t_wires s) && e_ready (t_env s)) eqn:E; [|reflexivity]. apply andb_true_iff in E as [E _].
    destruct (wo_tx _ _ _ _ V E) as [T1 [T2 T3]]. rewrite T1, T2, T3. rewrite TV, (fo_empty _ _ _ FO) in E. pose proof (fo_rdata _ _ _ FO) as A. pose proof (fo_rdata _ _ _ FL) as B. pose proof (fo_rdata _ _ _ FM) as C.
    rewrite OF in A, E. rewrite LF in B. rewrite MF in C. unfold tx_dest. destruct R as [|[[v l] m] R]; [discriminate|]. cbn [map] in A, B, C. rewrite A, B, C. cbn [hd fst vec_of layer_of mvm_of snd firstn map].
    inversion_clear PR as [|? ? [_ PR1] _]. rewrite <- as_sent_ok by exact PR1. reflexivity.
Qed.



Lemma step_ok : forall rx out s e' k os st D O R Sd, inv rx out s k os st D O R Sd -> data_only (t_env s) -> ~ faulty (begun (rx ++ rx_event s)) -> clean (rx ++ rx_event s) ->
  exists s' k' st1 o, cycle P s e' = Some s' /\ t_env s' = e' /\
  (istep st = Go st1 o /\ k' = S k \/ (st1 = st /\ o = []) /\ k' = k /\ (istep st = Wait \/ blocked s)) /\
  exists D' O' R', inv (rx ++ rx_event s) (out ++ tx_event s) s' k' (os ++ o) (more st1 (vectors n 3 (rx_event s)) (vectors n 2 (rx_event s))) D' O' R' (Sd ++ if c_oren (t_wires s) then firstn 1 R else []).
Proof.
  intros rx out s e' k os st D O R Sd I DO NF CL. pose proof (nofault _ _ _ _ (faulty_less _ _ NF) (iv_run _ _ _ _ _ _ _ _ _ _ I)) as NF1.
  destruct (issue_ok _ _ _ _ _ _ _ _ _ _ I NF1) as [st1 [o [J1 [J3 [J4 [J5 [J6 [J7 [J8 [J9 [J10 J11]]]]]]]]]]].
  destruct (tx_ok _ _ _ _ _ _ _ _ _ _ I) as [TV [TR TE]].
  set (g := t_regs s) in *. set (c := t_wires s) in *. set (e := t_env s) in *.
  pose proof (iv_wires _ _ _ _ _ _ _ _ _ _ I) as V. fold g c e in V.
  destruct F as [F1 F2 F3 F4 F5 F6 F7 F8 F9 F10 F11] eqn:EF. clear EF.
  assert (NP : g_pipe g <> []) by (eapply some_len; [apply (iv_lpipe _ _ _ _ _ _ _ _ _ _ I)|assumption]).
  assert (NRP : g_rpipe g <> []) by (eapply some_len; [apply (iv_lrpipe _ _ _ _ _ _ _ _ _ _ I)|assumption]).
  pose proof (flight_len _ _ _ _ _ _ _ (iv_fl _ _ _ _ _ _ _ _ _ _ I)) as FLL. fold g in FLL.
  assert (NRA : g_raddrs g <> []) by (intros Z; rewrite Z in FLL; destruct (g_pipe g); [congruence|discriminate]).
  pose proof (iv_room _ _ _ _ _ _ _ _ _ _ I) as RM. fold g in RM.
  (* compute *)
  set (sl := final stage0 (g_pipe g)). set (al := final 0 (g_raddrs g)).
  assert (FE : flight D (shift (issue P g c) (g_pipe g) ++ [sl]) (shift (c_raddr c) (g_raddrs g) ++ [al]) (k_kept st1) (O ++ o)) by (unfold sl, al; rewrite !shift_snoc by assumption; exact J9).
  apply flight_end in FE; [|rewrite !shift_len by assumption; exact FLL].
  destruct (iv_files _ _ _ _ _ _ _ _ _ _ I) as [XM XR]. fold g al in XR.
  assert (CO : exists res accum' D' O', compute P sl (g_accum g) (x_rdata (t_files s)) = Some (res, accum') /\ kept_ok P D' accum' /\ flight D' (shift (issue P g c) (g_pipe g)) (shift (c_raddr c) (g_raddrs g)) (k_kept st1) O' /\
     due (hand_on sl res (g_rpipe g)) ++ O' = O ++ o /\ (s_valid sl = false -> due (hand_on sl res (g_rpipe g)) = [])).
  { rewrite XR. pose proof (iv_acc _ _ _ _ _ _ _ _ _ _ I) as AC. fold g in AC. destruct FE as [[A1 [A2 A3]]|[A1 [A2 [A3 [A4 [A5 [A6 [O' [A7 A8]]]]]]]]].
    - exists None, (g_accum g), D, (O ++ o). unfold compute. rewrite A1. unfold due, hand_on. cbn. rewrite A1. cbn. auto.
    - destruct (compute_ok P prog W F sl al D (g_accum g) A1 A2 A3 A4 A5 A6 AC) as [B1 B2]. eexists. eexists. exists ((s_accum sl, yield al sl D) :: D), O'. split; [exact B1|]. split; [exact B2|]. split; [exact A8|].
      split; [|intros X; congruence]. rewrite A7. unfold due, hand_on, res_of. cbn. rewrite A1. cbn. destruct (s_release sl); reflexivity. }
  destruct CO as [res [accum' [D' [O' [C1 [C2 [C3 [C4 C5]]]]]]]].
  set (rs := hand_on sl res (g_rpipe g)) in *.
  (* FIFOs *)
  pose proof (iv_iroom _ _ _ _ _ _ _ _ _ _ I) as IR. pose proof (iv_rroom _ _ _ _ _ _ _ _ _ _ I) as RR. fold g in IR, RR.
  assert (PL : forall b (q : list vec), length (popped b q) <= length q) by (intros [] []; cbn; lia).
  destruct (fifo_tick_ok P (m_fifo P) (m_fifo P - 4) n (c_iren c) (g_iwen g) (g_iwdata g) (g_ififo g)) as [fi [FI1 [FI2 [FI3 _]]]]; [exact J5| |].
  { intros X. rewrite X in IR. cbn in IR. specialize (PL (c_iren c) (f_mem (g_ififo g))). fold fsz. fold fsz in F5. lia. }
  destruct (fifo_tick_ok P (m_fifo P) (m_fifo P - 4) n (c_rren c) (g_rwen g) (g_rwdata g) (g_rfifo g)) as [fr [FR1 [FR2 [FR3 _]]]]; [exact J7| |].
  { intros X. rewrite X in RR. cbn in RR. specialize (PL (c_rren c) (f_mem (g_rfifo g))). fold fsz. fold fsz in F5. lia. }
  pose proof (iv_of _ _ _ _ _ _ _ _ _ _ I) as OF. pose proof (iv_lf _ _ _ _ _ _ _ _ _ _ I) as LF. pose proof (iv_mf _ _ _ _ _ _ _ _ _ _ I) as MF. fold g in OF, LF, MF.
  assert (LW : c_owen c = true -> length R < fsz).
  { rewrite (wo_owen _ _ _ _ V). intros X. fold fsz in F5. assert (1 <= length (late (g_rpipe g))); [|lia].
    rewrite (last_split _ rstage0 _ NRP), late_app, app_length. cbn [late]. unfold due. rewrite X. cbn. lia. }
  destruct (fifo_tick_ok P (m_fifo P) (ofull P) n (c_oren c) (c_owen c) (c_owdata c) (g_ofifo g)) as [fo [FO1 [FO2 [FO3 FO4]]]].
  { intros X. rewrite OF. specialize (TR X). destruct R; [congruence|discriminate]. }
  { intros X. specialize (PL (c_oren c) (f_mem (g_ofifo g))). rewrite OF, map_length in PL. rewrite OF. specialize (LW X). fold fsz. lia. }
  destruct (fifo_tick_ok P (m_fifo P) (ofull P) 1 (c_oren c) (c_owen c) (c_lwdata c) (g_lfifo g)) as [fl [FL1 [FL2 [FL3 FL4]]]].
  { intros X. rewrite LF. specialize (TR X). destruct R; [congruence|discriminate]. }
  { intros X. specialize (PL (c_oren c) (f_mem (g_lfifo g))). rewrite LF, map_length in PL. rewrite LF. specialize (LW X). fold fsz. lia. }
  destruct (fifo_tick_ok P (m_fifo P) (ofull P) 1 (c_oren c) (c_owen c) (c_mwdata c) (g_mfifo g)) as [fm [FM1 [FM2 [FM3 FM4]]]].
  { intros X. rewrite MF. specialize (TR X). destruct R; [congruence|discriminate]. }
  { intros X. specialize (PL (c_oren c) (f_mem (g_mfifo g))). rewrite MF, map_length in PL. rewrite MF. specialize (LW X). fold fsz. lia. }
  set (R' := (if c_oren c then tl R else R) ++ due (final rstage0 (g_rpipe g))).
  assert (OF' : f_mem fo = map vec_of R' /\ f_mem fl = map (fun r => [layer_of r]) R' /\ f_mem fm = map (fun r => [mvm_of r]) R').
  { rewrite FO3, FL3, FM3, OF, LF, MF. rewrite (wo_owen _ _ _ _ V), (wo_owdata _ _ _ _ V), (wo_lwdata _ _ _ _ V), (wo_mwdata _ _ _ _ V). unfold R', popped, pushed, due.
    destruct (c_oren c), (r_valid (final rstage0 (g_rpipe g))); rewrite !map_app, ?map_tl; cbn; auto. }
  destruct OF' as [OF' [LF' MF']].
  (* the edge *)
  destruct (iv_mw _ _ _ _ _ _ _ _ _ _ I) as [MW1 MW2]. fold g in MW1, MW2.
  assert (T1 : takes c e 1 = false). { unfold takes, kind. rewrite kind_spec, <- (of_kind_fst 1 (e_tuser e) (e_tdata e)). destruct DO as [DO1 DO4]. rewrite DO1. apply andb_false_r. }
  assert (T4 : takes c e 4 = false). { unfold takes, kind. rewrite kind_spec, <- (of_kind_fst 4 (e_tuser e) (e_tdata e)). destruct DO as [DO1 DO4]. rewrite DO4. apply andb_false_r. }
  set (g' := {| g_imem := g_imem g; g_pc := next_pc g c; g_accum := accum'; g_ififo := fi; g_rfifo := fr; g_ofifo := fo; g_lfifo := fl; g_mfifo := fm;
                g_iwen := takes c e 3; g_iwdata := if takes c e 3 then lanes n (e_tdata e) else g_iwdata g;
                g_rwen := takes c e 2; g_rwdata := if takes c e 2 then lanes n (e_tdata e) else g_rwdata g;
                g_pipe := shift (issue P g c) (g_pipe g); g_rpipe := shift rs (g_rpipe g);
                g_mw := matrix_write P c e (g_mw g);
                g_raddrs := shift (c_raddr c) (g_raddrs g); g_wpipe := shift (g_mw g) (g_wpipe g) |}).
  assert (TK : tick P g c (t_files s) e = Some g').
  { unfold tick. fold sl. rewrite C1. unfold imem_write. rewrite T1. fold n. rewrite FI1, FR1, FO1, FL1, FM1. rewrite MW2. fold depth.
    replace (c_raddr c <? depth) with true by (symmetry; apply Nat.ltb_lt; exact J8). replace (0 <? depth) with true by (symmetry; apply Nat.ltb_lt; exact F7). reflexivity. }
  assert (WP' : Forall (fun w => w_en w = None) (g_wpipe g')) by (apply shift_forall; [exact MW1|apply (iv_wp _ _ _ _ _ _ _ _ _ _ I)]).
  assert (LRA' : length (g_raddrs g') = m_rd P). { cbn [g_raddrs g']. rewrite shift_len by assumption. rewrite <- FLL. apply (iv_lpipe _ _ _ _ _ _ _ _ _ _ I). }
  assert (LRA : length (g_raddrs g) = m_rd P). { rewrite <- FLL. apply (iv_lpipe _ _ _ _ _ _ _ _ _ _ I). }
  assert (FS : files_settle P g g' 0 W (x_rdata (t_files s)) = Some (W, map (fun m => nth (final 0 (g_raddrs g')) m []) W)).
  { rewrite XR. apply files_ok; try assumption.
    - apply final_forall; [reflexivity|exact WP'].
    - apply final_forall; [reflexivity|apply (iv_wp _ _ _ _ _ _ _ _ _ _ I)].
    - apply (final_forall _ (fun a => a < depth)); [exact F7|]. eapply flight_raddr. exact C3.
    - rewrite Forall_forall in F11. intros m Hm. apply F11, Hm. }
  (* the instructions *)
  set (st' := more st1 (vectors n 3 (rx_event s)) (vectors n 2 (rx_event s))).
  assert (EV3 : vectors n 3 (rx_event s) = pushed (g_iwen g') (g_iwdata g')). { rewrite vectors_event. fold c e. cbn [g_iwen g_iwdata g']. destruct (takes c e 3); reflexivity. }
  assert (EV2 : vectors n 2 (rx_event s) = pushed (g_rwen g') (g_rwdata g')). { rewrite vectors_event. fold c e. cbn [g_rwen g_rwdata g']. destruct (takes c e 2); reflexivity. }
  assert (RUN : exists k', runs (begun (rx ++ rx_event s)) k' (os ++ o) st' /\ (istep st = Go st1 o /\ k' = S k \/ (st1 = st /\ o = []) /\ k' = k /\ (istep st = Wait \/ blocked s))).
  { pose proof (runs_more P prog W _ (vectors n 3 (rx_event s)) (vectors n 2 (rx_event s)) _ _ _ (iv_run _ _ _ _ _ _ _ _ _ _ I)) as RM1. fold n depth in RM1. rewrite <- begun_app in RM1.
    destruct J1 as [J1|[[-> ->] J2]].
    - exists (S k). split; [|auto]. econstructor; [exact RM1|]. pose proof (istep_more P prog W st (vectors n 3 (rx_event s)) (vectors n 2 (rx_event s))) as IM. fold n depth in IM. rewrite IM by congruence. rewrite J1. reflexivity.
    - exists k. rewrite app_nil_r. split; auto. }
  destruct RUN as [k' [RUN KK]].
  assert (OUT : os ++ o = (Sd ++ if c_oren c then firstn 1 R else []) ++ R' ++ late (g_rpipe g') ++ O').
  { rewrite (iv_out _ _ _ _ _ _ _ _ _ _ I). fold g. cbn [g_rpipe g']. unfold R'. rewrite <- !app_assoc. f_equal.
    replace (late (g_rpipe g) ++ O ++ o) with (late (g_rpipe g) ++ due rs ++ O') by (rewrite <- C4; reflexivity).
    rewrite (app_assoc (late (g_rpipe g))). rewrite <- (late_shift rs _ NRP). rewrite <- !app_assoc. rewrite (app_assoc (if c_oren c then firstn 1 R else [])). f_equal.
    destruct (c_oren c); [|reflexivity]. destruct R; reflexivity. }
  (* wires *)
  assert (WI : exists c', (if woken g g' e e' || e_poke e' then settle P g' e' c else Some c) = Some c' /\ wires_ok P g' e' c').
  { destruct (woken g g' e e' || e_poke e') eqn:WK.
    - destruct (settle P g' e' c) as [c'|] eqn:SE; [exists c'; split; [reflexivity|eapply settle_ok; exact SE]|]. exfalso. apply settle_none in SE. cbn [g_imem g_pc g'] in SE. unfold g in SE at 1. rewrite (iv_imem _ _ _ _ _ _ _ _ _ _ I) in SE.
      rewrite J3 in SE. apply (nofault _ _ _ _ NF RUN). unfold st', MvmSpec.istep, more. cbn [k_pc]. rewrite SE. reflexivity.
    - exists c. split; [reflexivity|]. apply orb_false_iff in WK as [WK _]. apply (asleep_ok P g g' e e'); auto.
      pose proof WK as WK2. unfold woken in WK2. apply negb_false_iff in WK2.
      repeat match type of WK2 with (_ && _)%bool = true => let H' := fresh "Q" in apply andb_true_iff in WK2 as [WK2 H'] end.
      repeat match goal with Q : eqb _ _ = true |- _ => apply eqb_prop in Q | Q : vec_eqb _ _ = true |- _ => apply vec_eqb_eq in Q end. cbn [g_ofifo g_lfifo g_mfifo g'] in *.
      assert (NN : forall r, In r (R ++ R') -> ~ null n r).
      { intros r Hr N. apply (CL _ _ _ RUN). apply Exists_exists. exists r. split; [|exact N]. apply in_app_or in Hr as [Hr|Hr].
        - rewrite (iv_out _ _ _ _ _ _ _ _ _ _ I). apply in_or_app. left. apply in_or_app. right. apply in_or_app. left. exact Hr.
        - rewrite OUT. apply in_or_app. right. apply in_or_app. left. exact Hr. }
      pose proof (iv_fo _ _ _ _ _ _ _ _ _ _ I) as FOk. pose proof (iv_fl1 _ _ _ _ _ _ _ _ _ _ I) as FLk. pose proof (iv_fm _ _ _ _ _ _ _ _ _ _ I) as FMk. fold g in FOk, FLk, FMk.
      rewrite (fo_empty _ _ _ FOk), (fo_empty _ _ _ FO2). pose proof (fo_rdata _ _ _ FOk) as Y1. pose proof (fo_rdata _ _ _ FLk) as Y2. pose proof (fo_rdata _ _ _ FMk) as Y3.
      rewrite OF' in FO4 |- *. rewrite LF' in FL4. rewrite MF' in FM4. rewrite OF in Y1 |- *. rewrite LF in Y2. rewrite MF in Y3.
      destruct R as [|[[v l] m] R0] eqn:ER, R' as [|[[v' l'] m'] R0'] eqn:ER'; cbn [map] in *; try reflexivity; exfalso; unfold vec_of, layer_of, mvm_of in *; cbn [fst snd repeat] in *.
      + assert (PRR : proper (v', l', m')). { pose proof (runs_proper _ _ _ _ RUN) as PR. rewrite OUT in PR. apply Forall_app in PR as [_ PR]. inversion_clear PR. assumption. }
        destruct PRR as [PRR _]. cbn in PRR. apply (NN (v', l', m')); [left; reflexivity|]. unfold null.
        assert (v' = repeat 0%Z n). { destruct Y1 as [Y1|Y1]; [|congruence]. assert (X : v' = []) by congruence. rewrite X in PRR |- *. cbn in PRR. rewrite <- PRR. reflexivity. }
        assert (l' = 0%Z) by (destruct Y2 as [Y2|Y2]; [|congruence]; rewrite Y2 in *; congruence). assert (m' = 0%Z) by (destruct Y3 as [Y3|Y3]; [|congruence]; rewrite Y3 in *; congruence). congruence.
      + apply (NN (v, l, m)); [left; reflexivity|]. unfold null. assert (v = repeat 0%Z n) by congruence. assert (l = 0%Z) by congruence. assert (m = 0%Z) by congruence. congruence. }
  destruct WI as [c' [WI1 WI2]].
  exists {| t_regs := g'; t_wires := c'; t_files := {| x_mem := W; x_rdata := map (fun m => nth (final 0 (g_raddrs g')) m []) W |}; t_env := e' |}, k', st1, o.
  split. { unfold cycle. fold g c e. rewrite TK. rewrite XM, FS. rewrite WI1. reflexivity. }
  split; [reflexivity|]. split; [exact KK|].
  exists D', O', R'. fold st'.
  split; cbn [t_regs t_wires t_files t_env x_mem x_rdata]; try assumption; try reflexivity.
  - apply (iv_imem _ _ _ _ _ _ _ _ _ _ I).
  - unfold st', more. cbn [k_ins]. rewrite EV3. cbn [g_ififo g']. rewrite FI3, J4. reflexivity.
  - unfold st', more. cbn [k_reds]. rewrite EV2. cbn [g_rfifo g']. rewrite FR3, J6. reflexivity.
  - pose proof (iv_ilen _ _ _ _ _ _ _ _ _ _ I) as IL. rewrite (iv_ins _ _ _ _ _ _ _ _ _ _ I) in IL. fold g in IL. unfold st', more. cbn [k_ins]. rewrite <- J4. apply Forall_app in IL as [IL1 IL2]. apply Forall_app. split; [apply Forall_app; split; [|exact IL2]|].
    + unfold popped. destruct (c_iren c); [|exact IL1]. destruct (f_mem (g_ififo g)); [constructor|]. inversion IL1; assumption.
    + rewrite vectors_event. unfold pushed. destruct (takes _ _ 3); constructor; [|constructor]. rewrite lanes_words. apply words_len.
  - pose proof (iv_rlen _ _ _ _ _ _ _ _ _ _ I) as IL. rewrite (iv_reds _ _ _ _ _ _ _ _ _ _ I) in IL. fold g in IL. unfold st', more. cbn [k_reds]. rewrite <- J6. apply Forall_app in IL as [IL1 IL2]. apply Forall_app. split; [apply Forall_app; split; [|exact IL2]|].
    + unfold popped. destruct (c_rren c); [|exact IL1]. destruct (f_mem (g_rfifo g)); [constructor|]. inversion IL1; assumption.
    + rewrite vectors_event. unfold pushed. destruct (takes _ _ 2); constructor; [|constructor]. rewrite lanes_words. apply words_len.
  - rewrite TE, (iv_sent _ _ _ _ _ _ _ _ _ _ I), map_app. reflexivity.
  - cbn [g_pipe g']. rewrite shift_len by assumption. apply (iv_lpipe _ _ _ _ _ _ _ _ _ _ I).
  - cbn [g_rpipe g']. rewrite shift_len by assumption. apply (iv_lrpipe _ _ _ _ _ _ _ _ _ _ I).
  - cbn [g_rpipe g_pipe g']. pose proof (f_equal (@length result) (late_shift rs _ NRP)) as LS. rewrite !app_length in LS. pose proof (valids_shift (issue P g c) _ NP) as VS. fold sl in VS.
    assert (LR : length R' <= length R + length (due (final rstage0 (g_rpipe g)))). { unfold R'. rewrite app_length. destruct (c_oren c); [|lia]. destruct R; cbn; lia. }
    assert (LD : length (due rs) <= if s_valid sl then 1 else 0). { destruct (s_valid sl); [unfold due; destruct (r_valid rs); cbn; lia|rewrite C5 by reflexivity; cbn; lia]. }
    pose proof (late_len (g_rpipe g)) as L1. pose proof (valids_len (g_pipe g)) as L2. pose proof (iv_lpipe _ _ _ _ _ _ _ _ _ _ I) as L3. pose proof (iv_lrpipe _ _ _ _ _ _ _ _ _ _ I) as L4. fold g in L3, L4.
    destruct (s_valid (issue P g c)); [|lia]. specialize (J10 eq_refl). unfold ofull in J10. fold fsz in J10, F5. lia.
  - cbn [g_ififo g_iwen g_iwdata g']. rewrite FI3, app_length. pose proof (PL (c_iren c) (f_mem (g_ififo g))) as PL1. destruct (takes c e 3) eqn:T3; cbn [pushed length]; [|lia].
    unfold takes, rx_taken in T3. apply andb_true_iff in T3 as [T3 KD]. apply andb_true_iff in T3 as [_ T3]. rewrite (wo_ready _ _ _ _ V) in T3. apply Z.eqb_eq in KD. unfold ready_for in T3. rewrite KD in T3. cbn in T3.
    apply negb_true_iff in T3. pose proof (fo_afull _ _ _ (iv_fi _ _ _ _ _ _ _ _ _ _ I)) as FA. fold g in FA. rewrite FA in T3. apply Nat.leb_gt in T3. fold fsz in F5. assert (length (pushed (g_iwen g) (g_iwdata g)) <= 1) by (unfold pushed; destruct (g_iwen g); cbn; lia). lia.
  - cbn [g_rfifo g_rwen g_rwdata g']. rewrite FR3, app_length. pose proof (PL (c_rren c) (f_mem (g_rfifo g))) as PL1. destruct (takes c e 2) eqn:T3; cbn [pushed length]; [|lia].
    unfold takes, rx_taken in T3. apply andb_true_iff in T3 as [T3 KD]. apply andb_true_iff in T3 as [_ T3]. rewrite (wo_ready _ _ _ _ V) in T3. apply Z.eqb_eq in KD. unfold ready_for in T3. rewrite KD in T3. cbn in T3.
    apply negb_true_iff in T3. pose proof (fo_afull _ _ _ (iv_fr _ _ _ _ _ _ _ _ _ _ I)) as FA. fold g in FA. rewrite FA in T3. apply Nat.leb_gt in T3. fold fsz in F5. assert (length (pushed (g_rwen g) (g_rwdata g)) <= 1) by (unfold pushed; destruct (g_rwen g); cbn; lia). lia.
  - cbn [g_mw g']. unfold matrix_write. rewrite T4. cbn. auto.
  - split; reflexivity.
Qed.

(** ** Executions *)
Lemma inv0 : forall e, exists s, mvm0 P prog W e = Some s /\ t_env s = e /\ inv [] [] s 0 [] (begun []) [] [] [] [].
Proof.
  intros e. destruct F as [F1 F2 F3 F4 F5 F6 F7 F8 F9 F10 F11] eqn:EF. clear EF. unfold mvm0. destruct (settle P (regs0 P prog) e wires0) as [c|] eqn:SE.
  2: { exfalso. apply settle_none in SE. cbn [regs0 g_imem g_pc] in SE. apply nth_error_None in SE. lia. }
  eexists. split; [reflexivity|]. split; [reflexivity|].
  assert (LT : forall m, late (repeat rstage0 m) = []) by (induction m as [|m IH]; cbn; [reflexivity|rewrite IH; reflexivity]).
  assert (VL : forall m, valids (repeat stage0 m) = 0) by (unfold valids; induction m; cbn; auto).
  split; cbn [t_regs t_wires t_files t_env regs0 g_imem g_pc g_accum g_ififo g_rfifo g_ofifo g_lfifo g_mfifo g_iwen g_iwdata g_rwen g_rwdata g_pipe g_rpipe g_mw g_raddrs g_wpipe x_mem x_rdata]; try reflexivity;
    try (apply fifo_reset_ok; unfold ofull; fold fsz in F5 |- *; lia); try apply repeat_length; try (cbn; lia).
  - constructor.
  - constructor.
  - constructor.
  - split; [apply repeat_length|]. split; [|intros a v []]. intros a Ha. cbn. apply nth_repeat.
  - change (k_kept (begun [])) with (@nil (nat * vec)). clear - F7. induction (m_rd P) as [|m IH]; cbn [repeat]; [constructor|]. apply fl_idle; [exact IH|reflexivity|exact F7].
  - rewrite LT. reflexivity.
  - rewrite LT, VL. cbn. lia.
  - split; reflexivity.
  - apply Forall_forall. intros w Hw. apply repeat_spec in Hw. subst w. reflexivity.
  - split; [reflexivity|]. assert (E : final 0 (repeat 0 (m_rd P)) = 0); [|rewrite E; reflexivity]. apply (final_forall _ (fun a => a = 0)); [reflexivity|]. apply Forall_forall. intros a Ha. apply repeat_spec in Ha. exact Ha.
  - eapply settle_ok. exact SE.
Qed.

Lemma cycles_ok : forall es rx out s k os st D O R Sd, inv rx out s k os st D O R Sd -> data_only (t_env s) -> Forall data_only es ->
  let '(o, i, r) := cycles P s es in ~ faulty (begun (rx ++ i)) -> clean (rx ++ i) ->
  exists s' k' os' st' D' O' R' Sd', r = Some s' /\ inv (rx ++ i) (out ++ o) s' k' os' st' D' O' R' Sd' /\ data_only (t_env s').
Proof.
  induction es as [|e es IH]; intros rx out s k os st D O R Sd I DO DE.
  - cbn. rewrite !app_nil_r. intros _ _. exists s, k, os, st, D, O, R, Sd. auto.
  - cbn [cycles]. inversion_clear DE as [|? ? DE1 DE2]. destruct (cycle P s e) as [s'|] eqn:C.
    + specialize (IH (rx ++ rx_event s) (out ++ tx_event s) s'). destruct (cycles P s' es) as [[o i] r]. intros NF CL. rewrite app_assoc in NF, CL |- *.
      rewrite (app_assoc out). pose proof (step_ok rx out s e k os st D O R Sd I DO (faulty_less _ _ NF) (clean_less _ _ CL)) as [s2 [k' [st1 [o1 [C2 [E2 [_ [D' [O' [R' I']]]]]]]]]].
      rewrite C in C2. injection C2 as <-. eapply IH; eauto. rewrite E2. exact DE1.
    + intros NF CL. exfalso. destruct (step_ok rx out s e k os st D O R Sd I DO NF CL) as [s2 [k' [st1 [o1 [C2 _]]]]]. congruence.
Qed.
End Run.
