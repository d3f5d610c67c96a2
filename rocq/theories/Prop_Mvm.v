(** Properties of the matrix-vector engine of the MLP design. *)
From Coq Require Import ZArith Arith Bool List Lia.
From Verif Require Import StreamSpec MvmModel MvmSpec MvmProofs MvmRun MvmProgress.
Import ListNotations.
Open Scope nat_scope.

(** C87: in every execution in which the engine receives vectors only, whatever their number, their contents and the cycles in which they come, and whenever the receiver of the results is ready:
    no FIFO overflows or underflows, no memory is read or written outside, and what was sent is, in order, what the instructions one after the other make of the vectors received. *)
Theorem C87_engine : forall P prog W e es, fits P prog W -> Forall data_only (e :: es) -> exists s, mvm0 P prog W e = Some s /\
  let '(out, rx, final) := cycles P s es in
  ~ faulty (m_dim P) (m_depth P) prog W (begun (m_dim P) rx) ->
  (forall k os st, runs (m_dim P) (m_depth P) prog W (begun (m_dim P) rx) k os st -> ~ Exists (null (m_dim P)) os) ->
  final <> None /\ exists k os st, runs (m_dim P) (m_depth P) prog W (begun (m_dim P) rx) k os st /\ prefix out (map (as_sent (m_layer P)) os).
Proof.
  intros P prog W e es F DO. inversion_clear DO as [|? ? D1 D2]. destruct (inv0 P prog W F e) as [s [M [E I]]]. exists s. split; [exact M|].
  pose proof (cycles_ok P prog W F es _ _ _ _ _ _ _ _ _ _ I) as C. rewrite E in C. specialize (C D1 D2). destruct (cycles P s es) as [[out rx] r]. intros NF CL. cbn [app] in C.
  destruct (C NF CL) as [s' [k [os [st [D' [O' [R' [Sd [-> [I' _]]]]]]]]]]. split; [discriminate|]. exists k, os, st. split; [apply (iv_run _ _ _ _ _ _ _ _ _ _ _ _ _ I')|].
  rewrite (iv_sent _ _ _ _ _ _ _ _ _ _ _ _ _ I'), (iv_out _ _ _ _ _ _ _ _ _ _ _ _ _ I'). rewrite map_app. eexists. reflexivity.
Qed.
Print Assumptions C87_engine.

(** C88: all of it is sent: when nothing more comes and the receiver is ready, the results of the first [k] instructions have been sent after at most
    2 k + 2 FIFO_SIZE + RF_RD_LATENCY + COMPUTE_LATENCY cycles. *)
Theorem C88_engine_sends_all : forall P prog W e es1 q es2, fits P prog W -> Forall data_only (e :: es1 ++ q :: es2) -> Forall quiet (q :: es2) -> exists s, mvm0 P prog W e = Some s /\
  let '(out, rx, final) := cycles P s (es1 ++ q :: es2) in
  ~ faulty (m_dim P) (m_depth P) prog W (begun (m_dim P) rx) ->
  (forall k os st, runs (m_dim P) (m_depth P) prog W (begun (m_dim P) rx) k os st -> ~ Exists (null (m_dim P)) os) ->
  forall k os st, runs (m_dim P) (m_depth P) prog W (begun (m_dim P) rx) k os st -> 2 * k + 2 * m_fifo P + m_rd P + m_comp P <= length es2 -> prefix (map (as_sent (m_layer P)) os) out.
Proof.
  intros P prog W e es1 q es2 F DO QU. inversion_clear DO as [|? ? D1 D2]. destruct (inv0 P prog W F e) as [s [M [E I]]]. exists s. split; [exact M|].
  replace (es1 ++ q :: es2) with ((es1 ++ [q]) ++ es2) in * by (rewrite <- app_assoc; reflexivity). rewrite cycles_app. apply Forall_app in D2 as [D2 D3]. inversion_clear QU as [|? ? Q1 Q2].
  pose proof (cycles_ok P prog W F (es1 ++ [q]) _ _ _ _ _ _ _ _ _ _ I) as C. rewrite E in C. specialize (C D1 D2).
  assert (LE : forall es s0 s' o i, cycles P s0 (es ++ [q]) = (o, i, Some s') -> t_env s' = q).
  { clear. induction es as [|x es IH]; intros s0 s' o i H; cbn [app cycles] in H.
    - destruct (cycle P s0 q) as [s1|] eqn:C; [|discriminate]. injection H as _ _ <-. unfold cycle in C. destruct (tick _ _ _ _ _); [|discriminate]. destruct (files_settle _ _ _ _ _ _) as [[? ?]|]; [|discriminate].
      destruct (if _ : bool then _ else _); [|discriminate]. injection C as <-. reflexivity.
    - destruct (cycle P s0 x) as [s1|]; [|discriminate]. specialize (IH s1). destruct (cycles P s1 (es ++ [q])) as [[o1 i1] r1]. injection H as _ _ ->. eapply IH. reflexivity. }
  specialize (LE es1 s). destruct (cycles P s (es1 ++ [q])) as [[out1 rx1] [s1|]].
  - specialize (LE _ _ _ eq_refl). destruct (cycles P s1 es2) as [[out2 rx2] r2] eqn:C2. intros NF CL k os st R L. cbn [app] in C.
    destruct (C (faulty_less P prog W _ _ NF) (clean_less P prog W _ _ CL)) as [s' [k1 [os1 [st1 [D' [O' [R' [Sd [X [I' DO']]]]]]]]]]. injection X as <-.
    assert (RX : forall es s0, quiet (t_env s0) -> Forall quiet es -> snd (fst (cycles P s0 es)) = []).
    { clear. induction es as [|x es IH]; intros s0 Q FQ; [reflexivity|]. cbn [cycles]. inversion_clear FQ as [|? ? Q1 Q2]. assert (RE : rx_event s0 = []) by (unfold rx_event, rx_taken; destruct Q as [-> _]; reflexivity). rewrite RE.
      destruct (cycle P s0 x) as [s1|] eqn:C; [|reflexivity]. assert (EX : t_env s1 = x). { unfold cycle in C. destruct (tick _ _ _ _ _); [|discriminate]. destruct (files_settle _ _ _ _ _ _) as [[? ?]|]; [|discriminate]. destruct (if _ : bool then _ else _); [|discriminate]. injection C as <-. reflexivity. }
      specialize (IH s1). rewrite EX in IH. specialize (IH Q1 Q2). destruct (cycles P s1 es) as [[o i] r]. exact IH. }
    assert (RX2 : rx2 = []). { specialize (RX es2 s1). rewrite LE, C2 in RX. apply RX; assumption. } subst rx2. rewrite app_nil_r in NF, CL, R.
    destruct (quiet_ok P prog W F rx1 k os st R NF CL es2 _ _ _ _ _ _ _ _ _ I') as [o [s2 [C3 PX]]]; try assumption; [rewrite LE; assumption| |].
    + eapply togo_more; [|eapply togo_start; [exact F|exact R|exact I']]. lia.
    + rewrite C2 in C3. injection C3 as <- _. exact PX.
  - intros NF CL. cbn [app] in C. destruct (C NF CL) as [? [? [? [? [? [? [? [? [X _]]]]]]]]]. discriminate.
Qed.
Print Assumptions C88_engine_sends_all.

(** C89: the vector that comes out of the data bus is the vector that went in, if its elements are numbers of 32 bits; and the elements of results always are. *)
Theorem C89_lanes : forall n v, length v = n -> lanes n (bus v) = map wrap v /\ words n (packed v) = map wrap v /\
  (Forall (fun x => (- 2 ^ 31 <= x < 2 ^ 31)%Z) v -> lanes n (bus v) = v).
Proof.
  intros n v <-. assert (A : words (length v) (packed v) = map wrap v) by apply words_packed. assert (B : lanes (length v) (bus v) = map wrap v) by (rewrite lanes_words, bus_packed; exact A).
  split; [exact B|]. split; [exact A|]. intros H. rewrite B. clear A B. induction H as [|x l H1 _ IH]; [reflexivity|]. cbn. rewrite IH, wrap_id by exact H1. reflexivity.
Qed.
Print Assumptions C89_lanes.

Theorem C89_results : forall n depth prog W s k os s', runs n depth prog W s k os s' -> Forall (fun r => length (fst (fst r)) = n /\ Forall (fun x => (- 2 ^ 31 <= x < 2 ^ 31)%Z) (fst (fst r))) os.
Proof.
  intros n depth prog W s k os s' H. induction H as [|k os s1 o s2 H IH E]; [constructor|]. apply Forall_app. split; [exact IH|]. clear IH H. unfold istep in E.
  assert (PR : forall a x red kept l m', Forall (fun r : result => length (fst (fst r)) = n /\ Forall (fun x => (- 2 ^ 31 <= x < 2 ^ 31)%Z) (fst (fst r))) [(product n W a x red kept, l, m')]).
  { intros. constructor; [|constructor]. cbn. unfold product. rewrite map_length, seq_length. split; [reflexivity|]. apply Forall_forall. intros y Y. apply in_map_iff in Y as [d [<- _]]. apply wrap_range. }
  repeat match type of E with context [match ?x with _ => _ end] => destruct x; try discriminate end; injection E as <- <-; auto; constructor.
Qed.
Print Assumptions C89_results.

(** ** Examples, with the constants of the repository *)
Definition ex_params : mparams := {| m_dim := 16; m_fifo := 1024; m_comp := 23; m_depth := 2048; m_rd := 2; m_wr := 2; m_layer := 0 |}.
Definition pad {A} (d : A) (m : nat) (l : list A) : list A := l ++ repeat d (m - length l).
Definition op (reduce accum_en release : bool) (raddr : nat) (layer : Z) : inst :=
  {| i_en := true; i_jump := false; i_reduce := reduce; i_accum := 0; i_accum_en := accum_en; i_release := release; i_raddr := raddr; i_last := true; i_layer := layer; i_mvm := 0 |}.
Definition back : inst := {| i_en := true; i_jump := true; i_reduce := false; i_accum := 0; i_accum_en := false; i_release := false; i_raddr := 0; i_last := false; i_layer := 0; i_mvm := 0 |}.
(** Two blocks are multiplied and added, a partial result is added, and the sum is released to layer [l]; over and over. *)
Definition ex_prog (l : Z) : list inst := pad inst0 2048 [op false false false 0 l; op true true true 1 l; back].
(** Register file [d]: the unit vector of [d], then one with [c] everywhere. *)
Definition ex_weights (c : Z) : list (list vec) := map (fun d => pad (repeat 0%Z 16) 2048 [map (fun k => if k =? d then 1%Z else 0%Z) (seq 0 16); repeat c 16]) (seq 0 16).
Lemma pad_len : forall A (d : A) m l, length l <= m -> length (pad d m l) = m.
Proof. intros. unfold pad. rewrite app_length, repeat_length. lia. Qed.
Lemma pad_forall : forall A (Q : A -> Prop) d m l, Q d -> Forall Q l -> Forall Q (pad d m l).
Proof. intros. apply Forall_app. split; [assumption|]. apply Forall_forall. intros x X. apply repeat_spec in X. subst x. assumption. Qed.
Lemma ex_fits : forall l c, (-16 <= l < 16)%Z -> fits ex_params (ex_prog l) (ex_weights c).
Proof.
  intros l c L. split; cbn [ex_params m_dim m_fifo m_comp m_depth m_rd m_wr m_layer]; try reflexivity; try lia.
  - apply pad_forall; [cbn; lia|]. repeat constructor; cbn; lia.
  - apply Forall_forall. intros m M. apply in_map_iff in M as [d [<- _]]. split; [apply pad_len; cbn; lia|]. apply pad_forall; [reflexivity|]. repeat constructor.
Qed.
Definition idle : env := {| e_valid := false; e_tuser := 0; e_tdata := 0; e_ready := true; e_poke := false |}.
Definition give (k : Z) (v : vec) : env := {| e_valid := true; e_tuser := k * 2 ^ 13; e_tdata := packed v; e_ready := true; e_poke := false |}.
Definition v1 : vec := [1; -2; 3; -4; 5; -6; 7; -8; 9; -10; 11; -12; 13; -14; 15; -16]%Z.
Definition v2 : vec := repeat 100%Z 16.
Definition v3 : vec := map (fun k => (1000 * Z.of_nat k)%Z) (seq 0 16).
(** Two inputs and a partial result come, then nothing for 40 cycles. *)
Definition ex_env : list env := [idle; give 3 v1; give 2 v3; give 3 v2] ++ repeat idle 40.
Definition ex_out (l c : Z) : option (list sent * list (Z * Z) * bool) :=
  match mvm0 ex_params (ex_prog l) (ex_weights c) idle with
  | Some s => let '(o, i, r) := cycles ex_params s ex_env in Some (o, i, match r with Some _ => true | None => false end)
  | None => None
  end.

Lemma ex_data : Forall data_only (idle :: ex_env).
Proof. apply Forall_forall. intros x X. cbn in X. repeat (destruct X as [<-|X]; [split; vm_compute; reflexivity|]). destruct X. Qed.

(** With 2 as weights the result is 2 * 1600 + v1 + v3, for the first engine of the second layer: it is sent. *)
Example C87_engine_ex : fits ex_params (ex_prog 2) (ex_weights 2) /\ Forall data_only (idle :: ex_env) /\
  ex_out 2 2 = Some ([as_sent 0 (map (fun p => (3200 + fst p + snd p)%Z) (combine v1 v3), 2%Z, 0%Z)], [(3 * 2 ^ 13, packed v1); (2 * 2 ^ 13, packed v3); (3 * 2 ^ 13, packed v2)]%Z, true) /\
  let rx := [(3 * 2 ^ 13, packed v1); (2 * 2 ^ 13, packed v3); (3 * 2 ^ 13, packed v2)]%Z in
  ~ faulty 16 2048 (ex_prog 2) (ex_weights 2) (begun 16 rx) /\ forall k os st, runs 16 2048 (ex_prog 2) (ex_weights 2) (begun 16 rx) k os st -> ~ Exists (null 16) os.
Proof.
  split; [apply ex_fits; lia|]. split; [apply ex_data|]. split; [vm_compute; reflexivity|]. intros rx.
  assert (K : walk 16 2048 (ex_prog 2) (ex_weights 2) 9 (begun 16 rx) = Some [(map (fun p => (3200 + fst p + snd p)%Z) (combine v1 v3), 2%Z, 0%Z)]) by (vm_compute; reflexivity).
  apply walk_ok in K as [A B]. split; [exact A|]. intros k os st R X. destruct (B _ _ _ R) as [q Q]. assert (Y : Exists (null 16) (os ++ q)) by (apply Exists_app; auto). rewrite <- Q in Y.
  inversion Y as [? ? Z|? ? Z]; [|inversion Z]. unfold null in Z. discriminate.
Qed.

Example C88_engine_sends_all_ex : fits ex_params (ex_prog 2) (ex_weights 2) /\ Forall data_only (idle :: [idle; give 3 v1; give 2 v3; give 3 v2] ++ idle :: repeat idle 2100) /\ Forall quiet (idle :: repeat idle 2100) /\
  exists os st, runs 16 2048 (ex_prog 2) (ex_weights 2) (begun 16 [(3 * 2 ^ 13, packed v1); (2 * 2 ^ 13, packed v3); (3 * 2 ^ 13, packed v2)]%Z) 2 os st /\ length os = 1 /\
  2 * 2 + 2 * m_fifo ex_params + m_rd ex_params + m_comp ex_params <= length (repeat idle 2100).
Proof.
  split; [apply ex_fits; lia|]. assert (DI : data_only idle) by (split; reflexivity).
  split. { constructor; [exact DI|]. cbn [app]. do 5 (constructor; [split; vm_compute; reflexivity|]). apply Forall_forall. intros x X. apply repeat_spec in X. subst x. exact DI. }
  split. { constructor; [split; reflexivity|]. apply Forall_forall. intros x X. apply repeat_spec in X. subst x. split; reflexivity. }
  set (s := begun 16 _). destruct (istep 16 2048 (ex_prog 2) (ex_weights 2) s) as [| |s1 o1] eqn:E1; [exfalso; vm_compute in E1; discriminate|exfalso; vm_compute in E1; discriminate|].
  assert (Z1 : match istep 16 2048 (ex_prog 2) (ex_weights 2) s with Go a o => match istep 16 2048 (ex_prog 2) (ex_weights 2) a with Go _ o2 => length (o ++ o2) =? 1 | _ => false end | _ => false end = true) by (vm_compute; reflexivity).
  rewrite E1 in Z1. destruct (istep 16 2048 (ex_prog 2) (ex_weights 2) s1) as [| |s2 o2] eqn:E2; [discriminate|discriminate|]. apply Nat.eqb_eq in Z1.
  exists (o1 ++ o2), s2. split; [econstructor; [|exact E2]; apply (runs_one _ _ _ _ _ _ [] s o1 s1 (runs_none _ _ _ _ _) E1)|]. split; [exact Z1|]. rewrite repeat_length. cbn [ex_params m_fifo m_rd m_comp]. lia.
Qed.

Example C89_lanes_ex : lanes 16 (bus v1) = v1.
Proof. vm_compute. reflexivity. Qed.
Example C89_results_ex : walk 16 2048 (ex_prog 2) (ex_weights (2 ^ 31 - 1)) 9 (begun 16 [(3 * 2 ^ 13, packed v1); (2 * 2 ^ 13, packed v3); (3 * 2 ^ 13, packed v2)]%Z) =
  Some [(map (fun p => (fst p + snd p - 1600)%Z) (combine v1 v3), 2%Z, 0%Z)].
Proof. vm_compute. reflexivity. Qed.

(** C87 without the condition on results of zeros does not hold.  Assign is not sensitive to ofifo_empty_signal (rad-sim/example-designs/mlp/modules/mvm.cpp:176-185).  A vector of zeros for layer 0,
    the collector, leaves the output FIFO without a change of the data the FIFO shows: the engine offers it a second time, reads the empty FIFO and the simulation ends with an error.
    Here it is the only result owed, of zeros multiplied by 2. *)
Definition zeros_env : list env := [idle; give 3 (repeat 0%Z 16); give 2 (repeat 0%Z 16); give 3 (repeat 0%Z 16)] ++ repeat idle 40.
Theorem C87_zeros_refuted : exists P prog W e es s out rx, fits P prog W /\ Forall data_only (e :: es) /\ mvm0 P prog W e = Some s /\ cycles P s es = (out, rx, None) /\
  ~ faulty (m_dim P) (m_depth P) prog W (begun (m_dim P) rx) /\
  (forall k os st, runs (m_dim P) (m_depth P) prog W (begun (m_dim P) rx) k os st -> length os <= 1) /\ length out = 2.
Proof.
  assert (H : match mvm0 ex_params (ex_prog 0) (ex_weights 2) idle with
              | Some s => let '(o, i, r) := cycles ex_params s zeros_env in match r with None => (length o =? 2) && match walk 16 2048 (ex_prog 0) (ex_weights 2) 9 (begun 16 i) with Some q => length q =? 1 | None => false end | Some _ => false end
              | None => false end = true) by (vm_compute; reflexivity).
  destruct (mvm0 ex_params (ex_prog 0) (ex_weights 2) idle) as [s|] eqn:M; [|discriminate]. destruct (cycles ex_params s zeros_env) as [[o i] [r|]] eqn:C; [discriminate|].
  destruct (walk 16 2048 (ex_prog 0) (ex_weights 2) 9 (begun 16 i)) as [q|] eqn:K; [|rewrite andb_false_r in H; discriminate]. apply andb_true_iff in H as [H1 H2]. apply Nat.eqb_eq in H1, H2. apply walk_ok in K as [A B].
  exists ex_params, (ex_prog 0), (ex_weights 2), idle, zeros_env, s, o, i. split; [apply ex_fits; lia|]. split.
  { apply Forall_forall. intros x X. cbn in X. repeat (destruct X as [<-|X]; [split; vm_compute; reflexivity|]). destruct X. }
  split; [exact M|]. split; [exact C|]. split; [exact A|]. split; [|exact H1]. intros k os st R. destruct (B _ _ _ R) as [z Z]. rewrite Z, app_length in H2. lia.
Qed.
Print Assumptions C87_zeros_refuted.
