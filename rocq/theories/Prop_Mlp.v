(** Properties of the MLP design: the script that generates its programs, and all engines together. *)
From Coq Require Import ZArith Arith Bool List Lia.
From Verif Require Import StreamSpec MvmModel MvmSpec MvmProofs MvmRun MvmProgress MlpModel MlpSpec MlpProofs MlpNet Prop_Mvm.
Import ListNotations.
Open Scope nat_scope.

(** C90: the memories the script generates for engine [m] of layer [l] make the engine what it is to be: given its blocks of any vectors [x t] and, unless it is the first of its layer,
    all blocks of any partial results [y t], it computes the blocks of [y t] plus its share of the product, hands them to the engine that needs them, and then waits for the next vector. *)
Theorem C90_compiled : forall P D l m, proper D -> sized P D -> l < layers D -> m < mvms D l ->
  let n := m_dim P in let W := matrix_memory n D (m_depth P) l m in
  exists prog, load_insts (m_depth P) (inst_mif n D l m) = Some prog /\ fits (with_layer P l) prog W /\
  forall T (x y : nat -> nat -> Z),
  let ins := flat_map (fun t => map (block n (x t)) (filter (fun b => b mod mvms D l =? m) (seq 0 (blocks n (width D l) (mvms D l))))) (seq 0 T) in
  let reds := flat_map (fun t => if m =? 0 then [] else map (block n (y t)) (seq 0 (blocks n (width D (S l)) (receivers D l)))) (seq 0 T) in
  let outs := flat_map (fun t => map (fun j => (block n (fun r => ((if (m =? 0)%nat then 0 else y t r) + share n D l m (x t) r)%Z) j, fst (target D l m j), snd (target D l m j)))
                                     (seq 0 (blocks n (width D (S l)) (receivers D l)))) (seq 0 T) in
  ~ faulty n (m_depth P) prog W (start ins reds) /\ exists k st, runs n (m_depth P) prog W (start ins reds) k outs st /\ istep n (m_depth P) prog W st = Wait.
Proof.
  intros P D l m PR SZ Hl Hm n W. subst n W. exists (prog P D l m). split; [apply loaded; assumption|]. split; [apply engine_fits; assumption|]. intros T x y ins reds outs.
  destruct (engine_vectors P D PR SZ l m T x y Hl Hm) as [st [R Wt]].
  assert (EI : flat_map (fun t => given P D l m (x t)) (seq 0 T) = ins) by (unfold ins; apply flat_map_ext; intros t; apply given_blocks; assumption).
  assert (ER : flat_map (fun t => added P D l m (y t)) (seq 0 T) = reds) by (unfold reds; apply flat_map_ext; intros t; unfold added; rewrite blocks_y by assumption; reflexivity).
  assert (EO : flat_map (fun t => made P D l m (x t) (y t)) (seq 0 T) = outs).
  { unfold outs. apply flat_map_ext. intros t. unfold made. rewrite blocks_y by assumption. apply map_ext. intros j. rewrite dest_target by assumption. do 2 f_equal. apply block_ext. intros r. rewrite contrib_share by assumption. reflexivity. }
  rewrite EI, ER, EO in R. split.
  - intros [k [os [s' [R' F]]]]. destruct (vectors_end P D l m _ _ _ _ _ _ _ R Wt R'). congruence.
  - eexists. exists st. split; [exact R|exact Wt].
Qed.
Print Assumptions C90_compiled.

Section Whole.
Variable P : mparams.
Variable D : design.
Hypothesis PR : proper D.
Hypothesis SZ : sized P D.
Notation n := (m_dim P).

Lemma clean : forall l m rx, l < layers D -> m < mvms D l -> ~ In (repeat 0%Z n) (expected n D) -> prefix (vectors n 3 rx) (ins P D l m) -> prefix (vectors n 2 rx) (reds P D l m) ->
  ~ faulty n (m_depth P) (prog P D l m) (matrix_memory n D (m_depth P) l m) (begun n rx) /\
  (forall k os st, runs n (m_depth P) (prog P D l m) (matrix_memory n D (m_depth P) l m) (begun n rx) k os st -> ~ Exists (null n) os) /\
  (forall k os st, runs n (m_depth P) (prog P D l m) (matrix_memory n D (m_depth P) l m) (begun n rx) k os st -> prefix os (results P D l m)).
Proof.
  intros l m rx Hl Hm NZ A B. destruct (engine_part P D PR SZ l m rx Hl Hm A B) as [NF PX]. split; [exact NF|]. split; [|exact PX].
  intros k os st R X. destruct (PX _ _ _ R) as [q Q]. apply Exists_exists in X as [r [I Nu]]. apply NZ. apply (null_last P D PR SZ l m r); try assumption. rewrite Q. apply in_or_app. auto.
Qed.

Lemma engine_out : forall l m e es out rx fin, l < layers D -> m < mvms D l -> ~ In (repeat 0%Z n) (expected n D) -> executed P D l m e es out rx fin ->
  prefix (vectors n 3 rx) (ins P D l m) -> prefix (vectors n 2 rx) (reds P D l m) -> fin <> None /\ prefix out (map (as_sent l) (results P D l m)).
Proof.
  intros l m e es out rx fin Hl Hm NZ [DO [pr [s [LD [M C]]]]] A B. rewrite (loaded P D PR SZ l m Hl) in LD. injection LD as <-.
  destruct (clean l m rx Hl Hm NZ A B) as [NF [CL PX]]. destruct (C87_engine (with_layer P l) (prog P D l m) (matrix_memory n D (m_depth P) l m) e es (engine_fits P D PR SZ l m Hl Hm) DO) as [s' [M' T]].
  rewrite M in M'. injection M' as <-. rewrite C in T. cbn [with_layer m_dim m_depth m_layer] in T. destruct (T NF CL) as [F [k [os [st [R Q]]]]]. split; [exact F|].
  eapply prefix_trans; [exact Q|]. apply prefix_map. eapply PX. exact R.
Qed.

Lemma network : forall e es out rx fin, ~ In (repeat 0%Z n) (expected n D) -> (forall l m, l < layers D -> m < mvms D l -> executed P D l m (e l m) (es l m) (out l m) (rx l m) (fin l m)) -> connected n D rx out ->
  forall l, l < layers D -> forall m, m < mvms D l ->
  prefix (vectors n 3 (rx l m)) (ins P D l m) /\ prefix (vectors n 2 (rx l m)) (reds P D l m) /\ fin l m <> None /\ prefix (out l m) (map (as_sent l) (results P D l m)).
Proof.
  intros e es out rx fin NZ EX CN. induction l as [|l IL]; intros Hl.
  - assert (IN : forall m, m < mvms D 0 -> prefix (vectors n 3 (rx 0 m)) (ins P D 0 m)).
    { intros m Hm. rewrite <- (sent_first P D PR SZ m Hm). apply prefix_map. apply (cn_in _ _ _ _ CN m Hm). }
    induction m as [|m IM]; intros Hm.
    + assert (RD : prefix (vectors n 2 (rx 0 0)) (reds P D 0 0)). { unfold vectors. rewrite (cn_first _ _ _ _ CN 0 Hl). eexists. reflexivity. }
      destruct (engine_out 0 0 _ _ _ _ _ Hl Hm NZ (EX 0 0 Hl Hm) (IN 0 Hm) RD). auto.
    + destruct (IM ltac:(lia)) as [_ [_ [_ O]]]. assert (RD : prefix (vectors n 2 (rx 0 (S m))) (reds P D 0 (S m))).
      { replace (S m) with (m + 1) by lia. rewrite <- (sent_sum P D 0 m Hl ltac:(lia)). apply prefix_map. eapply prefix_trans; [apply (cn_sum _ _ _ _ CN 0 m Hl); lia|]. apply prefix_sent. exact O. }
      destruct (engine_out 0 (S m) _ _ _ _ _ Hl Hm NZ (EX 0 (S m) Hl Hm) (IN (S m) Hm) RD). auto.
  - assert (IN : forall m, m < mvms D (S l) -> prefix (vectors n 3 (rx (S l) m)) (ins P D (S l) m)).
    { intros m Hm. replace (S l) with (l + 1) in * by lia. destruct (IL ltac:(lia) (mvms D l - 1)) as [_ [_ [_ O]]]; [pose proof (mvms_pos D PR l ltac:(lia)); lia|].
      rewrite <- (sent_next P D PR SZ l m Hl Hm). apply prefix_map. eapply prefix_trans; [apply (cn_next _ _ _ _ CN l m Hl Hm)|]. apply prefix_sent. exact O. }
    induction m as [|m IM]; intros Hm.
    + assert (RD : prefix (vectors n 2 (rx (S l) 0)) (reds P D (S l) 0)). { unfold vectors. rewrite (cn_first _ _ _ _ CN (S l) Hl). eexists. reflexivity. }
      destruct (engine_out (S l) 0 _ _ _ _ _ Hl Hm NZ (EX (S l) 0 Hl Hm) (IN 0 Hm) RD). auto.
    + destruct (IM ltac:(lia)) as [_ [_ [_ O]]]. assert (RD : prefix (vectors n 2 (rx (S l) (S m))) (reds P D (S l) (S m))).
      { replace (S m) with (m + 1) by lia. rewrite <- (sent_sum P D (S l) m Hl ltac:(lia)). apply prefix_map. eapply prefix_trans; [apply (cn_sum _ _ _ _ CN (S l) m Hl); lia|]. apply prefix_sent. exact O. }
      destruct (engine_out (S l) (S m) _ _ _ _ _ Hl Hm NZ (EX (S l) (S m) Hl Hm) (IN (S m) Hm) RD). auto.
Qed.

Lemma no_other : forall l m, l < layers D -> m < mvms D l -> ~ (l = layers D - 1 /\ m = mvms D l - 1) -> sent_to 0 0 (map (as_sent l) (results P D l m)) = [].
Proof.
  intros l m Hl Hm NL. unfold sent_to.
  match goal with |- map _ ?F = [] => assert (E : F = []); [|rewrite E; reflexivity] end.
  assert (G : Forall (fun r : result => snd (fst r) <> 0%Z) (results P D l m)).
  { apply Forall_forall. intros r R. unfold results in R. apply in_flat_map in R as [t [_ R]]. rewrite made_partial in R. apply in_map_iff in R as [j [<- _]]. cbn [fst snd]. rewrite dest_target by assumption. unfold target.
    destruct (Nat.ltb_spec (m + 1) (mvms D l)), (Nat.ltb_spec (l + 1) (layers D)); cbn [fst]; lia. }
  induction G as [|[[v a] b] q H G IH]; [reflexivity|]. cbn [map filter as_sent]. cbn [fst snd] in H. destruct (Z.eqb_spec a 0); [congruence|]. exact IH.
Qed.
End Whole.

(** C91: in every execution of all engines, whenever transactions arrive and whenever the network is ready, no engine fails, nobody but the last engine of the last layer sends to the collector, and what that one sends is,
    in order, the products of the matrices with the test inputs, modulo 2^32; provided no block of 16 expected outputs is all zeros. *)
Theorem C91_mlp : forall P D e es out rx fin, proper D -> sized P D -> ~ In (repeat 0%Z (m_dim P)) (expected (m_dim P) D) ->
  (forall l m, l < layers D -> m < mvms D l -> executed P D l m (e l m) (es l m) (out l m) (rx l m) (fin l m)) -> connected (m_dim P) D rx out ->
  (forall l m, l < layers D -> m < mvms D l -> fin l m <> None) /\
  (forall l m, l < layers D -> m < mvms D l -> ~ (l = layers D - 1 /\ m = mvms D l - 1) -> sent_to 0 0 (out l m) = []) /\
  prefix (sent_to 0 0 (out (layers D - 1) (mvms D (layers D - 1) - 1))) (map (fun v => (3 * 2 ^ 13, packed v)%Z) (expected (m_dim P) D)).
Proof.
  intros P D e es out rx fin PR SZ NZ EX CN. pose proof (network P D PR SZ e es out rx fin NZ EX CN) as NW. pose proof (layers_pos D PR) as L. pose proof (mvms_pos D PR (layers D - 1) ltac:(lia)) as M. split; [|split].
  - intros l m Hl Hm. apply (NW l Hl m Hm).
  - intros l m Hl Hm NL. destruct (NW l Hl m Hm) as [_ [_ [_ O]]]. apply (prefix_sent 0 0) in O. rewrite (no_other P D l m Hl Hm NL) in O. destruct O as [q Q]. symmetry in Q. apply app_eq_nil in Q. tauto.
  - rewrite <- (sent_out P D PR SZ). apply prefix_sent. apply (NW (layers D - 1) ltac:(lia) (mvms D (layers D - 1) - 1)). lia.
Qed.
Print Assumptions C91_mlp.

(** C92: all of it arrives: if everything sent has been received and afterwards every engine has been left alone, with a ready receiver, for a number of cycles, the collector has been sent exactly the expected outputs. *)
Theorem C92_mlp_complete : forall P D e es1 q es2 out rx fin, proper D -> sized P D -> ~ In (repeat 0%Z (m_dim P)) (expected (m_dim P) D) ->
  (forall l m, l < layers D -> m < mvms D l -> executed P D l m (e l m) (es1 l m ++ q l m :: es2 l m) (out l m) (rx l m) (fin l m)) -> delivered (m_dim P) D rx out ->
  (forall l m, l < layers D -> m < mvms D l -> Forall quiet (q l m :: es2 l m) /\
     2 * (d_tests D * (blocks (m_dim P) (width D l) (mvms D l) / mvms D l * blocks (m_dim P) (width D (S l)) (receivers D l) + 1)) + 2 * m_fifo P + m_rd P + m_comp P <= length (es2 l m)) ->
  sent_to 0 0 (out (layers D - 1) (mvms D (layers D - 1) - 1)) = map (fun v => (3 * 2 ^ 13, packed v)%Z) (expected (m_dim P) D).
Proof.
  intros P D e es1 q es2 out rx fin PR SZ NZ EX DE QU. set (n := m_dim P) in *. pose proof (layers_pos D PR) as L. pose proof (mvms_pos D PR (layers D - 1) ltac:(lia)) as M.
  assert (CN : connected n D rx out).
  { split; intros; [rewrite (de_in _ _ _ _ DE) by assumption|rewrite (de_next _ _ _ _ DE) by assumption|rewrite (de_sum _ _ _ _ DE) by assumption|apply (de_first _ _ _ _ DE); assumption]; apply prefix_refl. }
  pose proof (network P D PR SZ e _ out rx fin NZ EX CN) as NW.
  assert (ONE : forall l m, l < layers D -> m < mvms D l -> vectors n 3 (rx l m) = ins P D l m -> vectors n 2 (rx l m) = reds P D l m -> out l m = map (as_sent l) (results P D l m)).
  { intros l m Hl Hm A B. destruct (EX l m Hl Hm) as [DO [pr [s [LD [M0 C]]]]]. rewrite (loaded P D PR SZ l m Hl) in LD. injection LD as <-. destruct (QU l m Hl Hm) as [Q LE].
    destruct (C88_engine_sends_all (with_layer P l) (prog P D l m) (matrix_memory n D (m_depth P) l m) (e l m) (es1 l m) (q l m) (es2 l m) (engine_fits P D PR SZ l m Hl Hm) DO Q) as [s' [M' T]].
    fold n in M0. rewrite M0 in M'. injection M' as <-. rewrite C in T. cbn [with_layer m_dim m_depth m_layer m_fifo m_rd m_comp] in T. fold n in T.
    destruct (clean P D PR SZ l m (rx l m) Hl Hm NZ) as [NF [CL _]]; [fold n; rewrite A; apply prefix_refl|fold n; rewrite B; apply prefix_refl|].
    apply prefix_eq; [apply (NW l Hl m Hm)|]. destruct (engine_runs P D PR SZ l m Hl Hm) as [st [R _]]. fold n in R. eapply T; [exact NF|exact CL|unfold begun; rewrite A, B; exact R|].
    unfold n in LE. rewrite (blocks_x P D PR SZ l Hl) in LE. rewrite (blocks_y P D SZ l Hl) in LE. pose proof (mvms_pos D PR l Hl). rewrite Nat.div_mul in LE by lia. exact LE. }
  assert (ALL : forall l, l < layers D -> forall m, m < mvms D l -> out l m = map (as_sent l) (results P D l m)).
  { induction l as [|l IL]; intros Hl.
    - assert (IN : forall m, m < mvms D 0 -> vectors n 3 (rx 0 m) = ins P D 0 m).
      { intros m Hm. rewrite <- (sent_first P D PR SZ m Hm). unfold vectors. rewrite (de_in _ _ _ _ DE m Hm). reflexivity. }
      induction m as [|m IM]; intros Hm; apply ONE; auto.
      + unfold vectors. rewrite (de_first _ _ _ _ DE 0 Hl). unfold reds. induction (tests D) as [|t ts IH]; [reflexivity|exact IH].
      + replace (S m) with (m + 1) by lia. rewrite <- (sent_sum P D 0 m Hl ltac:(lia)). rewrite <- IM by lia. unfold vectors. rewrite (de_sum _ _ _ _ DE 0 m Hl) by lia. reflexivity.
    - assert (IN : forall m, m < mvms D (S l) -> vectors n 3 (rx (S l) m) = ins P D (S l) m).
      { intros m Hm. replace (S l) with (l + 1) in * by lia. rewrite <- (sent_next P D PR SZ l m Hl Hm). rewrite <- IL by (pose proof (mvms_pos D PR l ltac:(lia)); lia). unfold vectors. rewrite (de_next _ _ _ _ DE l m Hl Hm). reflexivity. }
      induction m as [|m IM]; intros Hm; apply ONE; auto.
      + unfold vectors. rewrite (de_first _ _ _ _ DE (S l) Hl). unfold reds. induction (tests D) as [|t ts IH]; [reflexivity|exact IH].
      + replace (S m) with (m + 1) by lia. rewrite <- (sent_sum P D (S l) m Hl ltac:(lia)). rewrite <- IM by lia. unfold vectors. rewrite (de_sum _ _ _ _ DE (S l) m Hl) by lia. reflexivity. }
  rewrite ALL by lia. apply (sent_out P D PR SZ).
Qed.
Print Assumptions C92_mlp_complete.

(** C90 continued: the outputs the script expects are these products, modulo 2^32. *)
Theorem C90_golden : forall P D, proper D -> sized P D -> map (map wrap) (golden_mif (m_dim P) D) = expected (m_dim P) D.
Proof. intros P D PR SZ. apply (golden_expected P D PR SZ). Qed.
Print Assumptions C90_golden.

(** ** Examples *)
(** Two layers of two engines each, in blocks of two: 5 inputs, 3 and 4 outputs, two tests. *)
Definition small : mparams := {| m_dim := 2; m_fifo := 16; m_comp := 3; m_depth := 16; m_rd := 2; m_wr := 2; m_layer := 0 |}.
Definition two_layers : design :=
  {| d_hidden := [3; 4]; d_input := 5; d_mvms := [2; 2]; d_weights := fun l r c => (Z.of_nat ((3 * l + 5 * r + 7 * c) mod 4) - 2)%Z; d_tests := 2; d_test := fun t c => (Z.of_nat (10 * t + c + 1) * (-1) ^ Z.of_nat c)%Z |}.
Definition offer (t : Z * Z) : env := {| e_valid := true; e_tuser := fst t; e_tdata := snd t; e_ready := true; e_poke := false |}.
(** Engine [m] of layer [l] is offered some transactions one after the other and then nothing for [k] cycles. *)
Definition fed (txs : list (Z * Z)) (k : nat) : list env := map offer txs ++ idle :: repeat idle k.
Definition ex_run (P : mparams) (D : design) (l m : nat) (txs : list (Z * Z)) (k : nat) : list sent * list (Z * Z) * option mstate :=
  match load_insts (m_depth P) (inst_mif (m_dim P) D l m) with
  | Some prog => match mvm0 (with_layer P l) prog (matrix_memory (m_dim P) D (m_depth P) l m) idle with Some s => cycles (with_layer P l) s (fed txs k) | None => ([], [], None) end
  | None => ([], [], None)
  end.
Definition out_of (r : list sent * list (Z * Z) * option mstate) : list sent := fst (fst r).
Definition rx_of (r : list sent * list (Z * Z) * option mstate) : list (Z * Z) := snd (fst r).
Lemma idle_data : data_only idle. Proof. split; reflexivity. Qed.
Lemma fed_quiet : forall k, Forall quiet (idle :: repeat idle k).
Proof. intros k. constructor; [split; reflexivity|]. apply Forall_forall. intros x X. apply repeat_spec in X. subst x. split; reflexivity. Qed.
Lemma fed_data : forall txs k, forallb (fun t => negb (of_kind 1 t) && negb (of_kind 4 t)) txs = true -> Forall data_only (idle :: fed txs k).
Proof.
  intros txs k H. constructor; [apply idle_data|]. apply Forall_app. split.
  - apply Forall_forall. intros x X. apply in_map_iff in X as [[u d] [<- X]]. rewrite forallb_forall in H. specialize (H _ X). apply andb_true_iff in H as [A B]. apply negb_true_iff in A, B. split; assumption.
  - constructor; [apply idle_data|]. apply Forall_forall. intros x X. apply repeat_spec in X. subst x. apply idle_data.
Qed.
Lemma ex_run_ok : forall P D l m txs k, proper D -> sized P D -> l < layers D -> m < mvms D l -> forallb (fun t => negb (of_kind 1 t) && negb (of_kind 4 t)) txs = true ->
  let r := ex_run P D l m txs k in executed P D l m idle (fed txs k) (out_of r) (rx_of r) (snd r).
Proof.
  intros P D l m txs k PR SZ Hl Hm K. pose proof (fed_data txs k K) as DO. unfold ex_run. destruct (C87_engine _ _ _ idle (fed txs k) (engine_fits P D PR SZ l m Hl Hm) DO) as [s [M _]].
  rewrite (loaded P D PR SZ l m Hl). rewrite M. cbn zeta. split; [exact DO|]. exists (prog P D l m), s. split; [apply loaded; assumption|]. split; [exact M|].
  unfold out_of, rx_of. destruct (cycles (with_layer P l) s (fed txs k)) as [[o i] f]. reflexivity.
Qed.

Definition inputs (D : design) (n m : nat) : list (Z * Z) := map (fun v => (3 * 2 ^ 13, packed v)%Z) (input_mif n D m).
Definition two_00 := ex_run small two_layers 0 0 (inputs two_layers 2 0) 80.
Definition txs_01 := inputs two_layers 2 1 ++ sent_to 1 1 (out_of two_00).
Definition two_01 := ex_run small two_layers 0 1 txs_01 80.
Definition txs_10 := sent_to 2 0 (out_of two_01).
Definition two_10 := ex_run small two_layers 1 0 txs_10 80.
Definition txs_11 := sent_to 2 1 (out_of two_01) ++ sent_to 2 1 (out_of two_10).
Definition two_txs (l m : nat) : list (Z * Z) := match l, m with 0, 0 => inputs two_layers 2 0 | 0, _ => txs_01 | _, 0 => txs_10 | _, _ => txs_11 end.
Definition two_run (l m : nat) := ex_run small two_layers l m (two_txs l m) 80.

Lemma two_proper : proper two_layers.
Proof. split; cbn; try discriminate; try lia; try reflexivity; repeat constructor; lia. Qed.
Lemma two_sized : sized small two_layers.
Proof. split; try (cbn; lia). intros l H. cbn in H. destruct l as [|[|l]]; [vm_compute; lia|vm_compute; lia|lia]. Qed.
Lemma two_cases : forall (Q : nat -> nat -> Prop), Q 0 0 -> Q 0 1 -> Q 1 0 -> Q 1 1 -> forall l m, l < layers two_layers -> m < mvms two_layers l -> Q l m.
Proof. intros Q A B C E l m Hl Hm. cbn in Hl. destruct l as [|[|l]]; [| |lia]; cbn in Hm; destruct m as [|[|m]]; try lia; assumption. Qed.
Lemma two_executed : forall l m, l < layers two_layers -> m < mvms two_layers l -> executed small two_layers l m idle (fed (two_txs l m) 80) (out_of (two_run l m)) (rx_of (two_run l m)) (snd (two_run l m)).
Proof.
  intros l m Hl Hm. unfold two_run. apply (ex_run_ok small two_layers l m (two_txs l m) 80 two_proper two_sized Hl Hm). revert l m Hl Hm. apply two_cases; vm_compute; reflexivity.
Qed.
Lemma two_delivered : delivered 2 two_layers (fun l m => rx_of (two_run l m)) (fun l m => out_of (two_run l m)).
Proof.
  split.
  - intros m Hm. cbn in Hm. destruct m as [|[|m]]; try lia; vm_compute; reflexivity.
  - intros l m Hl Hm. cbn in Hl. destruct l as [|l]; [|lia]. cbn in Hm. destruct m as [|[|m]]; try lia; vm_compute; reflexivity.
  - intros l m Hl Hm. cbn in Hl. destruct l as [|[|l]]; try lia; cbn in Hm; destruct m as [|m]; try lia; vm_compute; reflexivity.
  - intros l Hl. cbn in Hl. destruct l as [|[|l]]; try lia; vm_compute; reflexivity.
Qed.
Lemma two_nonzero : ~ In (repeat 0%Z 2) (expected 2 two_layers).
Proof. intros H. vm_compute in H. repeat (destruct H as [H|H]; [discriminate H|]). destruct H. Qed.

Example C90_compiled_ex : proper two_layers /\ sized small two_layers /\ 1 < layers two_layers /\ 1 < mvms two_layers 0 /\ length (inst_mif 2 two_layers 0 1) = 5 /\
  share 2 two_layers 0 1 (d_test two_layers 1) 2 = (d_weights two_layers 0 2 2 * 13 + d_weights two_layers 0 2 3 * -14)%Z.
Proof. split; [apply two_proper|]. split; [apply two_sized|]. repeat split; try (cbn; lia); vm_compute; reflexivity. Qed.
Example C90_golden_ex : proper two_layers /\ sized small two_layers /\ golden_mif 2 two_layers = expected 2 two_layers /\ length (golden_mif 2 two_layers) = 4.
Proof. split; [apply two_proper|]. split; [apply two_sized|]. split; vm_compute; reflexivity. Qed.
Example C91_mlp_ex : proper two_layers /\ sized small two_layers /\ ~ In (repeat 0%Z 2) (expected 2 two_layers) /\
  (forall l m, l < layers two_layers -> m < mvms two_layers l -> executed small two_layers l m idle (fed (two_txs l m) 80) (out_of (two_run l m)) (rx_of (two_run l m)) (snd (two_run l m))) /\
  connected 2 two_layers (fun l m => rx_of (two_run l m)) (fun l m => out_of (two_run l m)) /\ length (sent_to 0 0 (out_of (two_run 1 1))) = 4.
Proof.
  split; [apply two_proper|]. split; [apply two_sized|]. split; [apply two_nonzero|]. split; [apply two_executed|]. split; [|vm_compute; reflexivity]. pose proof two_delivered as DE.
  split; intros; [rewrite (de_in _ _ _ _ DE) by assumption|rewrite (de_next _ _ _ _ DE) by assumption|rewrite (de_sum _ _ _ _ DE) by assumption|apply (de_first _ _ _ _ DE); assumption]; apply prefix_refl.
Qed.
Example C92_mlp_complete_ex : proper two_layers /\ sized small two_layers /\ ~ In (repeat 0%Z 2) (expected 2 two_layers) /\
  (forall l m, l < layers two_layers -> m < mvms two_layers l -> executed small two_layers l m idle (map offer (two_txs l m) ++ idle :: repeat idle 80) (out_of (two_run l m)) (rx_of (two_run l m)) (snd (two_run l m))) /\
  delivered 2 two_layers (fun l m => rx_of (two_run l m)) (fun l m => out_of (two_run l m)) /\
  (forall l m, l < layers two_layers -> m < mvms two_layers l -> Forall quiet (idle :: repeat idle 80) /\
     2 * (d_tests two_layers * (blocks 2 (width two_layers l) (mvms two_layers l) / mvms two_layers l * blocks 2 (width two_layers (S l)) (receivers two_layers l) + 1)) + 2 * m_fifo small + m_rd small + m_comp small <= length (repeat idle 80)).
Proof.
  split; [apply two_proper|]. split; [apply two_sized|]. split; [apply two_nonzero|]. split; [apply two_executed|]. split; [apply two_delivered|].
  apply two_cases; (split; [apply fed_quiet|vm_compute; lia]).
Qed.

(** C91 without the condition on blocks of zeros does not hold, for a reason in the script: it pads the outputs of the last layer to a multiple of 16 times the number of engines of the FIRST layer.  With one layer of two
    engines, 32 inputs and 16 outputs (python gen_testcase.py 1 32 16 2), with the constants of the repository, every second block sent to the collector is padding: zeros, and such a block the last engine can send twice before it stops
    with an error (C87_zeros_refuted), here at the end of the 32 tests, when nothing else wakes the process.  Nothing but the padding is expected to be zero here. *)
Definition padded_layer : design := {| d_hidden := [16]; d_input := 32; d_mvms := [2]; d_weights := fun _ _ _ => 1%Z; d_tests := 32; d_test := fun t c => Z.of_nat (t + 1) |}.
Definition pad_00 := ex_run ex_params padded_layer 0 0 (inputs padded_layer 16 0) 200.
Definition pad_txs (m : nat) : list (Z * Z) := match m with 0 => inputs padded_layer 16 0 | _ => inputs padded_layer 16 1 ++ sent_to 1 1 (out_of pad_00) end.
Definition pad_run (l m : nat) := ex_run ex_params padded_layer l m (pad_txs m) 200.
Theorem C91_padding_refuted : exists P D e es out rx fin, proper D /\ sized P D /\
  (forall l m, l < layers D -> m < mvms D l -> executed P D l m (e l m) (es l m) (out l m) (rx l m) (fin l m)) /\ connected (m_dim P) D rx out /\
  (forall t r, t < d_tests D -> r < width D (layers D) -> activation D (d_test D t) (layers D) r <> 0%Z) /\
  fin (layers D - 1) (mvms D (layers D - 1) - 1) = None /\ length (sent_to 0 0 (out (layers D - 1) (mvms D (layers D - 1) - 1))) = length (expected (m_dim P) D) + 1.
Proof.
  assert (PR : proper padded_layer) by (split; cbn; try discriminate; try lia; try reflexivity; repeat constructor; lia).
  assert (SZ : sized ex_params padded_layer). { split; try (cbn; lia). intros l H. cbn in H. destruct l as [|l]; [|lia]. vm_compute. apply Nat.leb_le. reflexivity. }
  exists ex_params, padded_layer, (fun _ _ => idle), (fun _ m => fed (pad_txs m) 200), (fun l m => out_of (pad_run l m)), (fun l m => rx_of (pad_run l m)), (fun l m => snd (pad_run l m)).
  split; [exact PR|]. split; [exact SZ|]. split; [|split; [|split]].
  - intros l m Hl Hm. unfold pad_run. apply (ex_run_ok ex_params padded_layer l m (pad_txs m) 200 PR SZ Hl Hm). change (layers padded_layer) with 1 in Hl. destruct l as [|l]; [|lia]. change (mvms padded_layer 0) with 2 in Hm.
    destruct m as [|[|m]]; [| |lia]; vm_compute; reflexivity.
  - assert (BP : forall a b : list (Z * Z), firstn (length a) b = a -> prefix a b) by (intros a b H; exists (skipn (length a) b); rewrite <- H at 1; symmetry; apply firstn_skipn).
    split; intros.
    + cbn in H. destruct m as [|[|m]]; [| |lia]; apply BP; vm_compute; reflexivity.
    + cbn in H. lia.
    + cbn in H. destruct l as [|l]; [|lia]. cbn in H0. destruct m as [|m]; [|lia]. apply BP. vm_compute. reflexivity.
    + change (layers padded_layer) with 1 in H. destruct l as [|l]; [|lia]. vm_compute. reflexivity.
  - intros t r Ht Hr. cbn [padded_layer d_tests d_test layers] in *. change (layers padded_layer) with 1 in *. change (width padded_layer 1) with 16 in Hr. cbn [activation].
    change (width padded_layer 1) with 16. change (width padded_layer 0) with 32. destruct (Nat.ltb_spec r 16); [|lia]. cbn [sum d_weights padded_layer Nat.ltb Nat.leb]. lia.
  - split; vm_compute; reflexivity.
Qed.
Print Assumptions C91_padding_refuted.
