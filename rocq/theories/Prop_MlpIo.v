(** Properties of driver, dispatchers and collector of the MLP design, and of the test as a whole. *)
From Coq Require Import ZArith Arith Bool List Lia.
From Verif Require Import StreamSpec MvmModel MvmSpec MvmProofs MlpModel MlpSpec MlpProofs MlpNet MlpIoModel MlpIoSpec MlpIoProofs Prop_Mvm Prop_Mlp.
Import ListNotations.
Open Scope nat_scope.

(** C93: driver and dispatcher hand the inputs to the NoC, each once, in order and unchanged, whenever the NoC is ready; the FIFO never overflows or underflows; all inputs are through after three times as many ready cycles. *)
Theorem C93_dispatcher : forall P inputs readys, 0 < m_dim P -> 1 < m_fifo P -> Forall (fun v => length v = m_dim P) inputs ->
  let '(out, final) := feeds P inputs feeder0 readys in
  final <> None /\ prefix out (map (fun v => (3 * 2 ^ 13, packed v)%Z) inputs) /\
  (3 * length inputs <= length (filter (fun b => b) readys) -> out = map (fun v => (3 * 2 ^ 13, packed v)%Z) inputs).
Proof.
  intros P inputs readys N S FA. destruct (feeds_ok P N S inputs readys [] feeder0 FA (finv0 P N S inputs)) as [s [vs [E [I G]]]]. rewrite E. split; [discriminate|]. pose proof (fi_split _ _ _ _ I) as SP. cbn [app] in SP. split.
  - exists (map (fun v => (3 * 2 ^ 13, packed v)%Z) (f_mem (u_fifo s) ++ (if u_wen s then [u_wdata s] else []) ++ skipn (u_written s) inputs)). unfold txs. rewrite <- map_app. f_equal. rewrite !app_assoc. rewrite <- (app_assoc vs). rewrite SP. symmetry. apply firstn_skipn.
  - intros L. assert (Z : ftogo inputs s = 0) by (assert (F0 : ftogo inputs feeder0 = 3 * length inputs) by (unfold ftogo; cbn [u_written u_wen u_fifo feeder0 fifo_reset f_mem length]; lia); lia). unfold ftogo in Z. pose proof (fi_le _ _ _ _ I) as LE.
    unfold txs. f_equal. destruct (u_wen s); [lia|]. destruct (f_mem (u_fifo s)) as [|x q]; [|cbn in Z; lia]. rewrite !app_nil_r in SP. rewrite SP. apply firstn_all2. lia.
Qed.
Print Assumptions C93_dispatcher.

(** C94: collector and driver take every output the NoC offers, without delay and without overflow, and the driver's sink compares them in order with the expected ones; all but perhaps the one of the last cycle have been compared. *)
Theorem C94_collector : forall P golden rxs, 0 < m_dim P -> 2 < m_fifo P -> let '(got, final) := collects P golden sink0 rxs in
  got = map snd (filter fst rxs) /\
  exists s, final = Some s /\ exists seen rest, map (words (m_dim P)) got = seen ++ rest /\ length rest <= 1 /\ (forall rxs' d, rxs = rxs' ++ [(false, d)] -> rest = []) /\
  v_read s = Nat.min (length seen) (length golden) /\ (v_mistake s = false <-> forall i x y, nth_error seen i = Some x -> nth_error golden i = Some y -> x = y).
Proof.
  intros P golden rxs N S. assert (LW : forall l, map (lanes (m_dim P)) l = map (words (m_dim P)) l) by (intros l; apply map_ext; intros x; apply lanes_words).
  assert (AG : forall a b, agree a b = true <-> forall i x y, nth_error a i = Some x -> nth_error b i = Some y -> x = y).
  { induction a as [|x a IH]; intros b; cbn [agree]; [split; [intros _ i u v U; destruct i; discriminate|reflexivity]|]. destruct b as [|y b]; [split; [intros _ i u v _ V; destruct i; discriminate|reflexivity]|].
    rewrite andb_true_iff, IH. unfold vec_eqb. destruct (list_eq_dec Z.eq_dec x y) as [Q|Q]; split.
    - intros [_ H] [|i] u v U V; cbn in U, V; [congruence|eapply H; eassumption].
    - intros H. split; [reflexivity|]. intros i u v U V. apply (H (Datatypes.S i)); assumption.
    - intros [H _]. discriminate.
    - intros H. exfalso. apply Q. apply (H 0); reflexivity. }
  assert (GEN : forall rxs got seen s, vinv P golden got seen s -> exists s' vs, collects P golden s rxs = (map snd (filter fst rxs), Some s') /\ vinv P golden (got ++ map snd (filter fst rxs)) (seen ++ vs) s' /\
     (forall rxs' d, rxs = rxs' ++ [(false, d)] -> f_mem (v_fifo s') = [])).
  { clear rxs. induction rxs as [|r rxs IH]; intros got seen s I; cbn [collects].
    - exists s, []. split; [reflexivity|]. cbn [filter map]. rewrite !app_nil_r. split; [exact I|]. intros rxs' d H. destruct rxs'; discriminate.
    - destruct (collect_ok P N ltac:(lia) golden got seen s r I) as [s1 [v1 [C1 [I1 V1]]]]. rewrite C1. destruct (IH _ _ s1 I1) as [s2 [v2 [C2 [I2 L2]]]]. rewrite C2.
      assert (EV : v_event s r = map snd (filter fst [r])).
      { unfold v_event. rewrite (vi_afull _ _ _ _ _ I). pose proof (vi_one _ _ _ _ _ I). destruct (Nat.leb_spec (m_fifo P - 1) (length (f_mem (v_fifo s)))); [lia|]. cbn [filter]. destruct (fst r); reflexivity. }
      assert (EM : forall a b, map snd (filter fst [a]) ++ map snd (filter fst b) = map snd (filter fst (a :: b)) :> list Z) by (intros [[|] ?] ?; reflexivity).
      exists s2, (v1 ++ v2). rewrite EV, EM. split; [reflexivity|]. rewrite EV, <- !app_assoc, EM in I2. rewrite app_assoc in I2 |- *. rewrite <- app_assoc in I2. rewrite <- !app_assoc in *. split; [exact I2|].
      intros rxs' d H. destruct rxs' as [|r' rxs']; cbn in H; injection H as -> ->; [|eapply L2; reflexivity]. cbn in C2. injection C2 as <-.
      pose proof (vi_split _ _ _ _ _ I1) as SP. rewrite EV in SP. cbn [filter fst map] in SP. rewrite app_nil_r in SP. rewrite V1 in SP. rewrite (vi_split _ _ _ _ _ I) in SP. rewrite <- (app_nil_r (map _ got)) in SP at 2. apply app_inv_head in SP. exact SP. }
  destruct (GEN rxs [] [] sink0 (vinv0 P N ltac:(lia) golden)) as [s [seen [C [I L]]]]. rewrite C. cbn [app] in I. split; [reflexivity|]. exists s. split; [reflexivity|]. exists seen, (f_mem (v_fifo s)).
  split; [rewrite <- LW; symmetry; apply (vi_split _ _ _ _ _ I)|]. split; [apply (vi_one _ _ _ _ _ I)|]. split; [exact L|]. split; [apply (vi_read _ _ _ _ _ I)|].
  rewrite (vi_mistake _ _ _ _ _ I). rewrite <- AG. destruct (agree seen golden); cbn; split; congruence.
Qed.
Print Assumptions C94_collector.

(** ** The whole test *)
Section Test.
Variable P : mparams.
Variable D : design.
Notation n := (m_dim P).
Hypothesis PR : proper D.
Hypothesis SZ : sized P D.
Hypothesis IR : forall t c, t < d_tests D -> c < d_input D -> fits32 (d_test D t c).
Hypothesis GR : Forall (Forall fits32) (golden_mif n D).

Lemma inputs_parsed : forall m, parse_io (input_mif n D m) = input_mif n D m.
Proof.
  intros m. apply parse_io_id. apply Forall_forall. intros v V. apply Forall_forall. intros x X. unfold input_mif in V. apply in_flat_map in V as [t [T V]]. apply in_seq in T. apply in_flat_map in V as [c [_ V]].
  destruct (_ =? _); [|destruct V]. destruct V as [<-|[]]. apply in_map_iff in X as [e [<- _]]. unfold test. destruct (Nat.ltb_spec (c * n + e) (d_input D)); [apply IR; lia|]. lia.
Qed.
Lemma inputs_len : forall m, Forall (fun v : vec => length v = n) (input_mif n D m).
Proof.
  intros m. apply Forall_forall. intros v V. unfold input_mif in V. apply in_flat_map in V as [t [_ V]]. apply in_flat_map in V as [c [_ V]]. destruct (_ =? _); [|destruct V]. destruct V as [<-|[]]. rewrite map_length, seq_length. reflexivity.
Qed.
Lemma golden_parsed : parse_io (golden_mif n D) = expected n D.
Proof.
  rewrite parse_io_id by exact GR. rewrite <- (golden_expected P D PR SZ). symmetry. rewrite <- (map_id (golden_mif n D)) at 2. apply map_ext_in. intros v V. rewrite <- (map_id v) at 2. apply map_ext_in. intros x X.
  apply wrap_id. rewrite Forall_forall in GR. specialize (GR v V). rewrite Forall_forall in GR. apply GR. exact X.
Qed.
Lemma expected_words : map (words n) (map snd (map (fun v => (3 * 2 ^ 13, packed v)%Z) (expected n D))) = expected n D.
Proof.
  rewrite !map_map. cbn [snd]. rewrite <- (map_id (expected n D)) at 2. apply map_ext_in. intros v V. unfold expected in V. apply in_flat_map in V as [t [_ V]]. apply in_map_iff in V as [j [<- _]]. apply words_block.
Qed.
End Test.

(** C95: the test does not fail.  In every execution of driver, dispatchers, engines and collector, with any timing of the network between them: no module fails and the driver's sink finds no mistake.
    Once everything sent has been received and everybody has had the cycles of C88 and C93, the driver reports SUCCESS.  Conditions: test inputs and expected outputs fit in 32 bits, and no block of expected outputs is all zeros. *)
Theorem C95_test : forall P D e es out rx fin readys rxs fed got fs fv, proper D -> sized P D -> (forall t c, t < d_tests D -> c < d_input D -> fits32 (d_test D t c)) -> Forall (Forall fits32) (golden_mif (m_dim P) D) ->
  ~ In (repeat 0%Z (m_dim P)) (expected (m_dim P) D) ->
  (forall m, m < mvms D 0 -> feeds P (parse_io (input_mif (m_dim P) D m)) feeder0 (readys m) = (fed m, fs m)) ->
  (forall l m, l < layers D -> m < mvms D l -> executed P D l m (e l m) (es l m) (out l m) (rx l m) (fin l m)) ->
  collects P (parse_io (golden_mif (m_dim P) D)) sink0 rxs = (got, fv) -> wired (@prefix) D fed rx out got ->
  (forall m, m < mvms D 0 -> fs m <> None) /\ (forall l m, l < layers D -> m < mvms D l -> fin l m <> None) /\ exists s, fv = Some s /\ v_mistake s = false.
Proof.
  intros P D e es out rx fin readys rxs fed got fs fv PR SZ IR GR NZ FE EX CO WI. pose proof (sz_dim _ _ SZ) as N. pose proof (sz_fifo _ _ SZ) as S. pose proof (sz_rd _ _ SZ). pose proof (sz_comp _ _ SZ).
  assert (FD : forall m, m < mvms D 0 -> fs m <> None /\ prefix (fed m) (map (fun v => (3 * 2 ^ 13, packed v)%Z) (input_mif (m_dim P) D m))).
  { intros m Hm. pose proof (C93_dispatcher P (input_mif (m_dim P) D m) (readys m) N ltac:(lia) (inputs_len P D m)) as T. specialize (FE m Hm). rewrite (inputs_parsed P D IR) in FE. rewrite FE in T. tauto. }
  assert (CN : connected (m_dim P) D rx out).
  { split; [|apply (wi_next _ _ _ _ _ _ WI)|apply (wi_sum _ _ _ _ _ _ WI)|apply (wi_first _ _ _ _ _ _ WI)]. intros m Hm. eapply prefix_trans; [apply (wi_in _ _ _ _ _ _ WI m Hm)|]. apply FD. exact Hm. }
  destruct (C91_mlp P D e es out rx fin PR SZ NZ EX CN) as [A [_ B]]. split; [intros m Hm; apply FD; exact Hm|]. split; [exact A|].
  pose proof (C94_collector P (parse_io (golden_mif (m_dim P) D)) rxs N ltac:(lia)) as T. rewrite CO in T. destruct T as [_ [s [-> [seen [rest [SP [_ [_ [_ MI]]]]]]]]]. exists s. split; [reflexivity|]. apply MI.
  assert (PX : prefix seen (expected (m_dim P) D)).
  { apply prefix_trans with (map (words (m_dim P)) got); [rewrite SP; eexists; reflexivity|]. rewrite <- (expected_words P D). apply prefix_map. eapply prefix_trans; [apply (wi_out _ _ _ _ _ _ WI)|]. apply prefix_map. exact B. }
  rewrite (golden_parsed P D PR SZ GR). destruct PX as [q ->]. intros i x y X Y. rewrite nth_error_app1 in Y by (apply nth_error_Some; congruence). congruence.
Qed.
Print Assumptions C95_test.

Theorem C95_success : forall P D e es1 q es2 out rx fin readys rxs d fed got fs s, proper D -> sized P D -> (forall t c, t < d_tests D -> c < d_input D -> fits32 (d_test D t c)) -> Forall (Forall fits32) (golden_mif (m_dim P) D) ->
  ~ In (repeat 0%Z (m_dim P)) (expected (m_dim P) D) ->
  (forall m, m < mvms D 0 -> feeds P (parse_io (input_mif (m_dim P) D m)) feeder0 (readys m) = (fed m, fs m) /\ 3 * length (input_mif (m_dim P) D m) <= length (filter (fun b => b) (readys m))) ->
  (forall l m, l < layers D -> m < mvms D l -> executed P D l m (e l m) (es1 l m ++ q l m :: es2 l m) (out l m) (rx l m) (fin l m) /\ Forall quiet (q l m :: es2 l m) /\
     2 * (d_tests D * (blocks (m_dim P) (width D l) (mvms D l) / mvms D l * blocks (m_dim P) (width D (S l)) (receivers D l) + 1)) + 2 * m_fifo P + m_rd P + m_comp P <= length (es2 l m)) ->
  collects P (parse_io (golden_mif (m_dim P) D)) sink0 (rxs ++ [(false, d)]) = (got, Some s) -> wired (fun A => @eq (list A)) D fed rx out got ->
  verdict (parse_io (golden_mif (m_dim P) D)) s = Some true.
Proof.
  intros P D e es1 q es2 out rx fin readys rxs d fed got fs s PR SZ IR GR NZ FE EX CO WI. pose proof (sz_dim _ _ SZ) as N. pose proof (sz_fifo _ _ SZ) as S. pose proof (sz_rd _ _ SZ). pose proof (sz_comp _ _ SZ).
  assert (FD : forall m, m < mvms D 0 -> fed m = map (fun v => (3 * 2 ^ 13, packed v)%Z) (input_mif (m_dim P) D m)).
  { intros m Hm. destruct (FE m Hm) as [F L]. pose proof (C93_dispatcher P (input_mif (m_dim P) D m) (readys m) N ltac:(lia) (inputs_len P D m)) as T. rewrite (inputs_parsed P D IR) in F. rewrite F in T. destruct T as [_ [_ T]]. apply T. exact L. }
  assert (DE : delivered (m_dim P) D rx out).
  { split; [|apply (wi_next _ _ _ _ _ _ WI)|apply (wi_sum _ _ _ _ _ _ WI)|apply (wi_first _ _ _ _ _ _ WI)]. intros m Hm. rewrite <- FD by exact Hm. apply (wi_in _ _ _ _ _ _ WI m Hm). }
  assert (C : sent_to 0 0 (out (layers D - 1) (mvms D (layers D - 1) - 1)) = map (fun v => (3 * 2 ^ 13, packed v)%Z) (expected (m_dim P) D)).
  { eapply (C92_mlp_complete P D e es1 q es2 out rx fin PR SZ NZ); [intros; apply EX; assumption|exact DE|intros; apply EX; assumption]. }
  pose proof (C94_collector P (parse_io (golden_mif (m_dim P) D)) (rxs ++ [(false, d)]) N ltac:(lia)) as T. rewrite CO in T. destruct T as [_ [s' [E [seen [rest [SP [_ [RE [RD MI]]]]]]]]]. injection E as <-.
  specialize (RE _ _ eq_refl). subst rest. rewrite app_nil_r in SP. rewrite (wi_out _ _ _ _ _ _ WI), C, (expected_words P D) in SP. rewrite (golden_parsed P D PR SZ GR) in *. subst seen. rewrite Nat.min_id in RD.
  unfold verdict. rewrite RD, Nat.ltb_irrefl. destruct (v_mistake s); [|reflexivity]. symmetry. f_equal. apply MI. intros i x y X Y. congruence.
Qed.
Print Assumptions C95_success.

(** ** Examples *)
Example C93_dispatcher_ex : let P := small in let inputs := [[1; 2]; [-3; 4]; [5; -6]]%Z in 0 < m_dim P /\ 1 < m_fifo P /\ Forall (fun v => length v = m_dim P) inputs /\
  map snd (fst (feeds P inputs feeder0 [true; false; true; false; true; true; false; true; true])) = [1 + 2 ^ 32 * 2; 2 ^ 32 - 3 + 2 ^ 32 * 4; 5 + 2 ^ 32 * (2 ^ 32 - 6)]%Z.
Proof. cbn zeta. split; [cbn; lia|]. split; [cbn; lia|]. split; [repeat constructor|vm_compute; reflexivity]. Qed.
Example C94_collector_ex : let golden := [[1; 2]; [-3; 4]]%Z in 0 < m_dim small /\ 2 < m_fifo small /\
  (match snd (collects small golden sink0 [(true, packed [1; 2]); (true, packed [-3; 4]); (false, 0)]%Z) with Some s => verdict golden s | None => None end) = Some true /\
  (match snd (collects small golden sink0 [(true, packed [1; 2]); (false, 0); (true, packed [-3; 5]); (false, 0)]%Z) with Some s => verdict golden s | None => None end) = Some false.
Proof. cbn zeta. split; [cbn; lia|]. split; [cbn; lia|]. split; vm_compute; reflexivity. Qed.

Definition two_feed (m : nat) := feeds small (parse_io (input_mif 2 two_layers m)) feeder0 (repeat true 20).
Definition two_rxs : list (bool * Z) := map (fun t => (true, snd t)) (sent_to 0 0 (out_of (two_run 1 1))).
Definition two_sink := collects small (parse_io (golden_mif 2 two_layers)) sink0 (two_rxs ++ [(false, 0%Z)]).
Lemma two_fits : (forall t c, t < d_tests two_layers -> c < d_input two_layers -> fits32 (d_test two_layers t c)) /\ Forall (Forall fits32) (golden_mif 2 two_layers).
Proof.
  split.
  - intros t c T C. cbn in T, C. destruct t as [|[|t]]; try lia; do 5 (destruct c as [|c]; [unfold fits32; vm_compute; split; [discriminate|reflexivity]|]); lia.
  - apply Forall_forall. intros v V. apply Forall_forall. intros x X. assert (B : forallb (forallb (fun x => (- 2 ^ 31 <=? x) && (x <? 2 ^ 31))%Z) (golden_mif 2 two_layers) = true) by (vm_compute; reflexivity).
    rewrite forallb_forall in B. specialize (B v V). rewrite forallb_forall in B. specialize (B x X). apply andb_true_iff in B as [B1 B2]. apply Z.leb_le in B1. apply Z.ltb_lt in B2. split; assumption.
Qed.
Lemma two_wired : wired (fun A => @eq (list A)) two_layers (fun m => fst (two_feed m)) (fun l m => rx_of (two_run l m)) (fun l m => out_of (two_run l m)) (fst two_sink).
Proof.
  pose proof two_delivered as DE. split; [|apply (de_next _ _ _ _ DE)|apply (de_sum _ _ _ _ DE)|apply (de_first _ _ _ _ DE)|vm_compute; reflexivity].
  intros m Hm. cbn in Hm. destruct m as [|[|m]]; try lia; vm_compute; reflexivity.
Qed.
Example C95_test_ex : proper two_layers /\ sized small two_layers /\ (forall t c, t < d_tests two_layers -> c < d_input two_layers -> fits32 (d_test two_layers t c)) /\ Forall (Forall fits32) (golden_mif 2 two_layers) /\
  ~ In (repeat 0%Z 2) (expected 2 two_layers) /\ (forall m, m < mvms two_layers 0 -> feeds small (parse_io (input_mif 2 two_layers m)) feeder0 (repeat true 20) = (fst (two_feed m), snd (two_feed m))) /\
  (forall l m, l < layers two_layers -> m < mvms two_layers l -> executed small two_layers l m idle (fed (two_txs l m) 80) (out_of (two_run l m)) (rx_of (two_run l m)) (snd (two_run l m))) /\
  collects small (parse_io (golden_mif 2 two_layers)) sink0 (two_rxs ++ [(false, 0%Z)]) = (fst two_sink, snd two_sink) /\
  wired (@prefix) two_layers (fun m => fst (two_feed m)) (fun l m => rx_of (two_run l m)) (fun l m => out_of (two_run l m)) (fst two_sink).
Proof.
  split; [apply two_proper|]. split; [apply two_sized|]. split; [apply two_fits|]. split; [apply two_fits|]. split; [apply two_nonzero|]. split; [intros m _; unfold two_feed; destruct (feeds _ _ _ _); reflexivity|]. split; [apply two_executed|].
  split; [unfold two_sink; destruct (collects _ _ _ _); reflexivity|]. pose proof two_wired as W.
  split; intros; [rewrite (wi_in _ _ _ _ _ _ W) by assumption|rewrite (wi_next _ _ _ _ _ _ W) by assumption|rewrite (wi_sum _ _ _ _ _ _ W) by assumption|apply (wi_first _ _ _ _ _ _ W); assumption|rewrite (wi_out _ _ _ _ _ _ W)]; apply prefix_refl.
Qed.
Example C95_success_ex : (forall m, m < mvms two_layers 0 -> 3 * length (input_mif 2 two_layers m) <= length (filter (fun b => b) (repeat true 20))) /\
  wired (fun A => @eq (list A)) two_layers (fun m => fst (two_feed m)) (fun l m => rx_of (two_run l m)) (fun l m => out_of (two_run l m)) (fst two_sink) /\
  exists s, snd two_sink = Some s /\ verdict (parse_io (golden_mif 2 two_layers)) s = Some true.
Proof.
  split; [intros m Hm; cbn in Hm; destruct m as [|[|m]]; try lia; vm_compute; lia|]. split; [apply two_wired|].
  assert (V : match snd two_sink with Some s => verdict (parse_io (golden_mif 2 two_layers)) s | None => None end = Some true) by (vm_compute; reflexivity). destruct (snd two_sink) as [s|]; [|discriminate]. exists s. auto.
Qed.

(** C95 without the condition on the range of the expected outputs does not hold: the script computes them with 64 bits, the design with 32, and the driver reads them as numbers of 32 bits that stop at the limits.
    Here deepteen layers of two have the weights -2 and -1 in each row and the input is -2, numbers the script draws (-2 to 1): the output, -2 * (-3)^19, does not fit, and the driver reports FAILURE although the design has computed them modulo 2^32. *)
Definition three : mparams := {| m_dim := 3; m_fifo := 16; m_comp := 3; m_depth := 16; m_rd := 2; m_wr := 2; m_layer := 0 |}.
Definition deep : design := {| d_hidden := repeat 3 12; d_input := 3; d_mvms := repeat 1 12; d_weights := fun _ _ _ => (-2)%Z; d_tests := 1; d_test := fun _ _ => 1%Z |}.
Fixpoint deep_txs (l : nat) : list (Z * Z) := match l with 0 => inputs deep 3 0 | S k => sent_to (Z.of_nat (k + 2)) 0 (out_of (ex_run three deep k 0 (deep_txs k) 60)) end.
Definition deep_run (l m : nat) := ex_run three deep l m (deep_txs l) 60.
Definition deep_feed (m : nat) := feeds three (parse_io (input_mif 3 deep m)) feeder0 (repeat true 20).
Definition deep_rxs : list (bool * Z) := map (fun t => (true, snd t)) (sent_to 0 0 (out_of (deep_run 11 0))).
Lemma deep_step : forall l v, l < 11 -> (forall r, r < 3 -> outputs 3 deep l 0 r = v) -> forall r, r < 3 -> outputs 3 deep (S l) 0 r = int64 (int64 (int64 (0 + -2 * v) + -2 * v) + -2 * v).
Proof.
  intros l v Hl H r Hr. cbn [outputs]. assert (X : dimx 3 deep (S l) = 3) by (do 11 (destruct l as [|l]; [vm_compute; reflexivity|]); lia). rewrite X. cbn [dot64]. rewrite !H by lia.
  assert (W : forall c, c < 3 -> weight deep (S l) r c = (-2)%Z). { intros c Hc. do 11 (destruct l as [|l]; [do 3 (destruct r as [|r]; [do 3 (destruct c as [|c]; [vm_compute; reflexivity|]); lia|]); lia|]). lia. } rewrite !W by lia. reflexivity.
Qed.
Lemma deep_golden : golden_mif 3 deep = [[2176782336; 2176782336; 2176782336]]%Z.
Proof.
  assert (H0 : forall r, r < 3 -> outputs 3 deep 0 0 r = (-6)%Z) by (intros r Hr; do 3 (destruct r as [|r]; [vm_compute; reflexivity|]); lia).
  assert (H1 : forall r, r < 3 -> outputs 3 deep 1 0 r = (36)%Z) by (intros r Hr; rewrite (deep_step 0 _ ltac:(lia) H0 r Hr); vm_compute; reflexivity).
  assert (H2 : forall r, r < 3 -> outputs 3 deep 2 0 r = (-216)%Z) by (intros r Hr; rewrite (deep_step 1 _ ltac:(lia) H1 r Hr); vm_compute; reflexivity).
  assert (H3 : forall r, r < 3 -> outputs 3 deep 3 0 r = (1296)%Z) by (intros r Hr; rewrite (deep_step 2 _ ltac:(lia) H2 r Hr); vm_compute; reflexivity).
  assert (H4 : forall r, r < 3 -> outputs 3 deep 4 0 r = (-7776)%Z) by (intros r Hr; rewrite (deep_step 3 _ ltac:(lia) H3 r Hr); vm_compute; reflexivity).
  assert (H5 : forall r, r < 3 -> outputs 3 deep 5 0 r = (46656)%Z) by (intros r Hr; rewrite (deep_step 4 _ ltac:(lia) H4 r Hr); vm_compute; reflexivity).
  assert (H6 : forall r, r < 3 -> outputs 3 deep 6 0 r = (-279936)%Z) by (intros r Hr; rewrite (deep_step 5 _ ltac:(lia) H5 r Hr); vm_compute; reflexivity).
  assert (H7 : forall r, r < 3 -> outputs 3 deep 7 0 r = (1679616)%Z) by (intros r Hr; rewrite (deep_step 6 _ ltac:(lia) H6 r Hr); vm_compute; reflexivity).
  assert (H8 : forall r, r < 3 -> outputs 3 deep 8 0 r = (-10077696)%Z) by (intros r Hr; rewrite (deep_step 7 _ ltac:(lia) H7 r Hr); vm_compute; reflexivity).
  assert (H9 : forall r, r < 3 -> outputs 3 deep 9 0 r = (60466176)%Z) by (intros r Hr; rewrite (deep_step 8 _ ltac:(lia) H8 r Hr); vm_compute; reflexivity).
  assert (H10 : forall r, r < 3 -> outputs 3 deep 10 0 r = (-362797056)%Z) by (intros r Hr; rewrite (deep_step 9 _ ltac:(lia) H9 r Hr); vm_compute; reflexivity).
  assert (H11 : forall r, r < 3 -> outputs 3 deep 11 0 r = (2176782336)%Z) by (intros r Hr; rewrite (deep_step 10 _ ltac:(lia) H10 r Hr); vm_compute; reflexivity).
  unfold golden_mif. change (d_tests deep) with 1. change (layers deep - 1) with 11. replace (limy 3 deep 11) with 1 by (vm_compute; reflexivity). cbn [seq flat_map map app]. rewrite !H11 by lia. reflexivity.
Qed.
Definition deep_sink := collects three (parse_io [[2176782336; 2176782336; 2176782336]]%Z) sink0 (deep_rxs ++ [(false, 0%Z)]).
Theorem C95_range_refuted : exists P D e es out rx fin readys rxs fed got fs s, proper D /\ sized P D /\ (forall l r c, (-2 <= d_weights D l r c <= 1)%Z) /\ (forall t c, (-2 <= d_test D t c <= 1)%Z) /\
  ~ In (repeat 0%Z (m_dim P)) (expected (m_dim P) D) /\
  (forall m, m < mvms D 0 -> feeds P (parse_io (input_mif (m_dim P) D m)) feeder0 (readys m) = (fed m, fs m)) /\
  (forall l m, l < layers D -> m < mvms D l -> executed P D l m (e l m) (es l m) (out l m) (rx l m) (fin l m)) /\
  collects P (parse_io (golden_mif (m_dim P) D)) sink0 rxs = (got, Some s) /\ wired (fun A => @eq (list A)) D fed rx out got /\
  map (words (m_dim P)) got = expected (m_dim P) D /\ verdict (parse_io (golden_mif (m_dim P) D)) s = Some false.
Proof.
  assert (PR : proper deep) by (split; cbn; try discriminate; try lia; try reflexivity; repeat constructor; lia).
  assert (SZ : sized three deep). { split; try (cbn; lia). intros l H. change (layers deep) with 12 in H. do 12 (destruct l as [|l]; [vm_compute; lia|]). lia. }
  assert (V : match snd deep_sink with Some s => verdict (parse_io [[2176782336; 2176782336; 2176782336]]%Z) s | None => None end = Some false) by (vm_compute; reflexivity). destruct (snd deep_sink) as [s|] eqn:SK; [|discriminate].
  exists three, deep, (fun _ _ => idle), (fun l m => Prop_Mlp.fed (deep_txs l) 60), (fun l m => out_of (deep_run l m)), (fun l m => rx_of (deep_run l m)), (fun l m => snd (deep_run l m)), (fun _ => repeat true 20), (deep_rxs ++ [(false, 0%Z)]),
    (fun m => fst (deep_feed m)), (fst deep_sink), (fun m => snd (deep_feed m)), s.
  assert (M1 : forall l m, l < layers deep -> m < mvms deep l -> m = 0). { intros l m H. change (layers deep) with 12 in H. do 12 (destruct l as [|l]; [intros X; change (m < 1) in X; lia|]). lia. }
  split; [exact PR|]. split; [exact SZ|]. split; [intros; cbn; lia|]. split; [intros; cbn; lia|].
  split. { assert (E : expected 3 deep = [[-2118184960; -2118184960; -2118184960]]%Z) by (vm_compute; reflexivity). change (m_dim three) with 3. rewrite E. intros [H|[]]. discriminate H. }
  split; [intros m _; unfold deep_feed; destruct (feeds _ _ _ _); reflexivity|].
  split. { intros l m Hl Hm. unfold deep_run. apply (ex_run_ok three deep l m (deep_txs l) 60 PR SZ Hl Hm). change (layers deep) with 12 in Hl. do 12 (destruct l as [|l]; [vm_compute; reflexivity|]). lia. }
  split. { change (m_dim three) with 3. rewrite deep_golden. rewrite <- SK. unfold deep_sink. destruct (collects _ _ _ _). reflexivity. }
  split; [|split; [vm_compute; reflexivity|change (m_dim three) with 3; rewrite deep_golden; exact V]].
  split.
  - intros m Hm. assert (m = 0) by (apply (M1 0); [cbn; lia|exact Hm]). subst m. vm_compute. reflexivity.
  - intros l m Hl Hm. assert (m = 0) by (apply (M1 (l + 1)); assumption). subst m. change (layers deep) with 12 in Hl. do 11 (destruct l as [|l]; [vm_compute; reflexivity|]). lia.
  - intros l m Hl Hm. assert (m + 1 = 0) by (apply (M1 l); assumption). lia.
  - intros l Hl. change (layers deep) with 12 in Hl. do 12 (destruct l as [|l]; [vm_compute; reflexivity|]). lia.
  - vm_compute. reflexivity.
Qed.
Print Assumptions C95_range_refuted.
