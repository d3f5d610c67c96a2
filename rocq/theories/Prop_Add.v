(** The example designs add and mult. *)
From Coq Require Import ZArith Arith Bool List Lia.
From Verif Require Import Bits Fupd AllocModel AllocSpec BufferModel RouteModel ChannelModel CreditModel IqRouterModel IqRouterSpec Prop_IqRouter NetModel NetSpec NetProgressSpec NetMeshModel NetMeshSpec Prop_Net Prop_NetProgress StreamSpec TermModel TermSpec
  TermFlow Prop_Term AxisFormatModel AxisSlaveModel AxisSlaveSpec AxisMasterModel AxisMasterSpec EndToEndSpec FlitCode AddModel AddSpec AddProofs SysModel SysSpec SysProofs Prop_System SysProgressSpec SysProgress Prop_SysProgress AddSysProofs.
Import ListNotations.
Open Scope nat_scope.

(** ** C104: driver and client.  However the NoC takes and refuses, no FIFO of the client runs over or empty, what the client hands over is the first part of the driver's numbers, in order, each once, with the flag on the last one only,
    and after [3 * n + 1] edges at which the NoC was ready all [n] numbers were handed over. *)
Theorem C104_client : forall nums l, exists o c, client_run (client0 nums) l = (o, Some c) /\ prefix o (tagged nums) /\ (3 * length nums + 1 <= length (filter (fun r => r) l) -> o = tagged nums).
Proof.
  intros nums l. destruct (client_all l nums [] _ (cinv0 nums)) as [o [c [E C]]]. exists o, c. split; [exact E|]. split; [exact (cinv_prefix _ _ _ C)|]. intros L. apply (todo_done _ _ _ C). pose proof (todo_run _ _ _ _ _ _ (cinv0 nums) E) as T.
  assert (X : todo (client0 nums) <= 3 * length nums + 1) by (unfold todo; cbn [client0 k_left k_dq peek0 q_mem length k_valid]; destruct nums; lia). lia.
Qed.
Print Assumptions C104_client.
(** Twenty numbers, and a NoC that is not ready at first so that the FIFO gets almost full. *)
Example C104_client_ex : let nums := map Z.of_nat (seq 1 20) in let stall := repeat false 40 in
  (let '(o, c) := client_run (client0 nums) stall in o = [] /\ option_map (fun c => (length (q_mem (k_dq c)), length (k_left c))) c = Some (15, 5)) /\
  3 * length nums + 1 <= length (filter (fun r => r) (stall ++ repeat true 61)) /\ fst (client_run (client0 nums) (stall ++ repeat true 61)) = map (fun i => (Z.of_nat i, i =? 20)) (seq 1 20).
Proof. cbv zeta. split; [vm_compute; auto|]. split; [vm_compute; lia|vm_compute; reflexivity]. Qed.

(** ** C105: the designs on a mesh with dimension-order routing and adapters on every node.  In every execution, however clocks and threads interleave, no part aborts, the adder (the multiplier) sees the first part of the
    numbers, in order, and the driver never prints FAILURE, if the result is less than 2^31. *)
Theorem C105_passes : forall P mesh nl k n b rd cd ob buf_size vc_buf_size ch cs ms pl f nums gs, (1 <= k)%Z -> buf_size <> 0%Z -> 0 < bc_vcs b ->
  new_private (bc_vcs b) buf_size vc_buf_size (bc_wait b) = Some (b, P) ->
  let w := cube mesh nl k n b rd cd ob in let rf := routes_of (dim_order_mesh k n (k ^ Z.of_nat n)) (sys_traffic ch) in
  fitting (w_nodes w) (bc_vcs b) (if buf_size <? 0 then vc_buf_size else buf_size / Z.of_nat (bc_vcs b))%Z ch cs ms -> well_placed (w_nodes w) cs ms pl -> (0 <= result f nums < 2 ^ 31)%Z ->
  Forall (good_ginst w cs ms) gs -> take_turns (w_nodes w) (flat_map g_acts gs) ->
  exists (d : design (P := P)) o, design_run w rf cs ms pl f nums gs (design0 w cs ms f nums) = Some (d, o) /\ prefix (map (fun a => (a_data a, a_last a)) (seen_at (p_adder pl) 0 o)) (tagged nums) /\ d_verdict (z_adder d) <> Some false.
Proof.
  intros P mesh nl k n b rd cd ob bz vz ch cs ms pl f nums gs K Hb Hv EP w rf FT WP R G TT.
  destruct (all_instants P mesh nl k n b rd cd ob bz vz ch cs ms pl f nums K Hb Hv EP FT WP gs G TT) as [d [o [gs' [E [RU GO AC CK CI OT SE AI]]]]]. exists d, o. split; [exact E|]. split.
  - assert (TT' : take_turns (w_nodes w) (flat_map g_acts gs')) by (rewrite (flat_acts _ _ AC); exact TT).
    destruct (arrives P mesh nl k n b rd cd ob bz vz ch cs ms pl K Hb Hv EP FT WP gs' (z_sys d) o GO TT' RU
      OT SE) as [PR _]. eapply prefix_trans'; [exact PR|]. exact (cinv_prefix _ _ _ CI).
  - intros V. destruct (ai_verdict _ _ _ _ AI _ V) as [_ X]. rewrite (right _ _ R) in X. discriminate.
Qed.
Print Assumptions C105_passes.

(** Once the NoC has taken all numbers, there is a number of rounds, which depends on the configuration and on how many numbers there are, after which the adder has seen all of them; two more edges of its
    clock, and the driver has printed SUCCESS. *)
Theorem C105_finishes : forall P mesh nl k n b rd cd ob buf_size vc_buf_size ch cs ms pl f nums, (1 <= k)%Z -> buf_size <> 0%Z -> 0 < bc_vcs b -> ob <> 0%Z ->
  new_private (bc_vcs b) buf_size vc_buf_size (bc_wait b) = Some (b, P) ->
  let w := cube mesh nl k n b rd cd ob in let rf := routes_of (dim_order_mesh k n (k ^ Z.of_nat n)) (sys_traffic ch) in
  let slots := (if buf_size <? 0 then vc_buf_size else buf_size / Z.of_nat (bc_vcs b))%Z in
  fitting (w_nodes w) (bc_vcs b) slots ch cs ms -> roomy (w_nodes w) slots cs ms -> well_placed (w_nodes w) cs ms pl -> (0 <= result f nums < 2 ^ 31)%Z -> nums <> [] ->
  exists B, forall gs rs l (d1 : design (P := P)) o1, design_run w rf cs ms pl f nums gs (design0 w cs ms f nums) = Some (d1, o1) -> taken_by_noc pl o1 = length nums ->
    Forall (good_ginst w cs ms) (gs ++ concat rs ++ l) -> take_turns (w_nodes w) (flat_map g_acts (gs ++ concat rs ++ l)) ->
    unhurried (w_nodes w) (flat_map g_acts (gs ++ concat rs)) -> growing (cycles (gs ++ concat rs)) ->
    Forall (round (w_nodes w)) rs -> Forall (giving w) (concat rs) -> B * (1 + length nums) <= length rs -> 2 <= edges pl l ->
    exists (d : design (P := P)) o, design_run w rf cs ms pl f nums (gs ++ concat rs ++ l) (design0 w cs ms f nums) = Some (d, o) /\ d_verdict (z_adder d) = Some true.
Proof.
  intros P mesh nl k n b rd cd ob bz vz ch cs ms pl f nums K Hb Hv OB EP w rf slots FT RM WP R NE.
  destruct (all_seen P mesh nl k n b rd cd ob bz vz ch cs ms pl f nums K Hb Hv EP FT WP OB RM) as [B H]. exists B. intros gs rs l d1 o1 E1 TA G TT UH GR RR HG LB L2. rewrite !app_assoc in *.
  pose proof G as G0. apply Forall_app in G0. destruct G0 as [Ga _]. assert (TT1 : take_turns (w_nodes w) (flat_map g_acts (gs ++ concat rs))) by (rewrite flat_map_app in TT; exact (turns_pre _ _ _ TT)).
  destruct (H gs rs d1 o1 E1 Ga TT1 UH GR RR HG TA LB) as [d [o [E S]]].
  destruct (grows P mesh nl k n b rd cd ob bz vz ch cs ms pl f nums K Hb Hv EP FT WP (gs ++ concat rs) l d o G TT E S NE) as [d' [o' [E' [A [_ V]]]]]. exists d', o'. split; [exact E'|]. specialize (V L2). destruct (d_verdict (z_adder d')) as [v|] eqn:Q; [|congruence].
  destruct (ai_verdict _ _ _ _ A _ Q) as [_ X]. rewrite X, (right _ _ R). reflexivity.
Qed.
Print Assumptions C105_finishes.

(** The numbers the drivers draw (three addends, rad-sim/example-designs/add/add_driver.cpp:3, five factors, rad-sim/example-designs/mult/mult_driver.cpp:3) have such a result. *)
Theorem C105_drawn : forall f nums, drawn nums -> match f with Plus => (Z.of_nat (length nums) <= 214748364)%Z | Times => length nums <= 9 end -> (0 <= result f nums < 2 ^ 31)%Z.
Proof.
  intros f nums D L.
  assert (H : match f with Plus => (0 <= result Plus nums <= 10 * Z.of_nat (length nums))%Z | Times => (0 <= result Times nums <= 10 ^ Z.of_nat (length nums))%Z end).
  { clear L. induction nums as [|x r IH]; [destruct f; cbn; lia|]. specialize (D x (or_introl eq_refl)) as Dx. assert (Dr : drawn r) by (intros y Hy; apply D; right; exact Hy). specialize (IH Dr). cbn [length]. rewrite Nat2Z.inj_succ. destruct f; [change (result Plus (x :: r)) with (x + result Plus r)%Z; lia|]. change (result Times (x :: r)) with (x * result Times r)%Z.
    rewrite Z.pow_succ_r by lia. split; [nia|]. apply Z.mul_le_mono_nonneg; lia. }
  destruct f; [lia|]. assert (10 ^ Z.of_nat (length nums) <= 10 ^ 9)%Z by (apply Z.pow_le_mono_r; lia). lia.
Qed.
Print Assumptions C105_drawn.
Example C105_drawn_ex : drawn [10; 10; 10; 10; 10]%Z /\ result Times [10; 10; 10; 10; 10]%Z = 100000%Z /\ drawn [1; 7; 10]%Z /\ result Plus [1; 7; 10]%Z = 18%Z.
Proof. split; [intros x H; cbn in H; lia|]. split; [reflexivity|]. split; [intros x H; cbn in H; lia|reflexivity]. Qed.

(** With ten factors the int of the driver overflows, and the driver prints FAILURE though the multiplier, which keeps 64 bits, has the right product. *)
Theorem C105_range_refuted : exists nums, drawn nums /\ length nums = 10 /\ let a := adder_run Times nums (map Some (tagged nums) ++ [None; None]) in (d_resp a = result Times nums)%Z /\ d_verdict a = Some false.
Proof. exists (repeat 10%Z 10). split; [intros x H; cbn in H; lia|]. split; [reflexivity|]. cbv zeta. split; vm_compute; reflexivity. Qed.
Print Assumptions C105_range_refuted.

(** ** Example: a row of three nodes, the client at node 0, the adder at node 2, 128-bit interfaces, buffers for four flits per channel. *)
Definition ad_place : place := {| p_client := 0; p_adder := 2; p_dest := 2; p_user := 5 |}.
Definition ad_rounds (k m : nat) : list (list ginst) := map sp_round (seq k m).
Definition ad_b : bcfg := {| bc_vcs := 2; bc_size := 8; bc_wait := false |}.
Definition ad_w : netcfg := cube true true 3 1 ad_b true 1 (-1).
Lemma ad_fit : fitting (w_nodes ad_w) (bc_vcs ad_b) 4 sx_ch (sx_cs 128) (sx_ms 128 4). Proof. apply sx_fit; cbn; lia. Qed.
Lemma ad_well : well_placed (w_nodes ad_w) (sx_cs 128) (sx_ms 128 4) ad_place.
Proof. constructor; try (cbn; lia); vm_compute; reflexivity. Qed.
Lemma ad_all : forall p : ginst -> Prop, (forall t, p (sx_node [] t)) -> (forall t, p (sx_noc t)) -> forall k m, Forall p (concat (ad_rounds k m)).
Proof. intros p F1 F2 k m. unfold ad_rounds. rewrite <- flat_map_concat_map. apply Forall_flat_map, Forall_forall. intros t _. repeat constructor; auto. Qed.
Lemma ad_fine : forall l t, forallb (okact 3) l = true -> nodup same_act l = l -> good_ginst ad_w (sx_cs 128) (sx_ms 128 4) (sx_inst l [] t true).
Proof.
  intros l t Hl Nd. constructor; cbn [g_acts g_inp g_clk sx_inst].
  - rewrite <- Nd. apply NoDup_nodup.
  - intros y Hy. rewrite forallb_forall in Hl. specialize (Hl y Hy). change (w_nodes ad_w) with 3. destruct y; cbn [okact] in Hl; auto; apply Nat.ltb_lt; exact Hl.
  - intros n i tx _ _ H. discriminate.
  - intros. apply greedy_ok.
  - intros. apply greedy_ok.
Qed.
Lemma ad_good : forall k m, Forall (good_ginst ad_w (sx_cs 128) (sx_ms 128 4)) (concat (ad_rounds k m)).
Proof. apply ad_all; intros t; apply ad_fine; reflexivity. Qed.
Lemma ad_beat : forall k m (p : list act -> list bool), (forall a b, p (a ++ b) = p a ++ p b) -> p [] = [] -> p (g_acts (sx_node [] 0) ++ g_acts (sx_noc 0)) = [true; false] -> p (flat_map g_acts (concat (ad_rounds k m))) = beat m.
Proof.
  intros k m p Fa F0 F2. revert k. induction m as [|m IH]; intros k; [exact F0|]. unfold ad_rounds in *. cbn [seq map concat]. rewrite flat_map_app, Fa, IH, beat_S. change (true :: false :: beat m) with ([true; false] ++ beat m). f_equal. unfold sp_round. cbn [flat_map]. rewrite app_nil_r. exact F2.
Qed.
Lemma ad_turns : forall m, take_turns (w_nodes ad_w) (flat_map g_acts (concat (ad_rounds 0 m))).
Proof. intros m n Hn. change (n < 3) in Hn. split; apply alternateb_ok; rewrite (ad_beat 0 m (fun l => _ n l)); try apply beat_turns; try (intros; apply flat_map_app); try reflexivity; destruct n as [|[|[|n]]]; try reflexivity; lia. Qed.
Lemma ad_split : forall a m, concat (ad_rounds 0 a) ++ concat (ad_rounds a m) = concat (ad_rounds 0 (a + m)).
Proof. intros a m. unfold ad_rounds. rewrite seq_app, map_app, concat_app. reflexivity. Qed.
Definition ad_run (f : op) (nums : list Z) (m : nat) := design_run ad_w sx_rf (sx_cs 128) (sx_ms 128 4) ad_place f nums (concat (ad_rounds 0 m)) (design0 (P := private_policy 4) ad_w (sx_cs 128) (sx_ms 128 4) f nums).
Definition ad_look (r : option (design (P := private_policy 4) * list sobs)) : option (nat * list (Z * bool) * option bool) :=
  match r with Some (d, o) => Some (taken_by_noc ad_place o, map (fun a => (a_data a, a_last a)) (seen_at 2 0 o), d_verdict (z_adder d)) | None => None end.
Example C105_passes_ex : new_private (bc_vcs ad_b) (-1) 4 (bc_wait ad_b) = Some (ad_b, private_policy 4) /\ fitting (w_nodes ad_w) (bc_vcs ad_b) 4 sx_ch (sx_cs 128) (sx_ms 128 4) /\ well_placed (w_nodes ad_w) (sx_cs 128) (sx_ms 128 4) ad_place /\
  (forall m, Forall (good_ginst ad_w (sx_cs 128) (sx_ms 128 4)) (concat (ad_rounds 0 m)) /\ take_turns (w_nodes ad_w) (flat_map g_acts (concat (ad_rounds 0 m)))) /\
  ad_look (ad_run Plus [3; 4]%Z 36) = Some (2, [(3%Z, false); (4%Z, true)], Some true).
Proof. split; [reflexivity|]. split; [apply ad_fit|]. split; [apply ad_well|]. split; [intros m; split; [apply ad_good|apply ad_turns]|]. vm_compute. reflexivity. Qed.
Example C105_finishes_ex : new_private (bc_vcs ad_b) (-1) 4 (bc_wait ad_b) = Some (ad_b, private_policy 4) /\ roomy (w_nodes ad_w) 4 (sx_cs 128) (sx_ms 128 4) /\
  ad_look (ad_run Times [3; 4]%Z 5) = Some (2, [], None) /\
  forall m, let gs := concat (ad_rounds 0 5) in let rs := ad_rounds 5 m in let l := concat (ad_rounds (5 + m) 2) in
    Forall (good_ginst ad_w (sx_cs 128) (sx_ms 128 4)) (gs ++ concat rs ++ l) /\ take_turns (w_nodes ad_w) (flat_map g_acts (gs ++ concat rs ++ l)) /\
    unhurried (w_nodes ad_w) (flat_map g_acts (gs ++ concat rs)) /\ growing (cycles (gs ++ concat rs)) /\ Forall (round (w_nodes ad_w)) rs /\ Forall (giving ad_w) (concat rs) /\ length rs = m /\ edges ad_place l = 2.
Proof.
  split; [reflexivity|]. split; [constructor; intros; [cbn; lia|cbn; lia|vm_compute; discriminate]|]. split; [vm_compute; reflexivity|]. intros m gs rs l.
  assert (E1 : gs ++ concat rs = concat (ad_rounds 0 (5 + m))) by (apply ad_split). assert (E2 : gs ++ concat rs ++ l = concat (ad_rounds 0 (5 + m + 2))) by (rewrite app_assoc, E1; apply ad_split). rewrite E1, E2. clear E1 E2. subst gs rs l.
  split; [apply ad_good|]. split; [apply ad_turns|]. split; [|split; [|split; [|split; [|split]]]].
  - intros n l1 l2 Hn. change (n < 3) in Hn. rewrite (ad_beat 0 (5 + m) (dep_acts n)); try (intros; apply flat_map_app); try reflexivity; try (destruct n as [|[|[|n]]]; try reflexivity; lia). intros E. apply (alternateb_ok _ (beat_turns (5 + m)) _ _ _ _ E). reflexivity.
  - change (ad_rounds 0 (5 + m)) with (sp_rounds (5 + m)). rewrite sp_cycles. apply sp_growing.
  - apply Forall_forall. intros x Hx. apply in_map_iff in Hx. destruct Hx as [t [<- _]]. split; [|split].
    + intros n a Hn. change (n < 3) in Hn. destruct n as [|[|[|n]]]; [| | |lia]; destruct a; cbn; tauto.
    + intros n a Hn. change (n < 3) in Hn. destruct n as [|[|[|n]]]; [| | |lia]; destruct a; cbn; tauto.
    + cbn. tauto.
  - apply ad_all; intros t; intros r _; split; apply greedy_gives.
  - unfold ad_rounds. rewrite map_length, seq_length. reflexivity.
  - reflexivity.
Qed.
