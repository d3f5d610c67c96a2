(** Modules that talk through AXI-S adapters and a mesh: everything they send arrives. *)
From Coq Require Import ZArith Arith Bool List Lia.
From Verif Require Import Bits Fupd AllocModel AllocSpec BufferModel RouteModel ChannelModel CreditModel IqRouterModel IqRouterSpec Prop_IqRouter NetModel NetSpec NetProgressSpec NetMeshModel NetMeshSpec Prop_Net Prop_NetProgress StreamSpec TermModel TermSpec
  TermFlow Prop_Term AxisFormatModel AxisSlaveModel AxisSlaveSpec AxisMasterModel AxisMasterSpec EndToEndSpec FlitCode SysModel SysSpec SysProofs Prop_System SysProgressSpec SysProgress.
Import ListNotations.
Open Scope nat_scope.

(** ** C98: on a mesh with dimension-order routing and an AXI-S slave and an AXI-S master adapter on every node, every transaction that was handed over is delivered.  There is a number [B], which depends on the configuration
    only, such that after every execution in which the slave adapters took [accepted] transactions, [B * (1 + accepted)] rounds bring the system to rest, if in these rounds the modules hand over nothing more and
    take what they are given; and then the module at every interface of every node has seen exactly what was sent to it.  In a round every thread runs
    at least once and the network goes through a cycle at least once, in any order.  The unpacking thread of a node must not run twice between two cycles of the network ([unhurried], see C98_hurried_refuted). *)
Theorem C98_system_delivers : forall P mesh nl k n b rd cd ob buf_size vc_buf_size ch cs ms, (1 <= k)%Z -> buf_size <> 0%Z -> 0 < bc_vcs b -> ob <> 0%Z ->
  new_private (bc_vcs b) buf_size vc_buf_size (bc_wait b) = Some (b, P) ->
  let w := cube mesh nl k n b rd cd ob in let rf := routes_of (dim_order_mesh k n (k ^ Z.of_nat n)) (sys_traffic ch) in
  let slots := (if buf_size <? 0 then vc_buf_size else buf_size / Z.of_nat (bc_vcs b))%Z in
  fitting (w_nodes w) (bc_vcs b) slots ch cs ms -> roomy (w_nodes w) slots cs ms ->
  exists B, forall gs rs (s1 : sys P) o1, sys_run w rf cs ms gs (sys0 w cs ms) = Some (s1, o1) ->
    Forall (good_ginst w cs ms) (gs ++ concat rs) -> take_turns (w_nodes w) (flat_map g_acts (gs ++ concat rs)) ->
    unhurried (w_nodes w) (flat_map g_acts (gs ++ concat rs)) -> growing (cycles (gs ++ concat rs)) ->
    Forall (round (w_nodes w)) rs -> Forall (helping w) (concat rs) -> B * (1 + accepted (w_nodes w) o1) <= length rs ->
    exists (s : sys P) o, sys_run w rf cs ms (gs ++ concat rs) (sys0 w cs ms) = Some (s, o) /\ at_rest w ms (flat_map g_acts (gs ++ concat rs)) s /\
      forall d, d < w_nodes w -> exists hist : list (nat * (Z * entry)),
        (forall q v, part q v hist = filter (meant (toward d) (by_type ch) cs q v) (sent_by q o)) /\
        (forall i, seen_at d i o = map (received (ms d) cs) (filter (to_iface (ms d) i) (map snd hist))).
Proof.
  intros P mesh nl k n b rd cd ob bz vz ch cs ms K Hb Hv OB EP w rf slots FT RM. destruct (empties P mesh nl k n b rd cd ob bz vz ch cs ms K Hb Hv EP FT RM OB) as [B H]. exists B.
  intros gs rs s1 o1 E1 G TT UH GR RR HG L. destruct (H gs rs s1 o1 E1 G TT UH GR RR HG L) as [s [o [E A]]]. exists s, o. split; auto. split; auto.
  destruct (delivered P mesh nl k n b rd cd ob bz vz ch cs ms K Hb Hv EP FT _ G TT) as [s' [o' [E' D]]]. assert (EE : Some (s, o) = Some (s', o')) by (etransitivity; [symmetry; exact E|exact E']). injection EE as <- <-. intros d Hd. destruct (D d Hd) as [_ [_ [_ D3]]]. apply D3. exact A.
Qed.
Print Assumptions C98_system_delivers.

(** ** Example: the row of three nodes and the traffic of C84, then any number of rounds. *)
Definition sp_first : list ginst := [sx_node [(0, 0, (11, 2, 1)%Z); (1, 1, (21, 2, 1)%Z); (2, 0, (31, 0, 0)%Z)] 0; sx_noc 1; sx_node [(0, 0, (12, 2, 0)%Z); (2, 1, (32, 2, 1)%Z)] 2; sx_noc 3].
Definition sp_round (t : nat) : list ginst := [sx_node [] (4 + 2 * Z.of_nat t); sx_noc (5 + 2 * Z.of_nat t)].
Definition sp_rounds (m : nat) : list (list ginst) := map sp_round (seq 0 m).
Definition beat (m : nat) : list bool := flat_map (fun _ => [true; false]) (seq 0 m).
Lemma beat_S : forall m, beat (S m) = true :: false :: beat m.
Proof. intros m. unfold beat. cbn [seq flat_map app]. do 2 f_equal. rewrite <- seq_shift, flat_map_concat_map, flat_map_concat_map, map_map. reflexivity. Qed.
Lemma beat_turns : forall m, alternateb (beat m) = true.
Proof. induction m as [|m IH]; [reflexivity|]. rewrite beat_S. destruct m as [|m]; [reflexivity|]. rewrite beat_S in *. exact IH. Qed.
Lemma sp_beat : forall m (f : list act -> list bool), (forall a b, f (a ++ b) = f a ++ f b) -> f [] = [] -> f (flat_map g_acts sp_first) = beat 2 -> f (g_acts (sx_node [] 0) ++ g_acts (sx_noc 0)) = [true; false] ->
  f (flat_map g_acts (sp_first ++ concat (sp_rounds m))) = beat (2 + m).
Proof.
  intros m f Fa F0 F1 F2. rewrite flat_map_app, Fa, F1. change (beat 2) with [true; false; true; false]. change (2 + m) with (S (S m)). rewrite (beat_S (S m)), (beat_S m). cbn [app]. do 4 f_equal.
  unfold sp_rounds, beat. induction (seq 0 m) as [|t l IH]; [exact F0|]. cbn [map concat flat_map]. rewrite flat_map_app, Fa, IH. f_equal. unfold sp_round. cbn [flat_map]. rewrite app_nil_r. exact F2.
Qed.
Lemma sp_cycles : forall m, cycles (concat (sp_rounds m)) = map (fun t => 5 + 2 * Z.of_nat t)%Z (seq 0 m).
Proof. intros m. unfold sp_rounds. induction (seq 0 m) as [|t l IH]; [reflexivity|]. cbn [map concat]. unfold cycles in *. rewrite flat_map_app, IH. reflexivity. Qed.
Lemma growing_cons : forall x l, growing l -> (forall y r, l = y :: r -> (x < y)%Z) -> growing (x :: l).
Proof. intros x l G H l1 y z l2 E. destruct l1 as [|a l1]; injection E as -> E; [apply (H _ _ E)|apply (G _ _ _ _ E)]. Qed.
Lemma sp_growing : forall m k, growing (map (fun t => 5 + 2 * Z.of_nat t)%Z (seq k m)).
Proof.
  induction m as [|m IH]; intros k; cbn [seq map]; [intros [|] ? ? ? E; discriminate|]. apply growing_cons; [apply IH|]. intros y r E. destruct m; [discriminate|]. cbn [seq map] in E. injection E as <- _. lia.
Qed.
Lemma sp_helping : forall l t, helping (ex_w true) (sx_inst l [] t true).
Proof. intros l t. constructor; [reflexivity|reflexivity|]. intros r _. split; apply greedy_gives. Qed.
Example C98_system_delivers_ex : new_private (bc_vcs ex_b) (-1) 2 (bc_wait ex_b) = Some (ex_b, private_policy 2) /\ fitting (w_nodes (ex_w true)) (bc_vcs ex_b) 2 sx_ch (sx_cs 64) (sx_ms 64 2) /\
  roomy (w_nodes (ex_w true)) 2 (sx_cs 64) (sx_ms 64 2) /\
  match sys_run (ex_w true) sx_rf (sx_cs 64) (sx_ms 64 2) sp_first (sys0 (P := private_policy 2) (ex_w true) (sx_cs 64) (sx_ms 64 2)) with Some (s, o) => accepted 3 o = 5 /\ restb (ex_w true) (sx_ms 64 2) (flat_map g_acts sp_first) s = false | None => False end /\
  (forall m, Forall (good_ginst (ex_w true) (sx_cs 64) (sx_ms 64 2)) (sp_first ++ concat (sp_rounds m)) /\ take_turns (w_nodes (ex_w true)) (flat_map g_acts (sp_first ++ concat (sp_rounds m))) /\
    unhurried (w_nodes (ex_w true)) (flat_map g_acts (sp_first ++ concat (sp_rounds m))) /\ growing (cycles (sp_first ++ concat (sp_rounds m))) /\ Forall (round (w_nodes (ex_w true))) (sp_rounds m) /\
    Forall (helping (ex_w true)) (concat (sp_rounds m)) /\ length (sp_rounds m) = m).
Proof.
  split; [reflexivity|]. split; [apply sx_fit; lia|]. split; [|split; [vm_compute; auto|]].
  - constructor; intros; [cbn; lia|cbn; lia|]. vm_compute. discriminate.
  - intros m. assert (FM : forall f : ginst -> Prop, (forall t, f (sx_node [] t)) -> (forall t, f (sx_noc t)) -> Forall f (concat (sp_rounds m))).
    { intros f F1 F2. unfold sp_rounds. rewrite <- flat_map_concat_map. apply Forall_flat_map, Forall_forall. intros t _. repeat constructor; auto. }
    split; [|split; [|split; [|split; [|split; [|split]]]]].
    + apply Forall_app. split; [repeat apply Forall_cons; try apply Forall_nil; apply sx_good; reflexivity|]. apply FM; intros t; apply sx_good; reflexivity.
    + intros n Hn. change (n < 3) in Hn. split; apply alternateb_ok; rewrite (sp_beat m (fun l => _ n l)); try apply beat_turns; try (intros; apply flat_map_app); try reflexivity; destruct n as [|[|[|n]]]; try reflexivity; lia.
    + intros n l1 l2 Hn. change (n < 3) in Hn. rewrite (sp_beat m (dep_acts n)); try (intros; apply flat_map_app); try reflexivity; try (destruct n as [|[|[|n]]]; try reflexivity; lia).
      intros E. apply (alternateb_ok _ (beat_turns (2 + m)) _ _ _ _ E). reflexivity.
    + unfold cycles. rewrite flat_map_app. fold (cycles (concat (sp_rounds m))). rewrite sp_cycles. change (flat_map (fun g => tick_nos (g_clk g) (g_acts g)) sp_first) with [1; 3]%Z. cbn [app].
      apply growing_cons; [apply growing_cons; [apply sp_growing|]|]; intros y r E; [destruct m; [discriminate|]; cbn [seq map] in E; injection E as <- _; lia|injection E as <- _; lia].
    + apply Forall_forall. intros x Hx. apply in_map_iff in Hx. destruct Hx as [t [<- _]]. split; [|split].
      * intros n a Hn. change (n < 3) in Hn. destruct n as [|[|[|n]]]; [| | |lia]; destruct a; cbn; tauto.
      * intros n a Hn. change (n < 3) in Hn. destruct n as [|[|[|n]]]; [| | |lia]; destruct a; cbn; tauto.
      * cbn. tauto.
    + apply FM; intros t; apply sp_helping.
    + unfold sp_rounds. rewrite map_length, seq_length. reflexivity.
Qed.
