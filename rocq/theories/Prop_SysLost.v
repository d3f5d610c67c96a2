(** Adapters that run faster than the network lose credits. *)
From Coq Require Import ZArith Arith Bool List Lia.
From Verif Require Import Bits Fupd AllocModel AllocSpec BufferModel RouteModel RouteSpec ChannelModel CreditModel IqRouterModel IqRouterSpec Prop_IqRouter NetModel NetSpec NetProgressSpec NetProofs NetMeshModel NetMeshSpec NetMeshProofs Prop_Net Prop_NetProgress StreamSpec TermModel TermSpec
  TermProofs TermFlow Prop_Term AxisFormatModel AxisSlaveModel AxisSlaveSpec AxisMasterModel AxisMasterSpec EndToEndSpec FlitCode SysModel SysSpec SysProofs Prop_System SysProgressSpec SysProgress Prop_SysProgress TermLostSpec TermLost SysLost.
Import ListNotations.
Open Scope nat_scope.

(** ** C99: if a node frees a slot when it has freed another one since the last cycle already, the network does not hear of it and has one slot less for ever.  In every execution at the terminals of any network, what a
    node holds of a channel and what it lost of it are together no more than the slots of a buffer; and once it lost as many as there are, it never gets another flit on this channel. *)
Theorem C99_lost_slots : forall P w rf ok buf_size vc_buf_size a b, wired w -> buf_size <> 0%Z -> 0 < bc_vcs (w_b w) ->
  new_private (bc_vcs (w_b w)) buf_size vc_buf_size (bc_wait (w_b w)) = Some (w_b w, P) -> routes_ok w rf ok -> tdecent_run P w rf ok (a ++ b) -> in_turn w (a ++ b) ->
  let slots := (if buf_size <? 0 then vc_buf_size else buf_size / Z.of_nat (bc_vcs (w_b w)))%Z in
  exists s1 o1 s o, term_run w rf a (term0 P w) = Some (s1, o1) /\ term_run w rf (a ++ b) (term0 P w) = Some (s, o1 ++ o) /\ forall n v, n < w_nodes w -> v < bc_vcs (w_b w) ->
    (Z.of_nat (length (IqRouterSpec.on_vc v (got n (o1 ++ o)))) - Z.of_nat (count_occ Nat.eq_dec (freed n (a ++ b)) v) + Z.of_nat (lost n v false (a ++ b)) <= slots)%Z /\
    ((slots <= Z.of_nat (lost n v false a))%Z -> IqRouterSpec.on_vc v (got n o) = []).
Proof.
  intros P w rf ok bz vz a b W Hb Hv EP RO D Al slots. destruct (term_private P w rf ok bz vz W Hb Hv EP RO _ D Al) as [s [o [ts [zs [xs [ys [E _]]]]]]].
  assert (X : exists s1 o1 o2, term_run w rf a (term0 P w) = Some (s1, o1) /\ o = o1 ++ o2).
  { clear - E. revert o E. generalize (term0 P w). induction a as [|e a IH]; intros s0 o E; [exists s0, [], o; auto|]. cbn [app term_run] in *. destruct (term_step w rf e s0) as [[s1 o1]|]; [|discriminate].
    destruct (term_run w rf (a ++ b) s1) as [[s2 o2]|] eqn:E2; [|discriminate]. injection E as <- <-. destruct (IH _ _ E2) as [s3 [o3 [o4 [E3 ->]]]]. rewrite E3. exists s3, (o1 ++ o3), o4. split; auto. apply app_assoc. }
  destruct X as [s1 [o1 [o2 [E1 ->]]]]. exists s1, o1, s, o2. split; auto. split; auto. intros n v Hn Hv'. split.
  - pose proof (room_lost P w rf ok bz vz W Hb Hv EP RO _ _ _ n v E D Al Hn Hv') as [R _]. unfold vc_size in R. fold slots in R. rewrite IqRouterProofs.on_vc_app, app_length in R. lia.
  - intros L. pose proof (no_more P w rf ok bz vz W Hb Hv EP RO a b s1 o1 s (o1 ++ o2) n v E1 E D Al Hn Hv' L) as Q. rewrite TermProofs.got_app, IqRouterProofs.on_vc_app in Q. rewrite <- app_nil_r in Q. apply app_inv_head in Q. exact Q.
Qed.
Print Assumptions C99_lost_slots.

(** The same for a system: whatever happens after the adapter of node [d] has lost the slots of channel [v], the node reads nothing more of this channel. *)
Theorem C99_starved : forall P mesh nl k n b rd cd ob buf_size vc_buf_size ch cs ms gs1 gs2 d v, (1 <= k)%Z -> buf_size <> 0%Z -> 0 < bc_vcs b ->
  new_private (bc_vcs b) buf_size vc_buf_size (bc_wait b) = Some (b, P) ->
  let w := cube mesh nl k n b rd cd ob in let rf := routes_of (dim_order_mesh k n (k ^ Z.of_nat n)) (sys_traffic ch) in
  let slots := (if buf_size <? 0 then vc_buf_size else buf_size / Z.of_nat (bc_vcs b))%Z in
  fitting (w_nodes w) (bc_vcs b) slots ch cs ms -> Forall (good_ginst w cs ms) (gs1 ++ gs2) -> take_turns (w_nodes w) (flat_map g_acts (gs1 ++ gs2)) ->
  d < w_nodes w -> v < bc_vcs b -> (slots <= Z.of_nat (lost d v false (sys_evs w rf cs ms gs1 (sys0 (P := P) w cs ms))))%Z ->
  exists (s1 : sys P) o1 (s : sys P) o, sys_run w rf cs ms gs1 (sys0 w cs ms) = Some (s1, o1) /\ sys_run w rf cs ms (gs1 ++ gs2) (sys0 w cs ms) = Some (s, o1 ++ o) /\
    IqRouterSpec.on_vc v (got d (of_net o)) = [].
Proof.
  intros P mesh nl k n b rd cd ob bz vz ch cs ms gs1 gs2 d v K Hb Hv EP w rf slots FT G TT Hd Hv' L.
  assert (G1 : Forall (good_ginst w cs ms) gs1) by (apply Forall_app in G; tauto). assert (TT1 : take_turns (w_nodes w) (flat_map g_acts gs1)) by (rewrite flat_map_app in TT; eapply turns_pre; exact TT).
  destruct (run_all P mesh nl k n b rd cd ob bz vz ch cs ms K Hb Hv EP FT gs1 _ _ _ _ _ _ (BI_zero P mesh nl k n b rd cd ob ch cs ms) G1 TT1) as [s1 [o1 [_ [_ [_ [E1 _]]]]]].
  destruct (stays P mesh nl k n b rd cd ob bz vz ch cs ms K Hb Hv EP FT gs1 gs2 d v s1 o1 G TT Hd Hv' E1 L) as [s [o [E [Q _]]]]. exists s1, o1, s, o. split; auto. split; auto.
  rewrite of_net_app, got_app, IqRouterProofs.on_vc_app in Q. rewrite <- app_nil_r in Q. apply app_inv_head in Q. exact Q.
Qed.
Print Assumptions C99_starved.

(** ** Without the condition that adapters are not faster than the network C98 is false: a row of three nodes, packets of one flit, two slots.  Node 1 sends a transaction to node 2 on channel 0 and node 0 two on
    channel 1; the unpacking thread of node 2 then runs three times between two cycles.  The next transaction of node 0 never arrives, however many rounds follow. *)
Definition hx_load (a : sx_want) (t : Z) : ginst := sx_inst (flat_map (fun n => [AS n TIface; AS n TPack]) [0; 1; 2]) a t true.
Definition hx_first : list ginst :=
  [hx_load [(0, 1, (11, 2, 1)%Z); (1, 0, (5, 2, 0)%Z)] 0; sx_noc 1; hx_load [(0, 1, (12, 2, 1)%Z)] 2; sx_noc 3] ++ flat_map (fun t => [hx_load [] (4 + 2 * Z.of_nat t); sx_noc (5 + 2 * Z.of_nat t)]%Z) (seq 0 24) ++
  map (fun t => sx_node [] (60 + Z.of_nat t)%Z) (seq 0 3) ++ [sx_noc 65; sx_node [(0, 1, (13, 2, 1)%Z)] 66; sx_noc 67].
Definition hx_round (t : nat) : list ginst := [sx_node [] (68 + 2 * Z.of_nat t); sx_noc (69 + 2 * Z.of_nat t)].
Definition hx_rounds (m : nat) : list (list ginst) := map hx_round (seq 0 m).
Lemma hx_good : Forall (good_ginst (ex_w true) (sx_cs 4) (sx_ms 4 2)) hx_first.
Proof.
  unfold hx_first. apply Forall_app. split; [|apply Forall_app; split; [|apply Forall_app; split]].
  - repeat apply Forall_cons; try apply Forall_nil; apply sx_good; reflexivity.
  - apply Forall_flat_map, Forall_forall. intros t _. repeat apply Forall_cons; try apply Forall_nil; apply sx_good; reflexivity.
  - apply Forall_map, Forall_forall. intros t _. apply sx_good; reflexivity.
  - repeat apply Forall_cons; try apply Forall_nil; apply sx_good; reflexivity.
Qed.
Lemma beat_app : forall a m, beat (a + m) = beat a ++ beat m.
Proof. induction a as [|a IH]; intros m; [reflexivity|]. cbn [plus]. rewrite !beat_S, IH. reflexivity. Qed.
Lemma hx_beat : forall m a (f : list act -> list bool), (forall a b, f (a ++ b) = f a ++ f b) -> f [] = [] -> f (flat_map g_acts hx_first) = beat a -> f (g_acts (sx_node [] 0) ++ g_acts (sx_noc 0)) = [true; false] ->
  f (flat_map g_acts (hx_first ++ concat (hx_rounds m))) = beat (a + m).
Proof.
  intros m a f Fa F0 F1 F2. rewrite flat_map_app, Fa, F1, beat_app. f_equal. unfold hx_rounds, beat. induction (seq 0 m) as [|t l IH]; [exact F0|]. cbn [map concat flat_map]. rewrite flat_map_app, Fa, IH. f_equal.
  unfold hx_round. cbn [flat_map]. rewrite app_nil_r. exact F2.
Qed.
Lemma hx_cycles : forall m, cycles (hx_first ++ concat (hx_rounds m)) = map (fun t => 1 + 2 * Z.of_nat t)%Z (seq 0 26) ++ [65; 67]%Z ++ map (fun t => 69 + 2 * Z.of_nat t)%Z (seq 0 m).
Proof.
  intros m. unfold cycles. rewrite flat_map_app. rewrite app_assoc. f_equal. unfold hx_rounds. induction (seq 0 m) as [|t l IH]; [reflexivity|]. cbn [map concat]. rewrite flat_map_app, IH. reflexivity.
Qed.
Lemma growing_app : forall a x b, growing (a ++ [x]) -> growing (x :: b) -> growing (a ++ x :: b).
Proof.
  induction a as [|y a IH]; intros x b G1 G2; auto. cbn [app]. apply growing_cons.
  - apply IH; auto. intros l1 u v l2 E. apply (G1 (y :: l1) u v l2). cbn [app]. rewrite E. reflexivity.
  - intros z r E. destruct a as [|a0 a]; cbn [app] in E; injection E as <- _; [apply (G1 [] y x [])|apply (G1 [] y a0 (a ++ [x]))]; reflexivity.
Qed.
Fixpoint growingb (l : list Z) : bool := match l with x :: ((y :: _) as r) => (x <? y)%Z && growingb r | _ => true end.
Lemma growingb_ok : forall l, growingb l = true -> growing l.
Proof.
  induction l as [|x l IH]; intros H; [intros [|] ? ? ? E; discriminate|]. apply growing_cons.
  - apply IH. destruct l; auto. cbn [growingb] in H. apply andb_true_iff in H. apply H.
  - intros y r ->. cbn [growingb] in H. apply andb_true_iff in H. apply Z.ltb_lt. apply H.
Qed.
Lemma hx_growing : forall m k, growing (map (fun t => 69 + 2 * Z.of_nat t)%Z (seq k m)).
Proof.
  induction m as [|m IH]; intros k; cbn [seq map]; [intros [|] ? ? ? E; discriminate|]. apply growing_cons; [apply IH|]. intros y r E. destruct m; [discriminate|]. cbn [seq map] in E. injection E as <- _. lia.
Qed.
Lemma hx_turns : forall m, take_turns 3 (flat_map g_acts (hx_first ++ concat (hx_rounds m))).
Proof.
  intros m n Hn. split; apply alternateb_ok; rewrite (hx_beat m 28 (fun l => _ n l)); try apply beat_turns; try (intros; apply flat_map_app); try reflexivity; destruct n as [|[|[|n]]]; try reflexivity; lia.
Qed.
Theorem C98_hurried_refuted : exists P ch cs ms gs (s1 : sys P) o1, let w := ex_w true in let rf := routes_of (dim_order_mesh 3 1 (3 ^ Z.of_nat 1)) (sys_traffic ch) in
  new_private (bc_vcs ex_b) (-1) 2 (bc_wait ex_b) = Some (ex_b, P) /\ fitting (w_nodes w) (bc_vcs ex_b) 2 ch cs ms /\ roomy (w_nodes w) 2 cs ms /\ sys_run w rf cs ms gs (sys0 w cs ms) = Some (s1, o1) /\
  (forall rs, Forall (good_ginst w cs ms) (gs ++ concat rs) -> take_turns (w_nodes w) (flat_map g_acts (gs ++ concat rs)) ->
    exists (s : sys P) o, sys_run w rf cs ms (gs ++ concat rs) (sys0 w cs ms) = Some (s, o) /\ ~ at_rest w ms (flat_map g_acts (gs ++ concat rs)) s) /\
  forall m, exists rs, length rs = m /\ Forall (good_ginst w cs ms) (gs ++ concat rs) /\ take_turns (w_nodes w) (flat_map g_acts (gs ++ concat rs)) /\ growing (cycles (gs ++ concat rs)) /\
    Forall (round (w_nodes w)) rs /\ Forall (helping w) (concat rs).
Proof.
  exists (private_policy 2), sx_ch, (sx_cs 4), (sx_ms 4 2), hx_first.
  assert (X : match sys_run (ex_w true) sx_rf (sx_cs 4) (sx_ms 4 2) hx_first (sys0 (P := private_policy 2) (ex_w true) (sx_cs 4) (sx_ms 4 2)) with
    | Some (_, o) => length (between (sys_traffic sx_ch) 0 2 1 (got 2 (of_net o))) = 2 /\ length (between (sys_traffic sx_ch) 0 2 1 (map net_flit (flat_map (packet_of (sx_cs 4 0)) (accepts (of_slave 0 o))))) = 3 | None => False end) by (vm_compute; auto).
  destruct (sys_run (ex_w true) sx_rf (sx_cs 4) (sx_ms 4 2) hx_first _) as [[s1 o1]|] eqn:E1; [|contradiction]. exists s1, o1. cbv zeta. fold sx_rf. split; [reflexivity|]. assert (FT : fitting (w_nodes (ex_w true)) (bc_vcs ex_b) 2 sx_ch (sx_cs 4) (sx_ms 4 2)) by (apply sx_fit; lia). split; auto.
  split; [|split; [exact E1|split]].
  - constructor; intros; [cbn; lia|cbn; lia|]. vm_compute. discriminate.
  - intros rs G TT. destruct (stays (private_policy 2) true true 3 1 ex_b true 1 (-1) (-1) 2 sx_ch (sx_cs 4) (sx_ms 4 2) ltac:(lia) ltac:(lia) ltac:(cbn; lia) eq_refl FT hx_first (concat rs) 2 1 s1 o1 G TT ltac:(cbn; lia) ltac:(cbn; lia) E1) as [s [o [E [_ H]]]].
    + vm_compute. discriminate.
    + exists s, (o1 ++ o). split; auto. apply (H 0); [cbn; lia|]. destruct X as [X1 X2]. change (Z.of_nat 0) with 0%Z. rewrite X1, X2. lia.
  - intros m. exists (hx_rounds m). assert (FM : forall f : ginst -> Prop, (forall t, f (sx_node [] t)) -> (forall t, f (sx_noc t)) -> Forall f (concat (hx_rounds m))).
    { intros f F1 F2. unfold hx_rounds. rewrite <- flat_map_concat_map. apply Forall_flat_map, Forall_forall. intros t _. repeat constructor; auto. }
    split; [unfold hx_rounds; rewrite map_length, seq_length; reflexivity|]. split; [|split; [apply hx_turns|split; [|split]]].
    + apply Forall_app. split; [apply hx_good|]. apply FM; intros t; apply sx_good; reflexivity.
    + rewrite hx_cycles. rewrite app_assoc. change (map (fun t => 1 + 2 * Z.of_nat t)%Z (seq 0 26) ++ [65; 67]%Z) with ((map (fun t => 1 + 2 * Z.of_nat t)%Z (seq 0 26) ++ [65]%Z) ++ [67]%Z). rewrite <- app_assoc. cbn [app]. apply growing_app.
      * apply growingb_ok. reflexivity.
      * apply growing_cons; [apply hx_growing|]. intros y r E. destruct m; [discriminate|]. cbn [seq map] in E. injection E as <- _. lia.
    + apply Forall_forall. intros x Hx. apply in_map_iff in Hx. destruct Hx as [t [<- _]]. split; [|split].
      * intros n a Hn. change (n < 3) in Hn. destruct n as [|[|[|n]]]; [| | |lia]; destruct a; cbn; tauto.
      * intros n a Hn. change (n < 3) in Hn. destruct n as [|[|[|n]]]; [| | |lia]; destruct a; cbn; tauto.
      * cbn. tauto.
    + apply FM; intros t; apply sp_helping.
Qed.
Print Assumptions C98_hurried_refuted.

(** ** Examples *)
Definition hx_es : list tev := sys_evs (ex_w true) sx_rf (sx_cs 4) (sx_ms 4 2) hx_first (sys0 (P := private_policy 2) (ex_w true) (sx_cs 4) (sx_ms 4 2)).
Lemma hx_decent : tdecent_run (private_policy 2) (ex_w true) sx_rf (head_ok (rf_dor 3 1) 3 1 (sys_traffic sx_ch) 2) hx_es /\ in_turn (ex_w true) hx_es.
Proof.
  assert (FT : fitting (w_nodes (ex_w true)) (bc_vcs ex_b) 2 sx_ch (sx_cs 4) (sx_ms 4 2)) by (apply sx_fit; lia). pose proof (hx_turns 0) as TT. change (hx_first ++ concat (hx_rounds 0)) with (hx_first ++ []) in TT. rewrite app_nil_r in TT.
  unfold hx_es. exact (evs_decent (private_policy 2) true true 3 1 ex_b true 1 (-1) (-1) 2 sx_ch (sx_cs 4) (sx_ms 4 2) ltac:(lia) ltac:(lia) ltac:(cbn; lia) eq_refl FT hx_first hx_good TT).
Qed.
Example C99_lost_slots_ex : wired (ex_w true) /\ routes_ok (ex_w true) sx_rf (head_ok (rf_dor 3 1) 3 1 (sys_traffic sx_ch) 2) /\ tdecent_run (private_policy 2) (ex_w true) sx_rf (head_ok (rf_dor 3 1) 3 1 (sys_traffic sx_ch) 2) (hx_es ++ []) /\
  in_turn (ex_w true) (hx_es ++ []) /\ map (fun v => (count_occ Nat.eq_dec (freed 2 hx_es) v, lost 2 v false hx_es)) [0; 1] = [(1, 0); (2, 2)].
Proof.
  split; [apply cube_wired; lia|]. split; [apply (dor_routes true true 3 1 ex_b true 1 (-1) (sys_traffic sx_ch)); lia|]. rewrite app_nil_r. destruct hx_decent as [H1 H2]. split; [exact H1|]. split; [exact H2|]. vm_compute. reflexivity.
Qed.
Example C99_starved_ex : new_private (bc_vcs ex_b) (-1) 2 (bc_wait ex_b) = Some (ex_b, private_policy 2) /\ fitting (w_nodes (ex_w true)) (bc_vcs ex_b) 2 sx_ch (sx_cs 4) (sx_ms 4 2) /\
  (forall m, Forall (good_ginst (ex_w true) (sx_cs 4) (sx_ms 4 2)) (hx_first ++ concat (hx_rounds m)) /\ take_turns (w_nodes (ex_w true)) (flat_map g_acts (hx_first ++ concat (hx_rounds m)))) /\ lost 2 1 false hx_es = 2.
Proof.
  split; [reflexivity|]. split; [apply sx_fit; lia|]. split; [|vm_compute; reflexivity]. intros m. split; [|apply hx_turns]. apply Forall_app. split; [apply hx_good|]. unfold hx_rounds. rewrite <- flat_map_concat_map. apply Forall_flat_map, Forall_forall. intros t _.
  repeat apply Forall_cons; try apply Forall_nil; apply sx_good; reflexivity.
Qed.
