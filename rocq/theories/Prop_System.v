(** Modules that talk through AXI-S adapters and a mesh: what one module sends another receives.  Nothing is assumed about the network: adapters (C49 to C55), terminals (C82), routers and channels (C76 to C83)
    are all the models of the code. *)
From Coq Require Import ZArith Arith Bool List Lia.
From Verif Require Import Bits Fupd AllocModel AllocSpec BufferModel RouteModel ChannelModel CreditModel IqRouterModel IqRouterSpec Prop_IqRouter NetModel NetSpec NetMeshModel NetMeshSpec Prop_Net StreamSpec TermModel TermSpec TermFlow Prop_Term
  AxisFormatModel AxisSlaveModel AxisSlaveSpec AxisMasterModel AxisMasterSpec EndToEndSpec FlitCode SysModel SysSpec SysProofs.
Import ListNotations.
Open Scope nat_scope.

(** ** C84: on a mesh with dimension-order routing, with an AXI-S slave and an AXI-S master adapter on every node, every execution succeeds, and for every node there is a history of
    transactions, each with its sender and channel, such that the part of one sender and channel is the first part of what that sender's module handed over for this node and channel, in order, and what the module sees
    at an interface is the first part of the transactions of the history for that interface, with equal data, user bits and last flag.  If nothing is under way any more, the history has all of it and the module has seen
    all of it. *)
Theorem C84_system : forall P mesh nl k n b rd cd ob buf_size vc_buf_size ch cs ms gs, (1 <= k)%Z -> buf_size <> 0%Z -> 0 < bc_vcs b ->
  new_private (bc_vcs b) buf_size vc_buf_size (bc_wait b) = Some (b, P) ->
  let w := cube mesh nl k n b rd cd ob in let rf := routes_of (dim_order_mesh k n (k ^ Z.of_nat n)) (sys_traffic ch) in
  fitting (w_nodes w) (bc_vcs b) (if buf_size <? 0 then vc_buf_size else buf_size / Z.of_nat (bc_vcs b))%Z ch cs ms ->
  Forall (good_ginst w cs ms) gs -> take_turns (w_nodes w) (flat_map g_acts gs) ->
  exists (s : sys P) o, sys_run w rf cs ms gs (sys0 w cs ms) = Some (s, o) /\ forall d, d < w_nodes w ->
    (exists hist : list (nat * (Z * entry)),
      (forall q v, prefix (part q v hist) (filter (meant (toward d) (by_type ch) cs q v) (sent_by q o))) /\
      (forall i, prefix (seen_at d i o) (map (received (ms d) cs) (filter (to_iface (ms d) i) (map snd hist))))) /\
    (at_rest w ms (flat_map g_acts gs) s -> exists hist : list (nat * (Z * entry)),
      (forall q v, part q v hist = filter (meant (toward d) (by_type ch) cs q v) (sent_by q o)) /\
      (forall i, seen_at d i o = map (received (ms d) cs) (filter (to_iface (ms d) i) (map snd hist)))).
Proof.
  intros P mesh nl k n b rd cd ob bz vz ch cs ms gs K Hb Hv EP w rf FT G TT.
  destruct (delivered P mesh nl k n b rd cd ob bz vz ch cs ms K Hb Hv EP FT gs G TT) as [s [o [E H]]]. exists s, o. split; auto. intros d Hd. destruct (H d Hd) as [hist [H1 [H2 H3]]]. split; eauto.
Qed.
Print Assumptions C84_system.

(** ** C86, for AXI-S: if the packets of all interfaces have more flits than a virtual channel of a router's buffer, no module ever sees a transaction, in no execution and however long it goes on. *)
Theorem C86_too_long_stream : forall P mesh nl k n b rd cd ob buf_size vc_buf_size ch cs ms gs d i, (1 <= k)%Z -> buf_size <> 0%Z -> 0 < bc_vcs b ->
  new_private (bc_vcs b) buf_size vc_buf_size (bc_wait b) = Some (b, P) ->
  let w := cube mesh nl k n b rd cd ob in let rf := routes_of (dim_order_mesh k n (k ^ Z.of_nat n)) (sys_traffic ch) in
  let room := (if buf_size <? 0 then vc_buf_size else buf_size / Z.of_nat (bc_vcs b))%Z in
  fitting (w_nodes w) (bc_vcs b) room ch cs ms -> Forall (good_ginst w cs ms) gs -> take_turns (w_nodes w) (flat_map g_acts gs) ->
  d < w_nodes w -> (forall q j, (0 <= q < Z.of_nat (w_nodes w))%Z -> j < s_nif (cs q) -> (room < num_flits (s_w (cs q)) (s_dataw (cs q) j))%Z) ->
  exists (s : sys P) o, sys_run w rf cs ms gs (sys0 w cs ms) = Some (s, o) /\ seen_at d i o = [].
Proof.
  intros P mesh nl k n b rd cd ob bz vz ch cs ms gs d i K Hb Hv EP w rf room FT G TT Hd L.
  destruct (stuck P mesh nl k n b rd cd ob bz vz ch cs ms K Hb Hv EP FT d Hd L gs G TT) as [s [o [E H]]]. eauto.
Qed.
Print Assumptions C86_too_long_stream.

(** ** Examples *)
(** Adapters with two interfaces of [x] bits, one per type; types 0 and 1 go over channels 0 and 1. *)
Definition sx_cs (x : Z) (k : Z) : scfg :=
  {| s_w := repo_widths; s_vcidw := 3; s_node := k; s_rad := 0; s_portal := 16; s_nif := 2; s_dataw := fun _ => x; s_type := fun i => Z.of_nat i; s_vc_of := fun t => t; s_depth := 2 |}.
Definition sx_ms (x : Z) (ej : nat) (d : nat) : mcfg := {| m_w := repo_widths; m_nvc := 2; m_nif := 2; m_dataw := fun _ => x; m_ejdepth := ej; m_obdepth := 2 |}.
Definition sx_ch (t : Z) : nat := Z.to_nat t.
Definition sx_rf : nat -> nat -> flit -> list oelem := routes_of (dim_order_mesh 3 1 (3 ^ Z.of_nat 1)) (sys_traffic sx_ch).
Lemma sx_fit : forall x ej sl, (1 <= x <= 512)%Z -> (sl <= Z.of_nat ej)%Z -> fitting 3 2 sl sx_ch (sx_cs x) (sx_ms x ej).
Proof.
  intros x ej sl Hx Hs. constructor.
  - intros d _. split; [split; cbn; lia|cbn; lia].
  - intros k. split; [|reflexivity]. split; [reflexivity|]. split; [reflexivity|]. split; [cbn; lia|]. intros i _. cbn. lia.
  - reflexivity.
  - intros k i _ Hi. cbn in Hi. destruct i as [|[|i]]; [split; [reflexivity|unfold sx_ch; cbn [sx_cs s_type]; lia]|split; [reflexivity|unfold sx_ch; cbn [sx_cs s_type]; lia]|lia].
  - intros. exact Hs.
Qed.
(** What the modules show: at interface [i] of node [n] the transaction with data [x] for interface [j] of node [d]. *)
Definition sx_want := list (nat * nat * (Z * Z * Z)).
Definition sx_inp (l : sx_want) (n i : nat) : option txn :=
  match find (fun a => Nat.eqb (fst (fst a)) n && Nat.eqb (snd (fst a)) i) l with
  | Some (_, (x, d, j)) => Some {| t_data := x; t_user := 5; t_last := true; t_dest := d; t_tid := j |}
  | None => None
  end.
Definition sx_inst (l : list act) (a : sx_want) (t : Z) (r : bool) : ginst :=
  {| g_acts := l; g_inp := sx_inp a; g_id := fun n => (10 * t + Z.of_nat n)%Z; g_rdy := fun _ _ => r; g_now := fun _ => t; g_clk := tx_clk t |}.
(** An edge of the clocks of the adapters and modules, and an edge of the NoC clock. *)
Definition sx_node (a : sx_want) (t : Z) : ginst := sx_inst (flat_map (fun n => [AM n TOut; AM n TDepk; AS n TIface; AS n TPack]) [0; 1; 2]) a t true.
Definition sx_noc (t : Z) : ginst := sx_inst (flat_map (fun n => [AM n TEject; AS n TInj]) [0; 1; 2] ++ [ATick]) [] t true.
(** All threads at the same instant. *)
Definition sx_both (a : sx_want) (t : Z) : ginst := sx_inst (flat_map (fun n => [AS n TInj; AM n TDepk; AS n TPack; AM n TEject; AS n TIface; AM n TOut]) [2; 0; 1] ++ [ATick]) a t true.

Definition okact (n : nat) (a : act) : bool := match a with AS m _ | AM m _ => Nat.ltb m n | ATick => true end.
Definition same_act (x y : act) : {x = y} + {x <> y}.
Proof. repeat decide equality. Defined.
Definition okwant (ej : nat) (x : Z) (a : sx_want) : bool :=
  forallb (fun a => match a with (_, (v, d, j)) => Z.leb 0 v && Z.ltb v (2 ^ x) && Z.leb 0 d && Z.ltb d 3 && Z.leb 0 j && Z.ltb j 2 end) a.
Lemma sx_good : forall ej x l a t r, okwant ej x a = true -> forallb (okact 3) l = true -> nodup same_act l = l -> good_ginst (ex_w true) (sx_cs x) (sx_ms x ej) (sx_inst l a t r).
Proof.
  intros ej x l a t r Ha Hl Nd. constructor; cbn [g_acts g_inp g_clk sx_inst].
  - rewrite <- Nd. apply NoDup_nodup.
  - intros y Hy. rewrite forallb_forall in Hl. specialize (Hl y Hy). change (w_nodes (ex_w true)) with 3. destruct y; cbn [okact] in Hl; auto; apply Nat.ltb_lt; exact Hl.
  - intros n i tx _ _ H. unfold sx_inp in H. destruct (find _ a) as [[[n' i'] [[v d] j]]|] eqn:F; [|discriminate]. injection H as <-. apply find_some in F. destruct F as [F _].
    unfold okwant in Ha. rewrite forallb_forall in Ha. specialize (Ha _ F). cbn in Ha. repeat (apply andb_true_iff in Ha; let A := fresh "A" in destruct Ha as [Ha A]).
    apply Z.leb_le in Ha. apply Z.ltb_lt in A, A1. apply Z.ltb_lt in A3. apply Z.leb_le in A0, A2.
    assert (D : d = 0%Z \/ d = 1%Z \/ d = 2%Z) by lia. assert (J : j = 0%Z \/ j = 1%Z) by lia.
    assert (B : bs_node (target (sx_cs x (Z.of_nat n)) {| e_txn := {| t_data := v; t_user := 5; t_last := true; t_dest := d; t_tid := j |}; e_id := 0; e_iface := i |}) = d) by (destruct D as [-> | [-> | ->]]; vm_compute; reflexivity).
    unfold good_txn. rewrite B. split; [change (Z.of_nat (w_nodes (ex_w true))) with 3%Z; lia|]. split; [cbn; lia|]. split; [cbn [e_txn t_data e_iface sx_cs s_dataw]; lia|].
    cbn [e_txn t_tid e_iface sx_cs sx_ms s_dataw m_w m_nif m_dataw]. split; [destruct J as [-> | ->]; vm_compute; lia|lia].
  - intros. apply greedy_ok.
  - intros. apply greedy_ok.
Qed.
Definition turnsb (N : nat) (l : list act) : bool := forallb (fun n => alternateb (inj_acts n l) && alternateb (ej_acts n l)) (seq 0 N).
Lemma turnsb_ok : forall N l, turnsb N l = true -> take_turns N l.
Proof.
  intros N l H n Hn. unfold turnsb in H. rewrite forallb_forall in H. specialize (H n ltac:(apply in_seq; lia)). apply andb_true_iff in H. destruct H. split; apply alternateb_ok; auto.
Qed.
Definition nilb {A} (l : list A) : bool := match l with [] => true | _ => false end.
Definition noneb {A} (o : option A) : bool := match o with None => true | _ => false end.
Definition restb {P} (w : netcfg) (ms : nat -> mcfg) (l : list act) (s : sys P) : bool :=
  nilb (inside w (tm_net (y_t s))) &&
  forallb (fun n => nilb (infifo (y_sl s n)) && nilb (injfifo (y_sl s n)) && noneb (tobe (y_sl s n)) && noneb (tm_inj (y_t s) n) && (last (ej_acts n l) false || noneb (ch_out (n_f (tm_net (y_t s)) (Ej n)))) &&
    forallb (fun v => nilb (ejf (y_ma s n) v)) (seq 0 (m_nvc (ms n))) && negb (depk (y_ma s n)) && forallb (fun i => nilb (outq (y_ma s n) i)) (seq 0 (m_nif (ms n)))) (seq 0 (w_nodes w)).
Lemma nilb_ok : forall A (l : list A), nilb l = true -> l = []. Proof. intros A [|]; [auto|discriminate]. Qed.
Lemma noneb_ok : forall A (l : option A), noneb l = true -> l = None. Proof. intros A [|]; [discriminate|auto]. Qed.
Lemma restb_ok : forall P w ms l (s : sys P), restb w ms l s = true -> at_rest w ms l s.
Proof.
  intros P w ms l s H. unfold restb in H. apply andb_true_iff in H. destruct H as [H1 H2]. rewrite forallb_forall in H2.
  assert (X : forall n, n < w_nodes w -> (infifo (y_sl s n) = [] /\ injfifo (y_sl s n) = [] /\ tobe (y_sl s n) = None) /\ (tm_inj (y_t s) n = None /\ (last (ej_acts n l) false = true \/ ch_out (n_f (tm_net (y_t s)) (Ej n)) = None)) /\
    ((forall v, v < m_nvc (ms n) -> ejf (y_ma s n) v = []) /\ depk (y_ma s n) = false /\ forall i, i < m_nif (ms n) -> outq (y_ma s n) i = [])).
  { intros n Hn. specialize (H2 n ltac:(apply in_seq; lia)). do 7 (apply andb_true_iff in H2; let A := fresh "A" in destruct H2 as [H2 A]). rewrite forallb_forall in A, A1. apply orb_true_iff in A2.
    split; [split; [apply nilb_ok; auto|split; [apply nilb_ok; auto|apply noneb_ok; auto]]|]. split; [split; [apply noneb_ok; auto|destruct A2; [left; auto|right; apply noneb_ok; auto]]|].
    split; [intros v Hv; apply nilb_ok, A1, in_seq; lia|]. split; [apply negb_true_iff; auto|]. intros i Hi. apply nilb_ok, A, in_seq. lia. }
  split; [intros n Hn; apply (X n Hn)|]. split; [apply nilb_ok; auto|]. split; intros n Hn; apply (X n Hn).
Qed.

(** A row of three nodes, 64-bit interfaces (two flits per packet).  Node 0 sends 11 to interface 1 and 12 to interface 0 of node 2, node 1 sends 21 to node 2 on the other channel, and node 2 sends 31 to node 0 and 32 to itself. *)
Definition sx_gs : list ginst :=
  [sx_node [(0, 0, (11, 2, 1)%Z); (1, 1, (21, 2, 1)%Z); (2, 0, (31, 0, 0)%Z)] 0; sx_noc 1; sx_node [(0, 0, (12, 2, 0)%Z); (2, 1, (32, 2, 1)%Z)] 2; sx_noc 3] ++
  flat_map (fun t => [sx_both [] (4 + 2 * Z.of_nat t); sx_noc (5 + 2 * Z.of_nat t)]%Z) (seq 0 4) ++ flat_map (fun t => [sx_node [] (12 + 2 * Z.of_nat t); sx_noc (13 + 2 * Z.of_nat t)]%Z) (seq 0 24).
Lemma sx_gs_good : forall x, x = 64%Z \/ x = 256%Z -> Forall (good_ginst (ex_w true) (sx_cs x) (sx_ms x 2)) sx_gs.
Proof.
  intros x Hx. unfold sx_gs. apply Forall_app. split; [|apply Forall_app; split].
  - repeat apply Forall_cons; try apply Forall_nil; apply sx_good; try reflexivity; destruct Hx as [-> | ->]; reflexivity.
  - apply Forall_flat_map. apply Forall_forall. intros t _. repeat apply Forall_cons; try apply Forall_nil; apply sx_good; try reflexivity; destruct Hx as [-> | ->]; reflexivity.
  - apply Forall_flat_map. apply Forall_forall. intros t _. repeat apply Forall_cons; try apply Forall_nil; apply sx_good; try reflexivity; destruct Hx as [-> | ->]; reflexivity.
Qed.
Definition sx_look {P} (r : option (sys P * list sobs)) (N : nat) : option (list (list Z) * list (list (list Z))) :=
  match r with
  | Some (_, o) => Some (map (fun q => map (fun e => t_data (e_txn e)) (sent_by (Z.of_nat q) o)) (seq 0 N), map (fun d => map (fun i => map a_data (seen_at d i o)) [0; 1]) (seq 0 N))
  | None => None
  end.
Example C84_system_ex : new_private (bc_vcs ex_b) (-1) 2 (bc_wait ex_b) = Some (ex_b, private_policy 2) /\ fitting (w_nodes (ex_w true)) (bc_vcs ex_b) 2 sx_ch (sx_cs 64) (sx_ms 64 2) /\
  Forall (good_ginst (ex_w true) (sx_cs 64) (sx_ms 64 2)) sx_gs /\ take_turns (w_nodes (ex_w true)) (flat_map g_acts sx_gs) /\
  let r := sys_run (ex_w true) sx_rf (sx_cs 64) (sx_ms 64 2) sx_gs (sys0 (P := private_policy 2) (ex_w true) (sx_cs 64) (sx_ms 64 2)) in
  sx_look r 3 = Some ([[11; 12]; [21]; [31; 32]], [[[31]; []]; [[]; []]; [[12]; [32; 11; 21]]])%Z /\
  match r with Some (s, _) => at_rest (ex_w true) (sx_ms 64 2) (flat_map g_acts sx_gs) s | None => False end.
Proof.
  split; [reflexivity|]. split; [apply sx_fit; lia|]. split; [apply sx_gs_good; auto|]. split; [apply turnsb_ok; vm_compute; reflexivity|]. cbv zeta. split; [vm_compute; reflexivity|].
  assert (R : match sys_run (ex_w true) sx_rf (sx_cs 64) (sx_ms 64 2) sx_gs (sys0 (P := private_policy 2) (ex_w true) (sx_cs 64) (sx_ms 64 2)) with Some (s, _) => restb (ex_w true) (sx_ms 64 2) (flat_map g_acts sx_gs) s | None => false end = true) by (vm_compute; reflexivity).
  destruct (sys_run _ _ _ _ _ _) as [[s o]|]; [|discriminate]. apply restb_ok. exact R.
Qed.

(** The same traffic with interfaces of 256 bits: packets of five flits, two places in a virtual channel.  Nothing arrives. *)
Example C86_too_long_stream_ex : new_private (bc_vcs ex_b) (-1) 2 (bc_wait ex_b) = Some (ex_b, private_policy 2) /\ fitting (w_nodes (ex_w true)) (bc_vcs ex_b) 2 sx_ch (sx_cs 256) (sx_ms 256 2) /\
  Forall (good_ginst (ex_w true) (sx_cs 256) (sx_ms 256 2)) sx_gs /\ take_turns (w_nodes (ex_w true)) (flat_map g_acts sx_gs) /\
  (forall q j, num_flits (s_w (sx_cs 256 q)) (s_dataw (sx_cs 256 q) j) = 5%Z) /\
  sx_look (sys_run (ex_w true) sx_rf (sx_cs 256) (sx_ms 256 2) sx_gs (sys0 (P := private_policy 2) (ex_w true) (sx_cs 256) (sx_ms 256 2))) 3 = Some ([[11; 12]; [21]; [31; 32]], [[[]; []]; [[]; []]; [[]; []]])%Z.
Proof.
  split; [reflexivity|]. split; [apply sx_fit; lia|]. split; [apply sx_gs_good; auto|]. split; [apply turnsb_ok; vm_compute; reflexivity|]. split; [intros; vm_compute; reflexivity|]. vm_compute. reflexivity.
Qed.

(** With ejection FIFOs that hold one flit less than the router may send ahead, everything else being equal, a transaction is lost: while a flit waits for room in its FIFO the adapter does not read
    (rad-sim/sim/noc/axis_master_adapter.cpp:75), and the next flit replaces the one on the ejection channel. *)
Definition sx_slow (a : sx_want) (t : Z) : ginst := sx_inst (flat_map (fun n => [AS n TIface; AS n TPack]) [0; 1; 2]) a t true.
Definition sx_lost : list ginst :=
  flat_map (fun t => [sx_slow (if Nat.ltb t 2 then [(0, 0, (1 + Z.of_nat t, 2, 0)%Z)] else if Nat.eqb t 10 then [(1, 1, (3, 2, 0)%Z)] else []) (2 * Z.of_nat t); sx_noc (1 + 2 * Z.of_nat t)]) (seq 0 24) ++
  flat_map (fun t => [sx_node [] (48 + 2 * Z.of_nat t); sx_noc (49 + 2 * Z.of_nat t)]%Z) (seq 0 24).
Theorem C84_depth_refuted : exists P ch cs ms gs, let w := ex_w true in let rf := routes_of (dim_order_mesh 3 1 (3 ^ Z.of_nat 1)) (sys_traffic ch) in
  new_private (bc_vcs ex_b) (-1) 2 (bc_wait ex_b) = Some (ex_b, P) /\ fitting (w_nodes w) (bc_vcs ex_b) 1 ch cs ms /\ Forall (good_ginst w cs ms) gs /\ take_turns (w_nodes w) (flat_map g_acts gs) /\
  exists (s : sys P) o, sys_run w rf cs ms gs (sys0 w cs ms) = Some (s, o) /\ at_rest w ms (flat_map g_acts gs) s /\
    map (fun e => (bs_node (target (cs 1%Z) e), t_data (e_txn e))) (sent_by 1 o) = [(2, 3)]%Z /\ map a_data (seen_at 2 0 o) = [1; 2]%Z /\ map a_data (seen_at 2 1 o) = [].
Proof.
  exists (private_policy 2), sx_ch, (sx_cs 4), (sx_ms 4 1), sx_lost. cbv zeta. split; [reflexivity|]. split; [apply sx_fit; lia|]. split; [|split; [apply turnsb_ok; vm_compute; reflexivity|]].
  - unfold sx_lost. apply Forall_app. split; apply Forall_flat_map; apply Forall_forall; intros t _; repeat apply Forall_cons; try apply Forall_nil; apply sx_good; try reflexivity.
    destruct t as [|[|t]]; [reflexivity|reflexivity|]. cbn [Nat.ltb Nat.leb]. destruct (Nat.eqb _ 10); reflexivity.
  - fold sx_rf. assert (R : match sys_run (ex_w true) sx_rf (sx_cs 4) (sx_ms 4 1) sx_lost (sys0 (P := private_policy 2) (ex_w true) (sx_cs 4) (sx_ms 4 1)) with
      | Some (s, o) => restb (ex_w true) (sx_ms 4 1) (flat_map g_acts sx_lost) s = true /\ map (fun e => (bs_node (target (sx_cs 4 1%Z) e), t_data (e_txn e))) (sent_by 1 o) = [(2, 3)]%Z /\ map a_data (seen_at 2 0 o) = [1; 2]%Z /\ map a_data (seen_at 2 1 o) = []
      | None => False end) by (vm_compute; auto).
    destruct (sys_run _ _ _ _ _ _) as [[s o]|]; [|contradiction]. exists s, o. destruct R as [R1 R2]. split; auto. split; [apply restb_ok; exact R1|exact R2].
Qed.
Print Assumptions C84_depth_refuted.
