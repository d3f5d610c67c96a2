(** What the properties of a whole system speak about. *)
From Coq Require Import ZArith Arith Bool List.
From Verif Require Import Bits Fupd AllocModel AllocSpec BufferModel RouteModel ChannelModel IqRouterModel IqRouterSpec NetModel NetSpec NetMeshModel NetMeshSpec StreamSpec TermModel TermSpec
  AxisFormatModel AxisSlaveModel AxisSlaveSpec AxisMasterModel AxisMasterSpec EndToEndSpec SysModel.
Import ListNotations.
Open Scope nat_scope.

(** What one adapter, and the network, showed. *)
Definition of_slave (n : nat) (o : list sobs) : list obs := flat_map (fun x => match x with YS m a => if Nat.eqb m n then [a] else [] | _ => [] end) o.
Definition of_master (n : nat) (o : list sobs) : list mobs := flat_map (fun x => match x with YM m a => if Nat.eqb m n then [a] else [] | _ => [] end) o.
Definition of_net (o : list sobs) : list tobs := flat_map (fun x => match x with YT a => [a] | _ => [] end) o.
(** The transactions that the slave adapter of node [k] took from its module. *)
Definition sent_by (k : Z) (o : list sobs) : list entry := if (0 <=? k)%Z then accepts (of_slave (Z.to_nat k) o) else [].
(** The transactions that the module of node [d] took from interface [i] of its master adapter. *)
Definition seen_at (d i : nat) (o : list sobs) : list aout := delivers i (of_master d o).

(** The injection thread of a node and the cycles of the network take turns, and so do its ejection thread and the cycles. *)
Definition inj_acts (n : nat) (l : list act) : list bool := flat_map (fun a => match a with AS m TInj => if Nat.eqb m n then [true] else [] | ATick => [false] | _ => [] end) l.
Definition ej_acts (n : nat) (l : list act) : list bool := flat_map (fun a => match a with AM m TEject => if Nat.eqb m n then [true] else [] | ATick => [false] | _ => [] end) l.
Definition take_turns (N : nat) (l : list act) : Prop := forall n, n < N -> alternate (inj_acts n l) /\ alternate (ej_acts n l).

(** The traffic the routing function sees: source, destination, and the channel of the type. *)
Definition sys_traffic (ch : Z -> nat) : traffic :=
  {| y_src := fun i => Z.to_nat (b_src (bdecode i)); y_dest := fun i => Z.to_nat (bs_node (b_dst (bdecode i))); y_b := fun i => ch (b_type (bdecode i)); y_e := fun i => ch (b_type (bdecode i)) |}.

(** The nodes that exist, the channel [ch] of each type of flit, and the adapters fit together.  The last condition is about the depth of the ejection FIFOs: a FIFO holds as many flits as the
    last router may send ahead. *)
Record fitting (N vcs : nat) (slots : Z) (ch : Z -> nat) (cs : Z -> scfg) (ms : nat -> mcfg) : Prop := {
  ft_m : forall d, d < N -> good_mcfg (ms d) /\ vcs <= m_nvc (ms d);
  ft_s : forall k, good_scfg (cs k) /\ s_node (cs k) = k;
  ft_w : forall d k, d < N -> s_w (cs k) = m_w (ms d);
  ft_vc : forall k i, (0 <= k < Z.of_nat N)%Z -> i < s_nif (cs k) -> trunc (s_vcidw (cs k)) (s_vc_of (cs k) (s_type (cs k) i)) = Z.of_nat (ch (s_type (cs k) i)) /\ ch (s_type (cs k) i) < vcs;
  ft_depth : forall d, d < N -> (slots <= Z.of_nat (m_ejdepth (ms d)))%Z }.

(** What the modules may put on interface [i] of node [n]: the destination exists and its adapter has the interface named, wide enough. *)
Definition good_txn (N : nat) (cs : Z -> scfg) (ms : nat -> mcfg) (n i : nat) (t : txn) : Prop :=
  let c := cs (Z.of_nat n) in let e := {| e_txn := t; e_id := 0; e_iface := i |} in
  let d := bs_node (target c e) in (0 <= d < Z.of_nat N)%Z /\ fits (ms (Z.to_nat d)) c e.
(** An instant: no thread runs twice, the nodes exist, and the allocators match requests. *)
Record good_ginst (w : netcfg) (cs : Z -> scfg) (ms : nat -> mcfg) (g : ginst) : Prop := {
  gi_once : NoDup (g_acts g);
  gi_node : forall a, In a (g_acts g) -> match a with AS n _ | AM n _ => n < w_nodes w | ATick => True end;
  gi_txn : forall n i t, n < w_nodes w -> i < s_nif (cs (Z.of_nat n)) -> g_inp g n i = Some t -> good_txn (w_nodes w) cs ms n i t;
  gi_va : forall r l, r < w_n w -> legal_asks (c_in (w_cfg w r) * c_vcs (w_cfg w r)) (c_outs (w_cfg w r) * c_vcs (w_cfg w r)) l -> matching l (k_va (g_clk g) r l);
  gi_sa : forall r l, r < w_n w -> legal_asks (c_in (w_cfg w r)) (c_outs (w_cfg w r)) l -> matching l (k_sa (g_clk g) r l) }.

(** Nothing is under way: no adapter holds a transaction, no flit is in the network, at a node or not read yet. *)
Definition at_rest {P} (w : netcfg) (ms : nat -> mcfg) (l : list act) (s : sys P) : Prop :=
  (forall n, n < w_nodes w -> infifo (y_sl s n) = [] /\ injfifo (y_sl s n) = [] /\ tobe (y_sl s n) = None) /\
  inside w (tm_net (y_t s)) = [] /\
  (forall n, n < w_nodes w -> tm_inj (y_t s) n = None /\ (last (ej_acts n l) false = true \/ ch_out (n_f (tm_net (y_t s)) (Ej n)) = None)) /\
  (forall n, n < w_nodes w -> (forall v, v < m_nvc (ms n) -> ejf (y_ma s n) v = []) /\ depk (y_ma s n) = false /\ forall i, i < m_nif (ms n) -> outq (y_ma s n) i = []).

Definition toward (d : nat) (x : bs_dest) : bool := Z.eqb (bs_node x) (Z.of_nat d).
Definition by_type (ch : Z -> nat) (k t id : Z) : nat := ch t.
