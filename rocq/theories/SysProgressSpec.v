(** What the property of a whole system that empties speaks about. *)
From Coq Require Import ZArith Arith Bool List.
From Verif Require Import Fupd ArbiterModel AllocModel AllocSpec BufferModel RouteModel ChannelModel IqRouterModel NetModel NetProgressSpec TermModel AxisSlaveModel AxisMasterModel SysModel SysSpec.
Import ListNotations.
Open Scope nat_scope.

(** The unpacking thread of a node never runs twice between two cycles of the network. *)
Definition dep_acts (n : nat) (l : list act) : list bool := flat_map (fun a => match a with AM m TDepk => if Nat.eqb m n then [true] else [] | ATick => [false] | _ => [] end) l.
Definition unhurried (N : nat) (l : list act) : Prop := forall n l1 l2, n < N -> dep_acts n l <> l1 ++ true :: true :: l2.

(** The numbers of the cycles of the network, which grow. *)
Definition tick_nos (k : clk) (l : list act) : list Z := flat_map (fun a => match a with ATick => [k_now k] | _ => [] end) l.
Definition cycles (gs : list ginst) : list Z := flat_map (fun g => tick_nos (g_clk g) (g_acts g)) gs.
Definition growing (l : list Z) : Prop := forall l1 x y l2, l = l1 ++ x :: y :: l2 -> (x < y)%Z.

(** A round: every thread of every adapter of the nodes runs, and the network goes through a cycle. *)
Definition round (N : nat) (gs : list ginst) : Prop :=
  (forall n t, n < N -> In (AS n t) (flat_map g_acts gs)) /\ (forall n t, n < N -> In (AM n t) (flat_map g_acts gs)) /\ In ATick (flat_map g_acts gs).

(** The modules offer nothing more and take what they are given, and an allocator that is asked grants something. *)
Record helping (w : netcfg) (g : ginst) : Prop := {
  h_quiet : forall n i, n < w_nodes w -> g_inp g n i = None;
  h_ready : forall n i, n < w_nodes w -> g_rdy g n i = true;
  h_gives : forall r, r < w_n w -> gives (c_in (w_cfg w r) * c_vcs (w_cfg w r)) (c_outs (w_cfg w r) * c_vcs (w_cfg w r)) (k_va (g_clk g) r) /\
                                   gives (c_in (w_cfg w r)) (c_outs (w_cfg w r)) (k_sa (g_clk g) r) }.

(** The FIFOs of the adapters hold something, and a packet fits into a buffer of a channel. *)
Record roomy (N : nat) (slots : Z) (cs : Z -> scfg) (ms : nat -> mcfg) : Prop := {
  ro_inj : forall n, n < N -> 1 <= s_depth (cs (Z.of_nat n));
  ro_out : forall d, d < N -> 1 <= m_obdepth (ms d);
  ro_len : forall n i, n < N -> i < s_nif (cs (Z.of_nat n)) -> (Z.of_nat (nflits (cs (Z.of_nat n)) i) <= slots)%Z }.

(** The number of transactions the slave adapters took. *)
Definition accepted (N : nat) (o : list sobs) : nat := list_sum (map (fun n => length (sent_by (Z.of_nat n) o)) (seq 0 N)).
