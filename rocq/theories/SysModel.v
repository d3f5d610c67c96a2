(** Modules with AXI-S interfaces on a network: on every node an AXI-S slave adapter (AxisSlaveModel.v) and an AXI-S master adapter (AxisMasterModel.v), between them the
    network with its terminals (TermModel.v).  Every instant of the simulation wakes some threads of the adapters and of the NoC, which run in any order. *)
From Coq Require Import ZArith Arith Bool List.
From Verif Require Import Fupd ArbiterModel AllocModel BufferModel RouteModel ChannelModel CreditModel IqRouterModel NetModel TermModel AxisFormatModel AxisSlaveModel AxisMasterModel FlitCode.
Import ListNotations.
Open Scope nat_scope.

(** The flit of rad-sim/sim/noc/axis_slave_adapter.cpp:220-252 as a number. *)
Definition bcode (f : bflit) : Z :=
  zcode [Z.b2z (b_head f); Z.b2z (b_tail f); b_type f; b_vc f; b_src f; bs_node (b_dst f); bs_rad (b_dst f); bs_remote (b_dst f); b_iface f; b_pid f; b_data f].
(** The flit read at rad-sim/sim/noc/axis_master_adapter.cpp:75. *)
Definition bdecode (i : Z) : bflit :=
  match zdecode i with
  | [h; t; y; v; s; d; r; m; j; p; x] =>
      {| b_head := Z.eqb h 1; b_tail := Z.eqb t 1; b_type := y; b_vc := v; b_src := s; b_dst := {| bs_node := d; bs_rad := r; bs_remote := m |}; b_iface := j; b_pid := p; b_data := x |}
  | _ => {| b_head := false; b_tail := false; b_type := 0; b_vc := 0; b_src := 0; b_dst := {| bs_node := 0; bs_rad := 0; bs_remote := 0 |}; b_iface := 0; b_pid := 0; b_data := 0 |}
  end.
(** The fields the routers look at, rad-sim/sim/noc/axis_slave_adapter.cpp:220-251. *)
Definition net_flit (f : bflit) : flit :=
  {| IqRouterModel.f_id := bcode f; IqRouterModel.f_pid := b_pid f; IqRouterModel.f_head := b_head f; IqRouterModel.f_tail := b_tail f; IqRouterModel.f_vc := Z.to_nat (b_vc f); f_la := [] |}.
(** rad-sim/sim/noc/axis_master_adapter.cpp:75. *)
Definition bs_flit (g : flit) : bflit := bdecode (IqRouterModel.f_id g).

(** The threads of the adapters, rad-sim/sim/noc/axis_slave_adapter.cpp:62-67 and rad-sim/sim/noc/axis_master_adapter.cpp:52-57, and of the NoC, rad-sim/sim/noc/radsim_noc.cpp:301-321. *)
Inductive act := AS (n : nat) (t : thread) | AM (n : nat) (t : mthread) | ATick.
(** An instant: the threads woken in the order in which they run, what the modules show on the interfaces of the slave adapters, the ids of telemetry, tready of the interfaces of the
    master adapters, the cycle numbers the adapters use, rad-sim/sim/noc/axis_slave_adapter.cpp:226, and what a cycle of the network gets. *)
Record ginst := { g_acts : list act; g_inp : nat -> nat -> option txn; g_id : nat -> Z; g_rdy : nat -> nat -> bool; g_now : nat -> Z; g_clk : clk }.
(** What the parts show; rad-sim/sim/noc/axis_slave_adapter.cpp:62-67, rad-sim/sim/noc/axis_master_adapter.cpp:52-57 and rad-sim/sim/noc/booksim/networks/network.cpp:197-208. *)
Inductive sobs := YS (n : nat) (o : obs) | YM (n : nat) (o : mobs) | YT (o : tobs).
(** The states of the parts, rad-sim/sim/noc/radsim_noc.hpp:28-60. *)
Record sys (P : bpolicy) := mkY { y_t : term P; y_sl : nat -> sst; y_ma : nat -> mst }.
Arguments mkY {P}. Arguments y_t {P}. Arguments y_sl {P}. Arguments y_ma {P}.

(** The flit the injection thread offers, rad-sim/sim/noc/axis_slave_adapter.cpp:208-213. *)
Definition waiting (s : sst) : option sflit := match tobe s with Some f => Some f | None => head (injfifo s) end.
(** A flit read from the network, rad-sim/sim/noc/axis_master_adapter.cpp:75. *)
Definition load (x : list bflit) (s : mst) : mst :=
  {| inq := x; pendfl := pendfl s; ejf := ejf s; pushc := pushc s; pushn := pushn s; popc := popc s; prioq := prioq s; depk := depk s; constr := constr s; outq := outq s; chunk := chunk s; port := port s |}.

Section Sys.
Context {P : bpolicy} (w : netcfg) (rf : nat -> nat -> flit -> list oelem) (cs : Z -> scfg) (ms : nat -> mcfg).

(** rad-sim/sim/noc/radsim_noc.cpp:41-255. *)
Definition sys0 : sys P := mkY (term0 P w) (fun n => s_init (cs (Z.of_nat n))) (fun n => m_init (ms n) []).

(** What a slave adapter sees, rad-sim/sim/noc/axis_slave_adapter.cpp:78-148; [b]: the network took the flit. *)
Definition seen (g : ginst) (n : nat) (l : list thread) (b : bool) : instant := {| ths := l; inp := g_inp g n; new_id := g_id g n; can := b |}.
(** rad-sim/sim/noc/axis_slave_adapter.cpp:57-61 and 78-105 : the ready logic of a slave adapter. *)
Definition valid (g : ginst) (n i : nat) : bool := match g_inp g n i with Some _ => true | None => false end.
(** rad-sim/sim/noc/axis_slave_adapter.cpp:78-105. *)
Definition settled (g : ginst) (n : nat) (s : sst) : sst :=
  {| infifo := infifo s; infull := infull s; cyc := cyc s; injfull := injfull s; injfifo := injfifo s; tobe := tobe s; prio := snd (input_ready (cs (Z.of_nat n)) (valid g n) s) |}.
(** rad-sim/sim/noc/axis_slave_adapter.cpp:100-104. *)
Definition granted (g : ginst) (n : nat) (s : sst) : option nat := fst (input_ready (cs (Z.of_nat n)) (valid g n) s).

(** rad-sim/sim/noc/axis_slave_adapter.cpp:207-281 : the injection thread. *)
Definition inj_act (g : ginst) (n : nat) (s : sys P) : option (sys P * list sobs) :=
  let c := cs (Z.of_nat n) in
  match term_step w rf (VInj n (g_now g n) (option_map (fun f => net_flit (to_bflit c f)) (waiting (y_sl s n)))) (y_t s) with
  | Some (t, o) => let '(sl, os) := run_inj c (seen g n [] (match o with [] => false | _ => true end)) (y_sl s n) in
                   Some (mkY t (fupd (y_sl s) n sl) (y_ma s), map YT o ++ map (YS n) os)
  | None => None
  end.
(** rad-sim/sim/noc/axis_master_adapter.cpp:72-117 : the ejection thread. *)
Definition ej_act (n : nat) (s : sys P) : option (sys P * list sobs) :=
  match (match pendfl (y_ma s n) with None => term_step w rf (VRead n) (y_t s) | Some _ => Some (y_t s, []) end) with
  | Some (t, o) =>
      match run_eject (ms n) true (load (flat_map (fun x => match x with Got _ f => [bs_flit f] | Took _ _ => [] end) o) (y_ma s n)) with
      | Some (m, om) => Some (mkY t (y_sl s) (fupd (y_ma s) n m), map YT o ++ map (YM n) om)
      | None => None
      end
  | None => None
  end.
(** rad-sim/sim/noc/axis_master_adapter.cpp:182 : the slots a node freed. *)
Definition free_all (n : nat) (om : list mobs) (t : term P) : option (term P) :=
  option_map fst (term_run w rf (flat_map (fun x => match x with Free v => [VFree n v] | _ => [] end) om) t).
(** rad-sim/sim/noc/axis_master_adapter.cpp:52-57 : the other threads of a master adapter. *)
Definition ma_act (g : ginst) (n : nat) (t : mthread) (s : sys P) : option (sys P * list sobs) :=
  match m_thread (ms n) {| mths := []; mavail := false; mrdy := g_rdy g n |} t (y_ma s n) with
  | Some (m, om) => match free_all n om (y_t s) with
                    | Some t' => Some (mkY t' (y_sl s) (fupd (y_ma s) n m), map (YM n) om)
                    | None => None
                    end
  | None => None
  end.
(** One thread; [rdy] is what the ready logic gave, rad-sim/sim/noc/axis_slave_adapter.cpp:62-67, rad-sim/sim/noc/axis_master_adapter.cpp:52-57 and rad-sim/sim/noc/radsim_noc.cpp:301-321. *)
Definition do_act (g : ginst) (rdy : nat -> option nat) (a : act) (s : sys P) : option (sys P * list sobs) :=
  match a with
  | AS n TInj => inj_act g n s
  | AS n t => let '(sl, os) := run_thread (cs (Z.of_nat n)) (seen g n [] false) (rdy n) t (y_sl s n) in Some (mkY (y_t s) (fupd (y_sl s) n sl) (y_ma s), map (YS n) os)
  | AM n TEject => ej_act n s
  | AM n t => ma_act g n t s
  | ATick => match term_step w rf (VTick (g_clk g)) (y_t s) with Some (t, o) => Some (mkY t (y_sl s) (y_ma s), map YT o) | None => None end
  end.
(** All threads woken, rad-sim/sim/noc/radsim_noc.cpp:260-321. *)
Fixpoint do_acts (g : ginst) (rdy : nat -> option nat) (l : list act) (s : sys P) : option (sys P * list sobs) :=
  match l with
  | [] => Some (s, [])
  | a :: r => match do_act g rdy a s with
              | Some (s1, o1) => match do_acts g rdy r s1 with Some (s2, o2) => Some (s2, o1 ++ o2) | None => None end
              | None => None
              end
  end.
(** An instant: the ready logic, the threads, then the signals change; rad-sim/sim/noc/axis_slave_adapter.cpp:57-67 and rad-sim/sim/noc/axis_master_adapter.hpp:41-42. *)
Definition sys_step (g : ginst) (s : sys P) : option (sys P * list sobs) :=
  match do_acts g (fun n => granted g n (y_sl s n)) (g_acts g) (mkY (y_t s) (fun n => settled g n (y_sl s n)) (y_ma s)) with
  | Some (s', o) => Some (mkY (y_t s') (y_sl s') (fun n => commit (y_ma s' n)), o)
  | None => None
  end.
(** An execution, rad-sim/sim/noc/radsim_noc.cpp:260-321. *)
Fixpoint sys_run (gs : list ginst) (s : sys P) : option (sys P * list sobs) :=
  match gs with
  | [] => Some (s, [])
  | g :: r => match sys_step g s with
              | Some (s1, o1) => match sys_run r s1 with Some (s2, o2) => Some (s2, o1 ++ o2) | None => None end
              | None => None
              end
  end.
End Sys.
Arguments sys0 {P}.
