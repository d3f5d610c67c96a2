(** Transaction telemetry: rad-sim/sim/radsim_telemetry.cpp. *)
From Coq Require Import ZArith Bool List.
From Verif Require Import ZMap.
Import ListNotations.
Local Open Scope Z_scope.

(** rad-sim/sim/radsim_telemetry.hpp:13-43.  Simplified: times are exact (the simulation time
    stamp), not doubles in nanoseconds. *)
Record trace := {
  src_node : Z; dest_node : Z; num_hops : Z; ttype : Z; dataw : Z; network_id : Z;
  t_init : Z; t_packet : Z; t_inject : Z; t_eject : Z; t_depacket : Z; t_receive : Z; latency : Z }.

(** rad-sim/sim/radsim_telemetry.hpp:29-42 : the default constructor. *)
Definition trace0 : trace :=
  {| src_node := -1; dest_node := -1; num_hops := 0; ttype := 0; dataw := 0; network_id := 0;
     t_init := 0; t_packet := 0; t_inject := 0; t_eject := 0; t_depacket := 0; t_receive := 0; latency := 0 |}.

(** rad-sim/sim/radsim_telemetry.hpp:48-49 : the static members.  The table is an association
    list; nothing below depends on the iteration order of the hash table. *)
Record book := { gid : Z; table : list (Z * trace) }.
(** rad-sim/sim/radsim_telemetry.cpp:3-4. *)
Definition book0 : book := {| gid := 0; table := [] |}.

(** The calls, each with the time stamp at which it is made. rad-sim/sim/radsim_telemetry.cpp:23-48. *)
Inductive kind := Packet | Inject | Eject | Depacket | Receipt.
(** The calls, rad-sim/sim/radsim_telemetry.cpp:9-51. *)
Inductive call :=
| Init (src dest ty dw net t : Z)
| Ev (k : kind) (id t : Z)
| Hops (id h : Z).

(** rad-sim/sim/radsim_telemetry.cpp:12-18 : the new entry; [fw] is AXIS_DEST_FIELDW. *)
Definition new_entry (fw src dest ty dw net t : Z) : trace :=
  {| src_node := src; dest_node := Z.land (Z.shiftl 1 fw - 1) dest; num_hops := 0; ttype := ty; dataw := dw; network_id := net;
     t_init := t; t_packet := 0; t_inject := 0; t_eject := 0; t_depacket := 0; t_receive := 0; latency := 0 |}.

(** The assignments of rad-sim/sim/radsim_telemetry.cpp:24-52. *)
Definition stamp (k : kind) (t : Z) (e : trace) : trace :=
  match k with
  | Packet => {| src_node := src_node e; dest_node := dest_node e; num_hops := num_hops e; ttype := ttype e; dataw := dataw e; network_id := network_id e;
     t_init := t_init e; t_packet := t; t_inject := t_inject e; t_eject := t_eject e; t_depacket := t_depacket e; t_receive := t_receive e; latency := latency e |}
  | Inject => {| src_node := src_node e; dest_node := dest_node e; num_hops := num_hops e; ttype := ttype e; dataw := dataw e; network_id := network_id e;
     t_init := t_init e; t_packet := t_packet e; t_inject := t; t_eject := t_eject e; t_depacket := t_depacket e; t_receive := t_receive e; latency := latency e |}
  | Eject => {| src_node := src_node e; dest_node := dest_node e; num_hops := num_hops e; ttype := ttype e; dataw := dataw e; network_id := network_id e;
     t_init := t_init e; t_packet := t_packet e; t_inject := t_inject e; t_eject := t; t_depacket := t_depacket e; t_receive := t_receive e; latency := latency e |}
  | Depacket => {| src_node := src_node e; dest_node := dest_node e; num_hops := num_hops e; ttype := ttype e; dataw := dataw e; network_id := network_id e;
     t_init := t_init e; t_packet := t_packet e; t_inject := t_inject e; t_eject := t_eject e; t_depacket := t; t_receive := t_receive e; latency := latency e |}
  | Receipt => {| src_node := src_node e; dest_node := dest_node e; num_hops := num_hops e; ttype := ttype e; dataw := dataw e; network_id := network_id e;
     t_init := t_init e; t_packet := t_packet e; t_inject := t_inject e; t_eject := t_eject e; t_depacket := t_depacket e; t_receive := t; latency := t - t_init e |}
  end.
(** rad-sim/sim/radsim_telemetry.cpp:51. *)
Definition set_hops (h : Z) (e : trace) : trace :=
  {| src_node := src_node e; dest_node := dest_node e; num_hops := h; ttype := ttype e; dataw := dataw e; network_id := network_id e;
     t_init := t_init e; t_packet := t_packet e; t_inject := t_inject e; t_eject := t_eject e; t_depacket := t_depacket e; t_receive := t_receive e; latency := latency e |}.

(** [trace_bookkeeping[id]...]: creates a default entry when there is none. rad-sim/sim/radsim_telemetry.cpp:26. *)
Definition at_entry (id : Z) (f : trace -> trace) (m : list (Z * trace)) : list (Z * trace) :=
  mset id (f (match mfind id m with Some e => e | None => trace0 end)) m.

(** rad-sim/sim/radsim_telemetry.cpp:10-52 : one call; the returned id of an initiation.
    Simplified: the int counter does not overflow. *)
Definition tstep (fw : Z) (c : call) (b : book) : book * list Z :=
  match c with
  | Init src dest ty dw net t =>
      ({| gid := gid b + 1; table := mset (gid b + 1) (new_entry fw src dest ty dw net t) (table b) |}, [gid b + 1])
  | Ev k id t => ({| gid := gid b; table := at_entry id (stamp k t) (table b) |}, [])
  | Hops id h => ({| gid := gid b; table := at_entry id (set_hops h) (table b) |}, [])
  end.

(** Several calls, rad-sim/sim/radsim_telemetry.cpp:9-51. *)
Fixpoint trun (fw : Z) (l : list call) (b : book) : book * list Z :=
  match l with
  | [] => (b, [])
  | c :: r => let '(b1, i1) := tstep fw c b in let '(b2, i2) := trun fw r b1 in (b2, i1 ++ i2)
  end.

(** rad-sim/sim/radsim_telemetry.cpp:69-89 (DumpTrafficFlows) : the accumulated bits.
    [traffic_bits[noc][src]] is a map from destination to an unsigned int; a NoC or source out of
    range is undefined.  [nodes] is the number of nodes per NoC. *)
Definition u32 (x : Z) : Z := x mod 2 ^ 32.
(** rad-sim/sim/radsim_telemetry.cpp:70. *)
Definition flows := Z -> Z -> list (Z * Z).
(** rad-sim/sim/radsim_telemetry.cpp:72-76. *)
Definition in_bounds (nodes : list Z) (noc src : Z) : bool :=
  (0 <=? noc) && match nth_error nodes (Z.to_nat noc) with Some n => (0 <=? src) && (src <? n) | None => false end.
(** rad-sim/sim/radsim_telemetry.cpp:78-84. *)
Definition add_flow (nodes : list Z) (e : trace) (f : flows) : option flows :=
  let noc := u32 (network_id e) in let src := u32 (src_node e) in let dest := u32 (dest_node e) in
  if in_bounds nodes noc src then
    let old := f noc src in
    let v := match mfind dest old with None => u32 (dataw e) | Some x => u32 (x + dataw e) end in
    Some (fun a b => if (a =? noc) && (b =? src) then mset dest v old else f a b)
  else None.
(** The loop over the hash table, in the order [l] in which it yields its entries. rad-sim/sim/radsim_telemetry.cpp:77. *)
Fixpoint add_flows (nodes : list Z) (l : list trace) (f : flows) : option flows :=
  match l with
  | [] => Some f
  | e :: r => match add_flow nodes e f with Some f1 => add_flows nodes r f1 | None => None end
  end.
(** rad-sim/sim/radsim_telemetry.cpp:70. *)
Definition no_flows : flows := fun _ _ => [].
