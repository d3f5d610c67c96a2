(** The AXI-S slave NoC adapter: rad-sim/sim/noc/axis_slave_adapter.cpp.

    Three clocked threads share two FIFOs.  An execution is a list of instants.  At one
    instant any subset of the three clocks may have a rising edge, and the threads
    woken by them run in any order ([ths]); signal writes become visible after the
    instant, FIFO operations immediately. *)
From Coq Require Import ZArith Bool List Lia.
From Verif Require Import Bits AxisFormatModel.
Import ListNotations.
Local Open Scope Z_scope.

(** AXI-S transaction fields kept by the adapter, rad-sim/sim/noc/axis_interface.hpp and
    rad-sim/sim/noc/axis_slave_adapter.cpp:118-125.  tkeep and tstrb are captured but never
    used again, they are left out. *)
Record txn := { t_data : Z; t_user : Z; t_last : bool; t_dest : Z; t_tid : Z }.

(** rad-sim/sim/noc/axis_slave_adapter.cpp:136-140 : FIFO entry: the transaction, its unique
    simulation id, and its interface (the type is a function of the interface). *)
Record entry := { e_txn : txn; e_id : Z; e_iface : nat }.

(** rad-sim/sim/noc/sc_flit.hpp:22-33. *)
Record sflit := {
  f_head : bool; f_tail : bool; f_type : Z; f_vc : Z; f_dest : Z; f_iface : Z;
  f_pid : Z; f_payload : Z }.

(** The fields of a BookSim flit set at rad-sim/sim/noc/axis_slave_adapter.cpp:220-252. *)
Record bflit := {
  b_head : bool; b_tail : bool; b_type : Z; b_vc : Z; b_src : Z; b_dst : bs_dest;
  b_iface : Z; b_pid : Z; b_data : Z }.

(** rad-sim/sim/noc/axis_slave_adapter.cpp:14-55 : parameters fixed at construction. *)
Record scfg := {
  s_w : widths;
  s_vcidw : Z;                (* NOC_LINKS_VCID_WIDTH *)
  s_node : Z; s_rad : Z; s_portal : Z;
  s_nif : nat;                (* _num_axis_interfaces *)
  s_dataw : nat -> Z;         (* _interface_dataw *)
  s_type : nat -> Z;          (* _interface_types *)
  s_vc_of : Z -> Z;           (* VCIDFromType *)
  s_depth : nat               (* _injection_afifo_depth *)
}.

(** rad-sim/sim/noc/axis_slave_adapter.hpp:26-55 : mutable members. *)
Record sst := {
  infifo : list entry;        (* _input_axis_transactions_afifo *)
  infull : bool;              (* _input_axis_transactions_afifo_full *)
  cyc : nat;                  (* _packetization_cycle *)
  injfull : bool;             (* _injection_afifo_full *)
  injfifo : list sflit;       (* _injection_afifo *)
  tobe : option sflit;        (* _to_be_injected_flit when _injection_flit_ready *)
  prio : list nat             (* _axis_interface_priority *)
}.

(** rad-sim/sim/noc/axis_slave_adapter.cpp:46-55,110,153-154,204 : state after reset. *)
Definition s_init (c : scfg) : sst :=
  {| infifo := []; infull := false; cyc := 0; injfull := false; injfifo := [];
     tobe := None; prio := seq 0 (s_nif c) |}.

(** [q.push(q.front()); q.pop();] as at rad-sim/sim/noc/axis_slave_adapter.cpp:92-93. *)
Definition rotate {A} (q : list A) : list A :=
  match q with [] => [] | x :: q' => q' ++ [x] end.

(** rad-sim/sim/noc/axis_slave_adapter.cpp:86-94 : scan of the priority queue; the result is
    the interface granted and the rotated queue.  [n] is the number of iterations left. *)
Fixpoint ready_scan (full : bool) (valid : nat -> bool) (n : nat) (q : list nat)
  : option nat * list nat :=
  match n with
  | O => (None, q)
  | S n' =>
    match q with
    | [] => (None, q)
    | i :: _ => if negb full && valid i then (Some i, q)
                else ready_scan full valid n' (rotate q)
    end
  end.

(** rad-sim/sim/noc/axis_slave_adapter.cpp:96-99 : rotate until interface 0 is in front.
    [n] bounds the number of rotations, the queue length is always enough. *)
Fixpoint realign (n : nat) (q : list nat) : list nat :=
  match n with
  | O => q
  | S n' => match q with
            | 0%nat :: _ => q
            | _ => realign n' (rotate q)
            end
  end.

(** rad-sim/sim/noc/axis_slave_adapter.cpp:78-105 : the combinational ready logic; result:
    the interface that sees tready high, if any, and the priority queue afterwards. *)
Definition input_ready (c : scfg) (valid : nat -> bool) (s : sst) : option nat * list nat :=
  let '(g, q) := ready_scan (injfull s) valid (s_nif c) (prio s) in
  ((if infull s then None else g), realign (s_nif c) q).

(** rad-sim/sim/noc/axis_slave_adapter.cpp:62-67 : the three clocked threads. *)
Inductive thread := TIface | TPack | TInj.

(** What the environment does at one instant: the value on each interface
    ([None] : tvalid low), the id telemetry hands out, and whether BookSim's
    injection buffer can take the flit (rad-sim/sim/noc/axis_slave_adapter.cpp:215-219). *)
Record instant := {
  ths : list thread;
  inp : nat -> option txn;
  new_id : Z;
  can : bool }.

(** Observable effects: a handshake on an interface (rad-sim/sim/noc/axis_slave_adapter.cpp:116)
    and a flit given to BookSim (line 263). *)
Inductive obs := Accept (e : entry) | Inject (f : bflit).

(** rad-sim/sim/noc/axis_slave_adapter.cpp:115-143 : the loop over the interfaces takes the
    first one with tready and tvalid. *)
Definition iface_take (inp : nat -> option txn) (rdy : option nat) (n : nat) (id : Z) : option entry :=
  match find (fun i => match rdy with Some j => Nat.eqb i j | None => false end
                       && match inp i with Some _ => true | None => false end) (seq 0 n) with
  | Some i => match inp i with
              | Some t => Some {| e_txn := t; e_id := id; e_iface := i |}
              | None => None
              end
  | None => None
  end.

(** rad-sim/sim/noc/axis_slave_adapter.cpp:113-148 : InputInterface.
    The FIFO capacity is 2 (line 51). *)
Definition run_iface (c : scfg) (ev : instant) (rdy : option nat) (s : sst) : sst * list obs :=
  let '(q, o) := match iface_take (inp ev) rdy (s_nif c) (new_id ev) with
                 | Some e => (infifo s ++ [e], [Accept e])
                 | None => (infifo s, [])
                 end in
  ({| infifo := q; infull := Nat.leb 2 (length q); cyc := cyc s; injfull := injfull s;
      injfifo := injfifo s; tobe := tobe s; prio := prio s |}, o).

(** rad-sim/sim/noc/axis_slave_adapter.cpp:27-32 : _num_flits_per_packet, at least one. *)
Definition nflits (c : scfg) (i : nat) : nat := Z.to_nat (num_flits (s_w c) (s_dataw c i)).

(** rad-sim/sim/noc/axis_slave_adapter.cpp:173-182 : the flit made in packetisation cycle [k]. *)
Definition make_flit (c : scfg) (e : entry) (k : nat) : sflit :=
  let w := s_w c in
  {| f_head := Nat.eqb k 0;
     f_tail := Nat.eqb k (nflits c (e_iface e) - 1);
     f_type := s_type c (e_iface e);
     f_vc := trunc (s_vcidw c) (s_vc_of c (s_type c (e_iface e)));
     f_dest := t_dest (e_txn e);
     f_iface := iface_of_tid w (t_tid (e_txn e));
     f_pid := e_id e;
     f_payload := flit_payload w (pack w (t_last (e_txn e)) (t_user (e_txn e)) (t_data (e_txn e)))
                    (Z.of_nat k) |}.

(** rad-sim/sim/noc/axis_slave_adapter.cpp:157-199 : InputPacketization. *)
Definition run_pack (c : scfg) (s : sst) : sst * list obs :=
  match infifo s with
  | e :: rest =>
    if Nat.ltb (length (injfifo s)) (s_depth c) then
      let q := injfifo s ++ [make_flit c e (cyc s)] in
      let done := Nat.eqb (cyc s) (nflits c (e_iface e) - 1) in
      ({| infifo := if done then rest else infifo s; infull := infull s;
          cyc := if done then 0%nat else S (cyc s);
          injfull := Nat.leb (s_depth c) (length q); injfifo := q;
          tobe := tobe s; prio := prio s |}, [])
    else
      ({| infifo := infifo s; infull := infull s; cyc := cyc s;
          injfull := Nat.leb (s_depth c) (length (injfifo s)); injfifo := injfifo s;
          tobe := tobe s; prio := prio s |}, [])
  | [] =>
      ({| infifo := infifo s; infull := infull s; cyc := cyc s;
          injfull := Nat.leb (s_depth c) (length (injfifo s)); injfifo := injfifo s;
          tobe := tobe s; prio := prio s |}, [])
  end.

(** rad-sim/sim/noc/axis_slave_adapter.cpp:220-252 : the BookSim flit built from an sc_flit. *)
Definition to_bflit (c : scfg) (f : sflit) : bflit :=
  {| b_head := f_head f; b_tail := f_tail f; b_type := f_type f; b_vc := f_vc f;
     b_src := s_node c; b_dst := to_booksim_dest (s_w c) (s_rad c) (s_portal c) (f_dest f);
     b_iface := f_iface f; b_pid := f_pid f; b_data := f_payload f |}.

(** rad-sim/sim/noc/axis_slave_adapter.cpp:207-281 : InputInjection.  Lookahead routing and the
    credit bookkeeping of the injection buffer are not part of this model ([can] stands for
    the buffer's answer). *)
Definition run_inj (c : scfg) (ev : instant) (s : sst) : sst * list obs :=
  let '(tb, q) := match tobe s with
                  | Some f => (Some f, injfifo s)
                  | None => match injfifo s with
                            | f :: q' => (Some f, q')
                            | [] => (None, [])
                            end
                  end in
  match tb with
  | Some f =>
    if can ev then
      ({| infifo := infifo s; infull := infull s; cyc := cyc s; injfull := injfull s;
          injfifo := q; tobe := None; prio := prio s |}, [Inject (to_bflit c f)])
    else
      ({| infifo := infifo s; infull := infull s; cyc := cyc s; injfull := injfull s;
          injfifo := q; tobe := Some f; prio := prio s |}, [])
  | None =>
      ({| infifo := infifo s; infull := infull s; cyc := cyc s; injfull := injfull s;
          injfifo := q; tobe := None; prio := prio s |}, [])
  end.

(** One thread of rad-sim/sim/noc/axis_slave_adapter.cpp:62-67 at its clock edge. *)
Definition run_thread (c : scfg) (ev : instant) (rdy : option nat) (t : thread) (s : sst)
  : sst * list obs :=
  match t with
  | TIface => run_iface c ev rdy s
  | TPack => run_pack c s
  | TInj => run_inj c ev s
  end.

(** rad-sim/sim/noc/axis_slave_adapter.cpp:62-67 : the threads woken at one instant. *)
Fixpoint run_threads (c : scfg) (ev : instant) (rdy : option nat) (l : list thread) (s : sst)
  : sst * list obs :=
  match l with
  | [] => (s, [])
  | t :: l' => let '(s1, o1) := run_thread c ev rdy t s in
               let '(s2, o2) := run_threads c ev rdy l' s1 in (s2, o1 ++ o2)
  end.

(** One instant: the ready logic has settled (it is sensitive to everything it reads,
    rad-sim/sim/noc/axis_slave_adapter.cpp:57-61), then the woken threads run. *)
Definition s_step (c : scfg) (ev : instant) (s : sst) : sst * list obs :=
  let valid i := match inp ev i with Some _ => true | None => false end in
  let '(rdy, q) := input_ready c valid s in
  run_threads c ev rdy (ths ev)
    {| infifo := infifo s; infull := infull s; cyc := cyc s; injfull := injfull s;
       injfifo := injfifo s; tobe := tobe s; prio := q |}.

(** rad-sim/sim/noc/axis_slave_adapter.cpp:57-67 : a whole execution and its trace. *)
Fixpoint s_run (c : scfg) (evs : list instant) (s : sst) : sst * list obs :=
  match evs with
  | [] => (s, [])
  | ev :: evs' => let '(s1, o1) := s_step c ev s in
                  let '(s2, o2) := s_run c evs' s1 in (s2, o1 ++ o2)
  end.

(** Projections of a trace, used to state properties: handshakes at
    rad-sim/sim/noc/axis_slave_adapter.cpp:116 and flits sent at line 263. *)
Definition accepts (l : list obs) : list entry :=
  flat_map (fun o => match o with Accept e => [e] | Inject _ => [] end) l.
(** rad-sim/sim/noc/axis_slave_adapter.cpp:263. *)
Definition injects (l : list obs) : list bflit :=
  flat_map (fun o => match o with Accept _ => [] | Inject f => [f] end) l.

(** A clock has at most one edge per instant (rad-sim/sim/noc/axis_slave_adapter.cpp:62-67). *)
Definition ok_instant (ev : instant) : Prop := NoDup (ths ev).
