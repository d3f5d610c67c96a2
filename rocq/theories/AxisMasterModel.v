(** The AXI-S master NoC adapter: rad-sim/sim/noc/axis_master_adapter.cpp.

    Three clocked threads.  As in [AxisSlaveModel], an execution is a list of instants, the
    threads woken at an instant run in any order, queue operations are immediate and the
    push counters ([sc_signal]) change at the end of the instant.  [None] is the outcome of
    an out-of-range vector access, of [front()] on an empty queue or of the failed assertion. *)
From Coq Require Import ZArith Bool List Lia.
From Verif Require Import Bits Fupd AxisFormatModel AxisSlaveModel.
Import ListNotations.
Local Open Scope Z_scope.

(** rad-sim/sim/noc/axis_master_adapter.cpp:3-50 : parameters. *)
Record mcfg := {
  m_w : widths;
  m_nvc : nat;                (* _num_vcs *)
  m_nif : nat;                (* _num_axis_interfaces *)
  m_dataw : nat -> Z;         (* _interface_dataw *)
  m_ejdepth : nat;            (* _ejection_afifo_depth *)
  m_obdepth : nat             (* _output_afifo_depth *)
}.

(** rad-sim/sim/noc/axis_master_adapter.cpp:17-23 : _num_flits. *)
Definition m_nfl (c : mcfg) (i : nat) : nat := Z.to_nat (num_flits (m_w c) (m_dataw c i)).

(** The fields written to an output port, rad-sim/sim/noc/axis_master_adapter.cpp:238-248
    (tstrb and tkeep are constant zero). *)
Record aout := { a_data : Z; a_user : Z; a_last : bool; a_dest : Z; a_tid : Z }.

(** rad-sim/sim/noc/axis_master_adapter.hpp:19-50 : mutable members.  Counters are unbounded. *)
Record mst := {
  inq : list bflit;             (* flits BookSim has still to deliver to this node *)
  pendfl : option bflit;        (* _ejected_booksim_flit *)
  ejf : nat -> list sflit;      (* _ejection_afifos *)
  pushc : nat -> nat;           (* _ejection_afifo_push_counter, value readable now *)
  pushn : nat -> nat;           (* _ejection_afifo_push_counter, value after this instant *)
  popc : nat -> nat;            (* _ejection_afifo_pop_counter *)
  prioq : list nat;             (* _ejection_afifo_priority *)
  depk : bool;                  (* _ejection_afifo_is_depacketizing *)
  constr : list sflit;          (* _constructed_packet *)
  outq : nat -> list (list sflit);  (* _output_afifos *)
  chunk : nat -> nat;           (* _output_chunk *)
  port : nat -> option aout     (* axis_interfaces: None when tvalid is low *)
}.

(** rad-sim/sim/noc/axis_master_adapter.cpp:35-50,67-69,122-125,253-258 : state after reset. *)
Definition m_init (c : mcfg) (input : list bflit) : mst :=
  {| inq := input; pendfl := None; ejf := fun _ => []; pushc := fun _ => O; pushn := fun _ => O;
     popc := fun _ => O; prioq := seq 0 (m_nvc c); depk := false; constr := [];
     outq := fun _ => []; chunk := fun _ => O; port := fun _ => None |}.

(** Observable effects: a flit read from the NoC, an ejection buffer slot freed
    (rad-sim/sim/noc/axis_master_adapter.cpp:182), a transaction accepted by the module. *)
Inductive mobs := Arrive (f : bflit) | Free (vc : nat) | Deliver (i : nat) (a : aout).

(** rad-sim/sim/noc/axis_master_adapter.cpp:84-98 : SystemC flit made from a BookSim flit. *)
Definition to_sflit (c : mcfg) (b : bflit) : sflit :=
  {| f_head := b_head b; f_tail := b_tail b; f_type := b_type b; f_vc := b_vc b;
     f_dest := from_booksim_dest (m_w c) (b_dst b);
     f_iface := trunc (ifacew (m_w c)) (b_iface b);
     f_pid := b_pid b; f_payload := b_data b |}.

(** rad-sim/sim/noc/axis_master_adapter.cpp:72-117 : OutputEjection; [avail] says whether
    [_noc->ReadFlit] returns a flit now (BookSim's ejection channel is outside this model). *)
Definition run_eject (c : mcfg) (avail : bool) (s : mst) : option (mst * list mobs) :=
  let '(p, inq', o) := match pendfl s with
                 | Some f => (Some f, inq s, [])
                 | None => match avail, inq s with
                           | true, f :: r => (Some f, r, [Arrive f])
                           | _, _ => (None, inq s, [])
                           end
                 end in
  match p with
  | None => Some (s, o)
  | Some f =>
    let v := Z.to_nat (b_vc f) in
    if (0 <=? b_vc f) && Nat.ltb v (m_nvc c) then
      if Nat.ltb (length (ejf s v)) (m_ejdepth c) then
        Some ({| inq := inq'; pendfl := None; ejf := fupd (ejf s) v (ejf s v ++ [to_sflit c f]);
                 pushc := pushc s;
                 pushn := if b_tail f then fupd (pushn s) v (S (pushc s v)) else pushn s;
                 popc := popc s; prioq := prioq s; depk := depk s; constr := constr s;
                 outq := outq s; chunk := chunk s; port := port s |}, o)
      else
        Some ({| inq := inq'; pendfl := Some f; ejf := ejf s; pushc := pushc s; pushn := pushn s;
                 popc := popc s; prioq := prioq s; depk := depk s; constr := constr s;
                 outq := outq s; chunk := chunk s; port := port s |}, o)
    else None
  end.

(** [_dest_interface.to_uint()] as a vector index. rad-sim/sim/noc/axis_master_adapter.cpp:131-133. *)
Definition ifn (f : sflit) : nat := Z.to_nat (f_iface f).

(** rad-sim/sim/noc/axis_master_adapter.cpp:135-138,157-160 : fifo_has_complete_packet. *)
Definition check (c : mcfg) (s : mst) (v d : nat) : option bool :=
  if Nat.ltb (popc s v) (pushc s v) then
    if Nat.ltb d (m_nif c) then Some (Nat.ltb (length (outq s d)) (m_obdepth c)) else None
  else Some false.

(** rad-sim/sim/noc/axis_master_adapter.cpp:147-162 : search for a FIFO with a complete packet. *)
Fixpoint scan (c : mcfg) (s : mst) (n : nat) (q : list nat) (ok : bool) (d : nat)
  : option (list nat * bool * nat) :=
  if ok then Some (q, ok, d) else
  match n with
  | O => Some (q, ok, d)
  | S n' =>
    match rotate q with
    | [] => None
    | (v :: _) as q' =>
      match ejf s v with
      | [] => scan c s n' q' ok d
      | f :: _ => match check c s v (ifn f) with
                  | None => None
                  | Some ok' => scan c s n' q' ok' (ifn f)
                  end
      end
    end
  end.

(** rad-sim/sim/noc/axis_master_adapter.cpp:127-213 : OutputDepacketization. *)
Definition run_depk (c : mcfg) (s : mst) : option (mst * list mobs) :=
  match prioq s with
  | [] => None
  | v0 :: _ =>
    let d0 := match ejf s v0 with [] => O | f :: _ => ifn f end in
    match check c s v0 d0 with
    | None => None
    | Some ok0 =>
      match (if depk s then Some (prioq s, ok0, d0) else scan c s (m_nvc c) (prioq s) ok0 d0) with
      | None => None
      | Some (q, ok, d) =>
        if Nat.ltb d (m_nif c) then
          if Nat.ltb (length (outq s d)) (m_obdepth c) && ok then
            match q with
            | [] => None
            | v :: _ =>
              match ejf s v with
              | [] => None
              | f :: rest =>
                let con := constr s ++ [f] in
                if f_tail f then
                  if Nat.leb (S (popc s v)) (pushc s v) then
                    Some ({| inq := inq s; pendfl := pendfl s; ejf := fupd (ejf s) v rest; pushc := pushc s;
                             pushn := pushn s; popc := fupd (popc s) v (S (popc s v));
                             prioq := rotate q; depk := false; constr := [];
                             outq := fupd (outq s) d (outq s d ++ [con]);
                             chunk := chunk s; port := port s |}, [Free v])
                  else None
                else
                  Some ({| inq := inq s; pendfl := pendfl s; ejf := fupd (ejf s) v rest; pushc := pushc s;
                           pushn := pushn s; popc := popc s; prioq := q; depk := true;
                           constr := con; outq := outq s; chunk := chunk s; port := port s |},
                        [Free v])
              end
            end
          else
            Some ({| inq := inq s; pendfl := pendfl s; ejf := ejf s; pushc := pushc s; pushn := pushn s;
                     popc := popc s; prioq := rotate q; depk := depk s; constr := constr s;
                     outq := outq s; chunk := chunk s; port := port s |}, [])
        else None
      end
    end
  end.

(** rad-sim/sim/noc/axis_master_adapter.cpp:216-249 : the port values of a packet. *)
Definition axis_of (c : mcfg) (p : list sflit) : aout :=
  let '(l, u, d) := unpack (m_w c) (reassemble (m_w c) (map f_payload p)) in
  {| a_data := d; a_user := u; a_last := l;
     a_dest := match p with [] => 0 | f :: _ => f_dest f end;
     a_tid := match p with [] => 0 | f :: _ => f_iface f end |}.

(** rad-sim/sim/noc/axis_master_adapter.cpp:271-273 : num_chunks, exact ceiling. *)
Definition num_chunks (total per : nat) : nat := Nat.div (total + per - 1) per.

(** rad-sim/sim/noc/axis_master_adapter.cpp:264-290 : one iteration of the interface loop. *)
Definition out_one (c : mcfg) (rdy : nat -> bool) (i : nat) (s : mst) : option (mst * list mobs) :=
  let r := match port s i with
           | Some a =>
             if rdy i then
               match outq s i with
               | [] => None
               | p :: rest =>
                 if Nat.eqb (S (chunk s i)) (num_chunks (length p) (m_nfl c i))
                 then Some (rest, O, [Deliver i a])
                 else Some (outq s i, S (chunk s i), [Deliver i a])
               end
             else Some (outq s i, chunk s i, [])
           | None => Some (outq s i, chunk s i, [])
           end in
  match r with
  | None => None
  | Some (q, ch, o) =>
    Some ({| inq := inq s; pendfl := pendfl s; ejf := ejf s; pushc := pushc s; pushn := pushn s;
             popc := popc s; prioq := prioq s; depk := depk s; constr := constr s;
             outq := fupd (outq s) i q; chunk := fupd (chunk s) i ch;
             port := fupd (port s) i (match q with [] => None | p :: _ => Some (axis_of c p) end) |}, o)
  end.

(** rad-sim/sim/noc/axis_master_adapter.cpp:262-263 : the loop over the interfaces. *)
Fixpoint out_loop (c : mcfg) (rdy : nat -> bool) (l : list nat) (s : mst) : option (mst * list mobs) :=
  match l with
  | [] => Some (s, [])
  | i :: l' => match out_one c rdy i s with
               | None => None
               | Some (s1, o1) => match out_loop c rdy l' s1 with
                                  | None => None
                                  | Some (s2, o2) => Some (s2, o1 ++ o2)
                                  end
               end
  end.

(** rad-sim/sim/noc/axis_master_adapter.cpp:52-57 : the three clocked threads. *)
Inductive mthread := TEject | TDepk | TOut.

(** Environment at one instant: whether BookSim has a flit ready, and tready of each interface. rad-sim/sim/noc/axis_master_adapter.cpp:75 (ReadFlit) and the tready ports. *)
Record minstant := { mths : list mthread; mavail : bool; mrdy : nat -> bool }.

(** rad-sim/sim/noc/axis_master_adapter.cpp:52-57 : one thread at its clock edge. *)
Definition m_thread (c : mcfg) (ev : minstant) (t : mthread) (s : mst) : option (mst * list mobs) :=
  match t with
  | TEject => run_eject c (mavail ev) s
  | TDepk => run_depk c s
  | TOut => out_loop c (mrdy ev) (seq 0 (m_nif c)) s
  end.

(** rad-sim/sim/noc/axis_master_adapter.cpp:52-57 : the threads woken at one instant. *)
Fixpoint m_threads (c : mcfg) (ev : minstant) (l : list mthread) (s : mst) : option (mst * list mobs) :=
  match l with
  | [] => Some (s, [])
  | t :: l' => match m_thread c ev t s with
               | None => None
               | Some (s1, o1) => match m_threads c ev l' s1 with
                                  | None => None
                                  | Some (s2, o2) => Some (s2, o1 ++ o2)
                                  end
               end
  end.

(** End of an instant: writes to rad-sim/sim/noc/axis_master_adapter.hpp:41-42 become visible. *)
Definition commit (s : mst) : mst :=
  {| inq := inq s; pendfl := pendfl s; ejf := ejf s; pushc := pushn s; pushn := pushn s; popc := popc s;
     prioq := prioq s; depk := depk s; constr := constr s; outq := outq s; chunk := chunk s;
     port := port s |}.

(** rad-sim/sim/noc/axis_master_adapter.cpp:52-57 : one instant. *)
Definition m_step (c : mcfg) (ev : minstant) (s : mst) : option (mst * list mobs) :=
  match m_threads c ev (mths ev) s with
  | None => None
  | Some (s', o) => Some (commit s', o)
  end.

(** rad-sim/sim/noc/axis_master_adapter.cpp:52-57 : a whole execution. *)
Fixpoint m_run (c : mcfg) (evs : list minstant) (s : mst) : option (mst * list mobs) :=
  match evs with
  | [] => Some (s, [])
  | ev :: evs' => match m_step c ev s with
                  | None => None
                  | Some (s1, o1) => match m_run c evs' s1 with
                                     | None => None
                                     | Some (s2, o2) => Some (s2, o1 ++ o2)
                                     end
                  end
  end.
