(** Output side of the two AXI-MM NoC adapters: responses (R, B) out of the slave adapter,
    rad-sim/sim/noc/aximm_slave_adapter.cpp:459-689, and requests (AR, AW, W) out of the master
    adapter, rad-sim/sim/noc/aximm_master_adapter.cpp:83-362.

    Executions are as in [AximmInModel].  Counters are unbounded.  [None] is exit(1), [front()]
    of an empty queue, a failed assertion or a range outside of a vector. *)
From Coq Require Import ZArith Bool List.
From Verif Require Import Bits Fupd VcModel AximmFormatModel AximmInModel.
Import ListNotations.
Local Open Scope Z_scope.

(** rad-sim/sim/noc/aximm_slave_adapter.cpp:13-30,62-69 and
    rad-sim/sim/noc/aximm_master_adapter.cpp:11-36 : parameters fixed at construction. *)
Record ycfg := {
  y_side : xside;
  y_w : xwidths;
  y_vcidw : Z;             (* NOC_LINKS_VCID_WIDTH *)
  y_vc : vcranges;         (* the virtual channel ranges of _noc_config *)
  y_depth : nat            (* _ejection_afifo_depth *)
}.

(** AXI_NUM_RSP_TYPES and AXI_NUM_REQ_TYPES, rad-sim/sim/radsim_defines.hpp:63-64. *)
Definition ntypes (c : ycfg) : nat := match y_side c with Slave => 2 | Master => 3 end.

(** rad-sim/sim/noc/aximm_slave_adapter.cpp:500 and rad-sim/sim/noc/aximm_master_adapter.cpp:126-127 :
    the ejection FIFO of a virtual channel. *)
Definition fifo_of_vc (c : ycfg) (vc : Z) : option nat :=
  match y_side c with
  | Slave => option_map (fun t => if t =? tR then 0%nat else 1%nat) (inverse_vc_slave (y_vc c) vc)
  | Master => option_map (fun t => if t =? tAR then 0%nat else if t =? tAW then 1%nat else 2%nat)
                (inverse_vc_master (y_vc c) vc)
  end.

(** rad-sim/sim/noc/aximm_slave_adapter.hpp:131-158, rad-sim/sim/noc/aximm_master_adapter.hpp:42-54 :
    mutable members. *)
Record yst := {
  yin : list xflit;             (* flits BookSim has still to deliver to this node *)
  ypend : option xflit;         (* _ejected_booksim_flit *)
  yej : nat -> list xflit;      (* _ejection_afifos *)
  ypushc : nat -> nat;          (* _ejection_afifo_push_counter, value readable now *)
  ypushn : nat -> nat;          (* _ejection_afifo_push_counter, value after this instant *)
  ypopc : nat -> nat;           (* _ejection_afifo_pop_counter *)
  yprio : list nat;             (* _ejection_afifo_priority *)
  ydepk : bool;                 (* _ejection_afifo_is_depacketizing *)
  ycon : list xflit;            (* _constructed_packet *)
  youtq : list (list xflit);    (* _output_afifo *)
  yhold : option (list xflit);  (* _output_packet when _output_packet_ready *)
  yport : option xtxn           (* the channel whose valid signal is high *)
}.

(** rad-sim/sim/noc/aximm_slave_adapter.cpp:62-69,485-488,536-539,619-622 : state after reset. *)
Definition y_init (c : ycfg) (input : list xflit) : yst :=
  {| yin := input; ypend := None; yej := fun _ => []; ypushc := fun _ => O; ypushn := fun _ => O;
     ypopc := fun _ => O; yprio := seq 0 (ntypes c); ydepk := false; ycon := []; youtq := [];
     yhold := None; yport := None |}.

(** Observable effects: a flit read from the NoC, an ejection buffer slot freed
    (rad-sim/sim/noc/aximm_slave_adapter.cpp:577-579), a transaction that stands at the interface
    at an edge of the node clock and whether its ready signal is high, so that it is taken. *)
Inductive yobs := YArrive (f : xflit) | YFree (vc : Z) | YSeen (t : xtxn) (taken : bool).

(** rad-sim/sim/noc/aximm_slave_adapter.cpp:483-529, rad-sim/sim/noc/aximm_master_adapter.cpp:108-158 :
    OutputEjection; [avail] says whether [_noc->ReadFlit] returns a flit now.  The channel number
    is cut to its width where it is used, in [y_depack]. *)
Definition y_eject (c : ycfg) (avail : bool) (s : yst) : option (yst * list yobs) :=
  let '(p, inq, o) := match ypend s with
                 | Some f => (Some f, yin s, [])
                 | None => match avail, yin s with
                           | true, f :: r => (Some f, r, [YArrive f])
                           | _, _ => (None, yin s, [])
                           end
                 end in
  match p with
  | None => Some (s, o)
  | Some f =>
    match fifo_of_vc c (xf_vc f) with
    | None => None
    | Some v =>
      if Nat.ltb (length (yej s v)) (y_depth c) then
        Some ({| yin := inq; ypend := None; yej := fupd (yej s) v (yej s v ++ [f]);
                 ypushc := ypushc s;
                 ypushn := if xf_tail f then fupd (ypushn s) v (S (ypushc s v)) else ypushn s;
                 ypopc := ypopc s; yprio := yprio s; ydepk := ydepk s; ycon := ycon s;
                 youtq := youtq s; yhold := yhold s; yport := yport s |}, o)
      else
        Some ({| yin := inq; ypend := Some f; yej := yej s; ypushc := ypushc s; ypushn := ypushn s;
                 ypopc := ypopc s; yprio := yprio s; ydepk := ydepk s; ycon := ycon s;
                 youtq := youtq s; yhold := yhold s; yport := yport s |}, o)
    end
  end.

(** rad-sim/sim/noc/aximm_slave_adapter.cpp:543-545 : fifo_has_complete_packet. *)
Definition complete (s : yst) (v : nat) : bool := Nat.ltb (ypopc s v) (ypushc s v).

(** rad-sim/sim/noc/aximm_slave_adapter.cpp:556-566 : the search for a FIFO with a complete packet,
    at most [n] steps. *)
Fixpoint y_scan (s : yst) (n : nat) (q : list nat) : list nat :=
  match q with
  | [] => []
  | v :: r =>
    if complete s v then q else
    match n with O => q | S n' => y_scan s n' (r ++ [v]) end
  end.

(** rad-sim/sim/noc/aximm_slave_adapter.cpp:534-613, rad-sim/sim/noc/aximm_master_adapter.cpp:160-240 :
    OutputDepacketization. *)
Definition y_depack (c : ycfg) (s : yst) : option (yst * list yobs) :=
  let q := if ydepk s then yprio s else y_scan s (ntypes c) (yprio s) in
  match q with
  | [] => None
  | v :: r =>
    if complete s v then
      if Nat.ltb (length (youtq s)) 2 then
        match yej s v with
        | [] => None
        | f :: rest =>
          let con := ycon s ++ [f] in
          let o := [YFree (trunc (y_vcidw c) (xf_vc f))] in
          if xf_tail f then
            if Nat.leb (S (ypopc s v)) (ypushc s v) then
              Some ({| yin := yin s; ypend := ypend s; yej := fupd (yej s) v rest; ypushc := ypushc s;
                       ypushn := ypushn s; ypopc := fupd (ypopc s) v (S (ypopc s v));
                       yprio := r ++ [v]; ydepk := false; ycon := [];
                       youtq := youtq s ++ [con]; yhold := yhold s; yport := yport s |}, o)
            else None
          else
            Some ({| yin := yin s; ypend := ypend s; yej := fupd (yej s) v rest; ypushc := ypushc s;
                     ypushn := ypushn s; ypopc := ypopc s; yprio := q; ydepk := true; ycon := con;
                     youtq := youtq s; yhold := yhold s; yport := yport s |}, o)
        end
      else
        Some ({| yin := yin s; ypend := ypend s; yej := yej s; ypushc := ypushc s; ypushn := ypushn s;
                 ypopc := ypopc s; yprio := q; ydepk := true; ycon := ycon s;
                 youtq := youtq s; yhold := yhold s; yport := yport s |}, [])
    else
      Some ({| yin := yin s; ypend := ypend s; yej := yej s; ypushc := ypushc s; ypushn := ypushn s;
               ypopc := ypopc s; yprio := q; ydepk := ydepk s; ycon := ycon s;
               youtq := youtq s; yhold := yhold s; yport := yport s |}, [])
  end.

(** The channel types of an adapter's output, rad-sim/sim/noc/aximm_slave_adapter.cpp:631-635,654-658
    and rad-sim/sim/noc/aximm_master_adapter.cpp:256-258,293-296,330-333. *)
Definition out_type (k : xside) (t : xtype) : bool :=
  match k, t with
  | Slave, (R | B) => true
  | Master, (AR | AW | W) => true
  | _, _ => false
  end.

(** rad-sim/sim/noc/aximm_master_adapter.cpp:260-288,297-325,334-351 and
    rad-sim/sim/noc/aximm_slave_adapter.cpp:634-650,659-677 : what a packet puts on the interface.
    A flit that starts beyond the vector is outside of it. *)
Definition show (w : xwidths) (p : list xflit) : option xtxn :=
  match p with
  | [] => None
  | f :: _ =>
    if Z.of_nat (length p - 1) * x_linkw w <? xpayloadw w then
      let v := xreassemble w (map xf_payload p) in
      Some (match xf_type f with
            | AR => XAR (out_addr w (xf_pid f) v)
            | AW => XAW (out_addr w (xf_pid f) v)
            | W => XW (out_w w (xf_pid f) v)
            | R => XR (out_r w (xf_pid f) v)
            | B => XB (out_b w (xf_pid f) v)
            end)
    else None
  end.

(** The channel of a transaction, rad-sim/sim/noc/aximm_interface.hpp:9-48. *)
Definition chan_of (t : xtxn) : xtype :=
  match t with XAR _ => AR | XAW _ => AW | XW _ => W | XR _ => R | XB _ => B end.

(** rad-sim/sim/noc/aximm_slave_adapter.cpp:617-689, rad-sim/sim/noc/aximm_master_adapter.cpp:242-362 :
    OutputInterface.  The module samples valid at the same edge. *)
Definition y_out (c : ycfg) (rdy : xtype -> bool) (s : yst) : option (yst * list yobs) :=
  let o := match yport s with Some t => [YSeen t (rdy (chan_of t))] | None => [] end in
  let '(h, q) := match yhold s, youtq s with
                 | None, p :: q => (Some p, q)
                 | h, q => (h, q)
                 end in
  let put h port :=
    {| yin := yin s; ypend := ypend s; yej := yej s; ypushc := ypushc s; ypushn := ypushn s;
       ypopc := ypopc s; yprio := yprio s; ydepk := ydepk s; ycon := ycon s;
       youtq := q; yhold := h; yport := port |} in
  match h with
  | None => Some (put None None, o)
  | Some [] => None
  | Some ((f :: _) as p) =>
    if out_type (y_side c) (xf_type f) && rdy (xf_type f) then
      match show (y_w c) p with
      | None => None
      | Some t => Some (put None (Some t), o)
      end
    else Some (put (Some p) None, o)
  end.

(** rad-sim/sim/noc/aximm_slave_adapter.cpp:71-78 : the three clocked threads. *)
Inductive ythread := TEj | TDe | TOu.

(** Environment at one instant: whether BookSim has a flit ready, and the ready signals;
    rad-sim/sim/noc/aximm_slave_adapter.cpp:493,633,657. *)
Record yinstant := { y_ths : list ythread; y_avail : bool; y_rdy : xtype -> bool }.

(** rad-sim/sim/noc/aximm_slave_adapter.cpp:71-78 : one thread at its clock edge. *)
Definition y_thread (c : ycfg) (ev : yinstant) (t : ythread) (s : yst) : option (yst * list yobs) :=
  match t with
  | TEj => y_eject c (y_avail ev) s
  | TDe => y_depack c s
  | TOu => y_out c (y_rdy ev) s
  end.

(** rad-sim/sim/noc/aximm_slave_adapter.cpp:71-78 : the threads woken at one instant. *)
Fixpoint y_threads (c : ycfg) (ev : yinstant) (l : list ythread) (s : yst) : option (yst * list yobs) :=
  match l with
  | [] => Some (s, [])
  | t :: l' => match y_thread c ev t s with
               | None => None
               | Some (s1, o1) => match y_threads c ev l' s1 with
                                  | None => None
                                  | Some (s2, o2) => Some (s2, o1 ++ o2)
                                  end
               end
  end.

(** End of an instant: writes to rad-sim/sim/noc/aximm_slave_adapter.hpp:137-138 become visible. *)
Definition y_commit (s : yst) : yst :=
  {| yin := yin s; ypend := ypend s; yej := yej s; ypushc := ypushn s; ypushn := ypushn s;
     ypopc := ypopc s; yprio := yprio s; ydepk := ydepk s; ycon := ycon s;
     youtq := youtq s; yhold := yhold s; yport := yport s |}.

(** rad-sim/sim/noc/aximm_slave_adapter.cpp:71-78 : one instant. *)
Definition y_step (c : ycfg) (ev : yinstant) (s : yst) : option (yst * list yobs) :=
  match y_threads c ev (y_ths ev) s with
  | None => None
  | Some (s', o) => Some (y_commit s', o)
  end.

(** rad-sim/sim/noc/aximm_slave_adapter.cpp:71-78 : a whole execution. *)
Fixpoint y_run (c : ycfg) (evs : list yinstant) (s : yst) : option (yst * list yobs) :=
  match evs with
  | [] => Some (s, [])
  | ev :: evs' => match y_step c ev s with
                  | None => None
                  | Some (s1, o1) => match y_run c evs' s1 with
                                     | None => None
                                     | Some (s2, o2) => Some (s2, o1 ++ o2)
                                     end
                  end
  end.
