(** What surrounds the engines of the MLP design: driver, dispatchers and collector, rad-sim/example-designs/mlp/mlp_driver.cpp, modules/dispatcher.cpp, modules/collector.cpp.
    Driver and modules have the same clock, as in rad-sim/example-designs/mlp/config.yml:34 and 37. *)
From Coq Require Import ZArith Arith Bool List.
From Verif Require Import MvmModel.
Import ListNotations.
Open Scope nat_scope.

(** ** ParseIO *)
(** Extraction of an int, rad-sim/example-designs/mlp/mlp_driver.cpp:14: a number out of range becomes the nearest limit, and all further extractions from the line fail and leave the variable as it is. *)
Fixpoint read_line (failed : option Z) (l : list Z) : vec :=
  match l with
  | [] => []
  | x :: r =>
    match failed with
    | Some v => v :: read_line failed r
    | None => if (x <? - 2 ^ 31)%Z then (- 2 ^ 31)%Z :: read_line (Some (- 2 ^ 31)%Z) r
              else if (2 ^ 31 - 1 <? x)%Z then (2 ^ 31 - 1)%Z :: read_line (Some (2 ^ 31 - 1)%Z) r else x :: read_line None r
    end
  end.
(** rad-sim/example-designs/mlp/mlp_driver.cpp:3-20, for lines with one number for each lane, as the script writes them. *)
Definition parse_io (lines : list (list Z)) : list vec := map (read_line None) lines.

(** ** Input *)
(** A dispatcher's FIFO, the signals dispatcher_fifo_wen and dispatcher_fifo_wdata that lead to it, and written_inputs; rad-sim/example-designs/mlp/mlp_driver.cpp:89-98 and modules/dispatcher.hpp:16-27. *)
Record feeder := { u_fifo : fifo; u_wen : bool; u_wdata : vec; u_written : nat }.
(** After reset, rad-sim/example-designs/mlp/mlp_driver.cpp:81-90. *)
Definition feeder0 : feeder := {| u_fifo := fifo_reset; u_wen := false; u_wdata := []; u_written := 0 |}.
(** tx_interface.tvalid, rad-sim/example-designs/mlp/modules/dispatcher.cpp:45-50 and 65-67. *)
Definition u_valid (s : feeder) : bool := negb (length (f_rdata (u_fifo s)) =? 0) && negb (f_empty (u_fifo s)).
(** What an edge hands over at tx_interface: user bits and data; rad-sim/example-designs/mlp/modules/dispatcher.cpp:46-52, 69-70. *)
Definition u_event (s : feeder) (ready : bool) : list (Z * Z) := if u_valid s && ready then [(3 * 2 ^ 13, bus (f_rdata (u_fifo s)))%Z] else [].

Section Io.
Variable P : mparams.

(** An edge: the driver's source thread, rad-sim/example-designs/mlp/mlp_driver.cpp:91-103, and the FIFO of the dispatcher with its signals, rad-sim/example-designs/mlp/modules/dispatcher.cpp:15-26 and 69-71. *)
Definition feed (inputs : list vec) (s : feeder) (ready : bool) : option feeder :=
  match fifo_tick (m_fifo P) (m_fifo P - 1) (m_dim P) (u_valid s && ready) (u_wen s) (u_wdata s) (u_fifo s) with
  | None => None
  | Some f =>
    let '(wen, wdata, k) := match f_afull (u_fifo s), nth_error inputs (u_written s) with
                            | false, Some v => (true, v, u_written s + 1)
                            | _, _ => (false, u_wdata s, u_written s)
                            end in
    Some {| u_fifo := f; u_wen := wen; u_wdata := wdata; u_written := k |}
  end.
(** Edges one after the other, with tready of the NoC; rad-sim/example-designs/mlp/mlp_driver.cpp:91-104. *)
Fixpoint feeds (inputs : list vec) (s : feeder) (readys : list bool) : list (Z * Z) * option feeder :=
  match readys with
  | [] => ([], Some s)
  | r :: q => match feed inputs s r with None => (u_event s r, None) | Some s' => let '(o, f) := feeds inputs s' q in (u_event s r ++ o, f) end
  end.

(** ** Output *)
(** The collector's FIFO, and read_outputs and mistake of the driver's sink thread; rad-sim/example-designs/mlp/mlp_driver.cpp:112-115 and modules/collector.hpp:15-18. *)
Record sink := { v_fifo : fifo; v_read : nat; v_mistake : bool }.
(** After reset, rad-sim/example-designs/mlp/mlp_driver.cpp:112-115. *)
Definition sink0 : sink := {| v_fifo := fifo_reset; v_read := 0; v_mistake := false |}.
(** What an edge takes from rx_interface, rad-sim/example-designs/mlp/modules/collector.cpp:41-43. *)
Definition v_event (s : sink) (rx : bool * Z) : list Z := if fst rx && negb (f_afull (v_fifo s)) then [snd rx] else [].
(** An edge, with tvalid and tdata of the NoC: the FIFO of the collector, rad-sim/example-designs/mlp/modules/collector.cpp:14-25, 41-55, read whenever it is not empty (mlp_driver.cpp:150-152),
    and the sink thread, rad-sim/example-designs/mlp/mlp_driver.cpp:116-129.
    The vectors compared have one element for each lane. *)
Definition collect (golden : list vec) (s : sink) (rx : bool * Z) : option sink :=
  match fifo_tick (m_fifo P) (m_fifo P - 1) (m_dim P) (negb (f_empty (v_fifo s))) (fst rx && negb (f_afull (v_fifo s))) (lanes (m_dim P) (snd rx)) (v_fifo s) with
  | None => None
  | Some f =>
    match nth_error golden (v_read s) with
    | Some g => if negb (f_empty (v_fifo s)) && negb (length (f_rdata (v_fifo s)) =? 0) then Some {| v_fifo := f; v_read := v_read s + 1; v_mistake := v_mistake s || negb (vec_eqb (f_rdata (v_fifo s)) g) |}
                else Some {| v_fifo := f; v_read := v_read s; v_mistake := v_mistake s |}
    | None => Some {| v_fifo := f; v_read := v_read s; v_mistake := v_mistake s |}
    end
  end.
(** Edges one after the other: the data taken, and the state; rad-sim/example-designs/mlp/mlp_driver.cpp:116-129. *)
Fixpoint collects (golden : list vec) (s : sink) (rxs : list (bool * Z)) : list Z * option sink :=
  match rxs with
  | [] => ([], Some s)
  | r :: q => match collect golden s r with None => (v_event s r, None) | Some s' => let '(o, f) := collects golden s' q in (v_event s r ++ o, f) end
  end.
End Io.

(** What is printed when the sink thread is through, rad-sim/example-designs/mlp/mlp_driver.cpp:116, 130-134: [Some true] for SUCCESS. *)
Definition verdict (golden : list vec) (s : sink) : option bool := if v_read s <? length golden then None else Some (negb (v_mistake s)).
