(** The network between devices: rad-sim/sim/radsim_inter_rad.cpp. *)
From Coq Require Import ZArith Bool List.
From Verif Require Import Bits AxisFormatModel Fupd.
Import ListNotations.

(** rad-sim/sim/radsim_inter_rad.hpp:15-27 : the fields of axis_fields that are used. *)
Record txn := { x_data : Z; x_user : Z; x_last : bool; x_dest : Z }.

(** The configuration knobs and the destination field widths. rad-sim/sim/radsim_config.cpp:371-376. *)
Record ircfg := {
  ir_w : widths;
  ir_rads : nat;       (* num_rads *)
  ir_slots : nat;      (* inter_rad_fifo_num_slots *)
  ir_accept : Z;       (* inter_rad_bw_accept_cycles *)
  ir_total : Z;        (* inter_rad_bw_total_cycles *)
  ir_latency : Z }.    (* inter_rad_latency_cycles *)

(** An [sc_fifo] with the latency counters beside it (fifos[i], fifos_latency_counters[i]).
    SystemC: values written in an evaluation phase become readable after it, and the slots of
    values read become free after it.  [f_num] is the number readable at the start of the phase. rad-sim/sim/radsim_inter_rad.hpp:38, 53. *)
Record fifo := { f_q : list txn; f_w : list txn; f_num : nat; f_lat : list Z }.

(** rad-sim/sim/radsim_inter_rad.hpp:38-53 and rad-sim/sim/radsim_inter_rad.cpp:56, 73. *)
Record irst := {
  i_fifo : nat -> fifo;
  i_ready : nat -> bool;            (* tready signals, current value *)
  i_ready' : nat -> bool;           (* tready signals, value written in this phase *)
  i_bw : Z;                         (* bw_counter *)
  i_out : nat -> option txn;        (* master signals, current value: payload when tvalid *)
  i_out' : nat -> option txn;
  i_started : bool;                 (* writeFifo has passed its first wait() *)
  i_drops : Z }.                    (* write_fifo_packet_drop_count *)

(** rad-sim/sim/radsim_inter_rad.cpp:102-107 : the destination field is rewritten. *)
Definition swap_dest (w : widths) (d : Z) : Z :=
  set (2 * destfw w - 1) (destfw w) (set (destfw w - 1) 0 d (dest_remote w d)) 0.

(** SystemC [sc_fifo::nb_write] and the counter, rad-sim/sim/radsim_inter_rad.cpp:111-113. *)
Definition nb_write (slots : nat) (f : fifo) (t : txn) : option fifo :=
  if Nat.ltb (f_num f + length (f_w f)) slots
  then Some {| f_q := f_q f; f_w := f_w f ++ [t]; f_num := f_num f; f_lat := f_lat f ++ [0%Z] |}
  else None.

(** What one device drives on its slave port: [None] when tvalid is low. rad-sim/sim/radsim_inter_rad.hpp:43-45. *)
Definition irin := nat -> option txn.

(** A handshake at the input: source, transaction as stored, kept or dropped. rad-sim/sim/radsim_inter_rad.cpp:90-115. *)
Definition accept_ev := (nat * txn * bool)%type.

(** rad-sim/sim/radsim_inter_rad.cpp:84-121 : iteration [i] of the loop over devices.
    [None]: the destination device does not exist (vector index out of range). *)
Definition write_one (c : ircfg) (inp : irin) (i : nat) (s : irst) : option (irst * list accept_ev) :=
  let s1 := {| i_fifo := i_fifo s; i_ready := i_ready s; i_ready' := fupd (i_ready' s) i (i_bw s <? ir_accept c)%Z;
               i_bw := i_bw s; i_out := i_out s; i_out' := i_out' s; i_started := i_started s; i_drops := i_drops s |} in
  match inp i with
  | None => Some (s1, [])
  | Some t =>
      if i_ready s i then
        let t' := {| x_data := x_data t; x_user := x_user t; x_last := x_last t; x_dest := swap_dest (ir_w c) (x_dest t) |} in
        let d := Z.to_nat (dest_rad (ir_w c) (x_dest t')) in
        if Nat.ltb d (ir_rads c) then
          match nb_write (ir_slots c) (i_fifo s d) t' with
          | Some f => Some ({| i_fifo := fupd (i_fifo s1) d f; i_ready := i_ready s1; i_ready' := i_ready' s1; i_bw := i_bw s1;
                               i_out := i_out s1; i_out' := i_out' s1; i_started := i_started s1; i_drops := i_drops s1 |}, [(i, t', true)])
          | None => Some ({| i_fifo := i_fifo s1; i_ready := i_ready s1; i_ready' := i_ready' s1; i_bw := i_bw s1;
                             i_out := i_out s1; i_out' := i_out' s1; i_started := i_started s1; i_drops := (i_drops s1 + 1)%Z |}, [(i, t', false)])
          end
        else None
      else Some (s1, [])
  end.

(** The loop over devices [i, i+1, ...]. rad-sim/sim/radsim_inter_rad.cpp:83. *)
Fixpoint write_loop (c : ircfg) (inp : irin) (l : list nat) (s : irst) : option (irst * list accept_ev) :=
  match l with
  | [] => Some (s, [])
  | i :: r => match write_one c inp i s with
              | Some (s1, e1) => match write_loop c inp r s1 with
                                 | Some (s2, e2) => Some (s2, e1 ++ e2)
                                 | None => None
                                 end
              | None => None
              end
  end.

(** rad-sim/sim/radsim_inter_rad.cpp:58-130 : writeFifo at one edge.  The first edge only sets
    the ready signals. *)
Definition write_fifo (c : ircfg) (inp : irin) (s : irst) : option (irst * list accept_ev) :=
  if i_started s then
    match write_loop c inp (seq 0 (ir_rads c)) s with
    | Some (s1, e) =>
        Some ({| i_fifo := i_fifo s1; i_ready := i_ready s1; i_ready' := i_ready' s1;
                 i_bw := (if (ir_total c - 1 <=? i_bw s1)%Z then 0 else i_bw s1 + 1)%Z;
                 i_out := i_out s1; i_out' := i_out' s1; i_started := true; i_drops := i_drops s1 |}, e)
    | None => None
    end
  else
    Some ({| i_fifo := i_fifo s; i_ready := i_ready s; i_ready' := fun i => if Nat.ltb i (ir_rads c) then true else i_ready' s i;
             i_bw := 0; i_out := i_out s; i_out' := i_out' s; i_started := true; i_drops := i_drops s |}, []).

(** rad-sim/sim/radsim_inter_rad.cpp:146-182 : iteration [i] of readFifo.  [None]: counter
    vector empty, or destination beyond the vector.  The stored tvalid is always true. *)
Definition read_one (c : ircfg) (i : nat) (s : irst) : option irst :=
  let f := i_fifo s i in
  let lat := map (fun x => (x + 1)%Z) (f_lat f) in
  let with_f f o := {| i_fifo := fupd (i_fifo s) i f; i_ready := i_ready s; i_ready' := i_ready' s; i_bw := i_bw s;
                       i_out := i_out s; i_out' := o; i_started := i_started s; i_drops := i_drops s |} in
  let idle := with_f {| f_q := f_q f; f_w := f_w f; f_num := f_num f; f_lat := lat |} (fupd (i_out' s) i None) in
  match f_q f with
  | [] => Some idle
  | t :: q =>
      match lat with
      | [] => None
      | x :: lat' =>
          if (ir_latency c <=? x)%Z then
            let d := Z.to_nat (dest_rad (ir_w c) (x_dest t)) in
            if Nat.ltb d (ir_rads c)
            then Some (with_f {| f_q := q; f_w := f_w f; f_num := f_num f; f_lat := lat' |} (fupd (i_out' s) d (Some t)))
            else None
          else Some idle
      end
  end.

(** rad-sim/sim/radsim_inter_rad.cpp:133-186 : readFifo at one edge. *)
Fixpoint read_loop (c : ircfg) (l : list nat) (s : irst) : option irst :=
  match l with
  | [] => Some s
  | i :: r => match read_one c i s with Some s1 => read_loop c r s1 | None => None end
  end.

(** End of the evaluation phase: signals and FIFOs update. rad-sim/sim/radsim_inter_rad.hpp:38 (sc_fifo). *)
Definition commit_fifo (f : fifo) : fifo :=
  {| f_q := f_q f ++ f_w f; f_w := []; f_num := length (f_q f ++ f_w f); f_lat := f_lat f |}.
(** The same for all state, rad-sim/sim/radsim_inter_rad.hpp:38-45. *)
Definition commit (s : irst) : irst :=
  {| i_fifo := fun i => commit_fifo (i_fifo s i); i_ready := i_ready' s; i_ready' := i_ready' s; i_bw := i_bw s;
     i_out := i_out' s; i_out' := i_out' s; i_started := i_started s; i_drops := i_drops s |}.

(** One clock edge; the two threads run in either order ([wfirst]). rad-sim/sim/radsim_inter_rad.cpp:30-31. *)
Definition edge (c : ircfg) (wfirst : bool) (inp : irin) (s : irst) : option (irst * list accept_ev) :=
  let rd := read_loop c (seq 0 (ir_rads c)) in
  if wfirst then
    match write_fifo c inp s with
    | Some (s1, e) => match rd s1 with Some s2 => Some (commit s2, e) | None => None end
    | None => None
    end
  else
    match rd s with
    | Some s1 => match write_fifo c inp s1 with Some (s2, e) => Some (commit s2, e) | None => None end
    | None => None
    end.

(** rad-sim/sim/radsim_inter_rad.cpp:7-34 : the constructed network. *)
Definition fifo0 : fifo := {| f_q := []; f_w := []; f_num := 0; f_lat := [] |}.
(** rad-sim/sim/radsim_inter_rad.cpp:7-34. *)
Definition irst0 : irst :=
  {| i_fifo := fun _ => fifo0; i_ready := fun _ => false; i_ready' := fun _ => false; i_bw := 0;
     i_out := fun _ => None; i_out' := fun _ => None; i_started := false; i_drops := 0 |}.

(** What is seen at an edge: handshakes in, then the values of the outgoing signals after it. rad-sim/sim/radsim_inter_rad.cpp:133-186. *)
Definition irobs := (list accept_ev * (nat -> option txn))%type.

(** An execution, rad-sim/sim/main.cpp:50-52. *)
Fixpoint ir_run (c : ircfg) (l : list (bool * irin)) (s : irst) : option (irst * list irobs) :=
  match l with
  | [] => Some (s, [])
  | (o, inp) :: r =>
      match edge c o inp s with
      | Some (s1, e) => match ir_run c r s1 with
                        | Some (s2, os) => Some (s2, (e, i_out s1) :: os)
                        | None => None
                        end
      | None => None
      end
  end.
