(** Completion flags, exit codes and the main loop. *)
From Coq Require Import ZArith Bool List.
Import ListNotations.

(** rad-sim/sim/design_context.hpp:15,58 : the two members used here; created with values
    0 and false (rad-sim/sim/design_context.cpp:45). *)
Record rad := { rad_done : bool; sim_exit_code : Z }.
(** rad-sim/sim/design_context.hpp:15 and design_context.cpp:45. *)
Definition rad0 : rad := {| rad_done := false; sim_exit_code := 0 |}.

(** What the design of a device does: rad-sim/sim/design_context.cpp:703-716. *)
Inductive rev := SetDone (i : nat) | ReportFailure (i : nat).

(** [vector[i] = f(vector[i])]; out of range is undefined. rad-sim/sim/radsim_cluster.hpp:17. *)
Fixpoint upd_nth (i : nat) (f : rad -> rad) (l : list rad) : option (list rad) :=
  match l, i with
  | [], _ => None
  | r :: t, O => Some (f r :: t)
  | r :: t, S j => match upd_nth j f t with Some t' => Some (r :: t') | None => None end
  end.

(** rad-sim/sim/design_context.cpp:703-705 (ReportDesignFailure) and 713-716 (set_rad_done). *)
Definition rstep (e : rev) (l : list rad) : option (list rad) :=
  match e with
  | SetDone i => upd_nth i (fun r => {| rad_done := true; sim_exit_code := sim_exit_code r |}) l
  | ReportFailure i => upd_nth i (fun r => {| rad_done := rad_done r; sim_exit_code := 1 |}) l
  end.
(** Several events, rad-sim/sim/design_context.cpp:703-716. *)
Fixpoint rsteps (es : list rev) (l : list rad) : option (list rad) :=
  match es with
  | [] => Some l
  | e :: r => match rstep e l with Some l' => rsteps r l' | None => None end
  end.

(** rad-sim/sim/radsim_cluster.cpp:38-46. *)
Fixpoint all_rads_not_done (l : list rad) : bool :=
  match l with
  | [] => false
  | r :: t => if negb (rad_done r) then true else all_rads_not_done t
  end.

(** What main does when the given simulation steps are all that happens. rad-sim/sim/main.cpp:50-54. *)
Inductive outcome := Undefined | Running | Stopped (steps : nat) (l : list rad).

(** rad-sim/sim/main.cpp:50-52 : each [sc_start(1, SC_NS)] runs one entry of [ticks]. *)
Fixpoint main_loop (ticks : list (list rev)) (l : list rad) : outcome :=
  if all_rads_not_done l then
    match ticks with
    | [] => Running
    | t :: r => match rsteps t l with
                | None => Undefined
                | Some l' => match main_loop r l' with Stopped k l2 => Stopped (S k) l2 | o => o end
                end
    end
  else Stopped 0 l.

(** rad-sim/sim/main.cpp:73 : the exit status; no device 0 is undefined. *)
Definition exit_status (l : list rad) : option Z := match l with [] => None | r :: _ => Some (sim_exit_code r) end.

(** rad-sim/sim/radsim_cluster.cpp:3-12 : the constructed cluster. *)
Definition cluster0 (n : nat) : list rad := repeat rad0 n.
