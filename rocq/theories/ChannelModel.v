(** The channels between routers and the delay queues inside them. *)
From Coq Require Import ZArith Bool List.
Import ListNotations.
Open Scope Z_scope.

(** rad-sim/sim/noc/booksim/channel.hpp:71-74. *)
Record chan (A : Type) := { ch_in : option A; ch_q : list (Z * A); ch_out : option A }.
Arguments ch_in {A}. Arguments ch_q {A}. Arguments ch_out {A}.
(** rad-sim/sim/noc/booksim/channel.hpp:78-81. *)
Definition chan0 (A : Type) : chan A := {| ch_in := None; ch_q := []; ch_out := None |}.

(** rad-sim/sim/noc/booksim/channel.hpp:91-94 : Send. *)
Definition ch_send {A} (x : option A) (s : chan A) : chan A := {| ch_in := x; ch_q := ch_q s; ch_out := ch_out s |}.
(** rad-sim/sim/noc/booksim/channel.hpp:102-107 : ReadInputs at time [t] with delay [d].  The sum is not bounded. *)
Definition ch_read {A} (d t : Z) (s : chan A) : chan A :=
  match ch_in s with
  | Some x => {| ch_in := None; ch_q := ch_q s ++ [(t + d - 1, x)]; ch_out := ch_out s |}
  | None => s
  end.
(** rad-sim/sim/noc/booksim/channel.hpp:110-124 : WriteOutputs at time [t]. *)
Definition ch_write {A} (t : Z) (s : chan A) : chan A :=
  match ch_q s with
  | [] => {| ch_in := ch_in s; ch_q := []; ch_out := None |}
  | (u, x) :: r => if t <? u then {| ch_in := ch_in s; ch_q := ch_q s; ch_out := None |}
                   else {| ch_in := ch_in s; ch_q := r; ch_out := Some x |}
  end.

(** A cycle of the network, rad-sim/sim/noc/radsim_noc.cpp:305-320 : what was sent since the last cycle (the arguments of the Send
    calls in order), then ReadInputs and WriteOutputs. *)
Definition ch_cycle {A} (d t : Z) (xs : list (option A)) (s : chan A) : chan A :=
  ch_write t (ch_read d t (fold_left (fun s x => ch_send x s) xs s)).
(** rad-sim/sim/noc/radsim_noc.cpp:305-320 : several cycles; cycle [k] is at time [tm k].  The outputs seen after each. *)
Fixpoint ch_run {A} (d : Z) (tm : nat -> Z) (k : nat) (l : list (list (option A))) (s : chan A) : chan A * list (option A) :=
  match l with
  | [] => (s, [])
  | xs :: r => let s1 := ch_cycle d (tm k) xs s in let '(s2, os) := ch_run d tm (S k) r s1 in (s2, ch_out s1 :: os)
  end.

(** rad-sim/sim/radsim_utils.cpp:16-19 : GetSimTime.  The 64-bit time in picoseconds becomes an int. *)
Definition wrap32 (x : Z) : Z := (x + 2 ^ 31) mod 2 ^ 32 - 2 ^ 31.
(** rad-sim/sim/radsim_utils.cpp:16-19 : the time at the rising edge number [k] of a clock with period [p] picoseconds. *)
Definition sim_time (p : Z) (k : nat) : Z := wrap32 (Z.of_nat k * p).

(** A queue of a router stage: rad-sim/sim/noc/booksim/routers/iq_router.hpp:72-79.  A time below zero means that the entry was not evaluated yet. *)
Definition stage (A : Type) := list (Z * A).
(** rad-sim/sim/noc/booksim/routers/iq_router.cpp:388 : a new entry. *)
Definition st_push {A} (x : A) (s : stage A) : stage A := s ++ [(-1, x)].
(** rad-sim/sim/noc/booksim/routers/iq_router.cpp:468-476 (also 559-567 with 719, 2143-2150) : Evaluate at time [t] with delay [d]. *)
Fixpoint st_eval {A} (d t : Z) (s : stage A) : stage A :=
  match s with
  | [] => []
  | (u, x) :: r => if 0 <=? u then s else (t + d - 1, x) :: st_eval d t r
  end.
(** rad-sim/sim/noc/booksim/routers/iq_router.cpp:506-549 (also 847-927, 2172-2220) : Update at time [t]; the entries done, or [None] when
    the assert at line 514 (855, 2180) fails. *)
Fixpoint st_update {A} (t : Z) (s : stage A) : option (stage A * list A) :=
  match s with
  | [] => Some ([], [])
  | (u, x) :: r =>
      if (u <? 0) || (t <? u) then Some (s, [])
      else if t =? u then match st_update t r with Some (s1, os) => Some (s1, x :: os) | None => None end
      else None
  end.
(** rad-sim/sim/noc/booksim/routers/iq_router.cpp:241-297 : one cycle of a stage: new entries, Evaluate, Update. *)
Definition st_cycle {A} (d t : Z) (xs : list A) (s : stage A) : option (stage A * list A) :=
  st_update t (st_eval d t (fold_left (fun s x => st_push x s) xs s)).
(** rad-sim/sim/noc/booksim/routers/iq_router.cpp:241-297 : several cycles. *)
Fixpoint st_run {A} (d : Z) (tm : nat -> Z) (k : nat) (l : list (list A)) (s : stage A) : option (stage A * list (list A)) :=
  match l with
  | [] => Some (s, [])
  | xs :: r =>
      match st_cycle d (tm k) xs s with
      | None => None
      | Some (s1, o) => match st_run d tm (S k) r s1 with Some (s2, os) => Some (s2, o :: os) | None => None end
      end
  end.
