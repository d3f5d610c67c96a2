(** The statistics that the traffic manager of BookSim keeps, with rational numbers for doubles. *)
From Coq Require Import QArith Qround ZArith Bool List.
From Verif Require Import InjectionModel.
Import ListNotations.
Open Scope Q_scope.

(** rad-sim/sim/noc/booksim/stats.hpp:33-45 : the members; [None] for a minimum or maximum that is NaN. *)
Record stats := mkStats { s_num : Z; s_sum : Q; s_sq : Q; s_min : option Q; s_max : option Q; s_hist : list Z }.
(** rad-sim/sim/noc/booksim/stats.cpp:52-64 : Clear, with [n] bins. *)
Definition stats_clear (n : nat) : stats := mkStats 0 0 0 None None (repeat 0%Z n).
(** rad-sim/sim/noc/booksim/stats.cpp:110-112 : the bin of a sample; the conversion to int is exact here. *)
Definition stats_bin (size : Q) (n : nat) (v : Q) : Z :=
  let b := Z.max (Qfloor (v / size)) 0 in
  if (b >=? Z.of_nat n)%Z then (Z.of_nat n - 1)%Z else b.
(** rad-sim/sim/noc/booksim/stats.cpp:107 : the new maximum; a comparison with NaN is false. *)
Definition stats_max (v : Q) (m : option Q) : option Q :=
  match m with Some x => if negb (Qle_bool v x) then Some v else Some x | None => Some v end.
(** rad-sim/sim/noc/booksim/stats.cpp:108 : the new minimum. *)
Definition stats_min (v : Q) (m : option Q) : option Q :=
  match m with Some x => if negb (Qle_bool x v) then Some v else Some x | None => Some v end.
(** rad-sim/sim/noc/booksim/stats.cpp:101-115 : AddSample; [None] for a bin outside the vector. *)
Definition stats_add (size : Q) (n : nat) (v : Q) (s : stats) : option stats :=
  let b := stats_bin size n v in
  if (b <? 0)%Z then None else
  match nth_error (s_hist s) (Z.to_nat b) with
  | None => None
  | Some h => Some (mkStats (s_num s + 1) (s_sum s + v) (s_sq s) (stats_min v (s_min s)) (stats_max v (s_max s))
                     (firstn (Z.to_nat b) (s_hist s) ++ (h + 1)%Z :: skipn (S (Z.to_nat b)) (s_hist s)))
  end.
(** rad-sim/sim/noc/booksim/stats.cpp:101-115 : one call of AddSample for each sample. *)
Fixpoint stats_adds (size : Q) (n : nat) (vs : list Q) (s : stats) : option stats :=
  match vs with
  | [] => Some s
  | v :: r => match stats_add size n v s with Some s' => stats_adds size n r s' | None => None end
  end.
(** rad-sim/sim/noc/booksim/stats.cpp:66-69 : Average; [None] for 0 / 0. *)
Definition stats_average (s : stats) : option Q := if (s_num s =? 0)%Z then None else Some (s_sum s / inject_Z (s_num s)).
(** rad-sim/sim/noc/booksim/stats.cpp:71-74 : Variance; [None] for 0 / 0. *)
Definition stats_variance (s : stats) : option Q :=
  if (s_num s =? 0)%Z then None
  else Some ((s_sq s * inject_Z (s_num s) - s_sum s * s_sum s) / (inject_Z (s_num s) * inject_Z (s_num s))).
