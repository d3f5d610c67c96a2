(** What statistics of a list of samples are. *)
From Coq Require Import QArith ZArith Bool List.
Import ListNotations.
Open Scope Q_scope.

(** The sum of samples (what rad-sim/sim/noc/booksim/stats.cpp:86-89 is to return). *)
Definition qsum (vs : list Q) : Q := fold_right Qplus 0 vs.
(** The sum of squares of samples (what rad-sim/sim/noc/booksim/stats.cpp:91-94 is to return). *)
Definition qsquares (vs : list Q) : Q := fold_right Qplus 0 (map (fun v => v * v) vs).
(** Bin [b] of [n] bins: the first takes all that is below it too and the last all that is above it (what rad-sim/sim/noc/booksim/stats.cpp:110-112 is for). *)
Definition in_bin (size : Q) (n b : nat) (v : Q) : bool :=
  ((b =? 0)%nat || Qle_bool (inject_Z (Z.of_nat b) * size) v) && ((S b =? n)%nat || negb (Qle_bool (inject_Z (Z.of_nat (S b)) * size) v)).
(** The mean of the squared distances from the average, of samples whose number is not zero (what rad-sim/sim/noc/booksim/stats.cpp:71-74 is to return). *)
Definition true_variance (vs : list Q) : Q :=
  let n := inject_Z (Z.of_nat (length vs)) in
  qsum (map (fun v => (v - qsum vs / n) * (v - qsum vs / n)) vs) / n.
