(** The injection processes of BookSim, with rational numbers for doubles. *)
From Coq Require Import QArith ZArith Bool List.
Import ListNotations.
Open Scope Q_scope.

(** [x < y] of doubles that are numbers (rad-sim/sim/noc/booksim/injection.cpp:146). *)
Definition qlt (x y : Q) : bool := negb (Qle_bool y x).

(** rad-sim/sim/noc/booksim/injection.cpp:37-49 : the checks of the constructor; [None] for exit(-1). *)
Definition inj_new (nodes : Z) (rate : Q) : option (Z * Q) :=
  if (nodes <=? 0)%Z then None else if qlt rate 0 || qlt 1 rate then None else Some (nodes, rate).
(** rad-sim/sim/noc/booksim/injection.cpp:143-147 : BernoulliInjectionProcess::test; [u] is RandomFloat(). *)
Definition bernoulli_test (nodes : Z) (rate u : Q) (source : Z) : option bool :=
  if (0 <=? source)%Z && (source <? nodes)%Z then Some (qlt u rate) else None.

(** rad-sim/sim/noc/booksim/injection.cpp:111-117 : the check of the parameters in New; a parameter that is not given is negative. *)
Definition onoff_params_ok (alpha beta r1 : Q) : bool :=
  negb ((qlt alpha 0 && qlt beta 0) || (qlt alpha 0 && qlt r1 0) || (qlt beta 0 && qlt r1 0) || (Qle_bool 0 alpha && Qle_bool 0 beta && Qle_bool 0 r1)).
(** rad-sim/sim/noc/booksim/injection.cpp:151-173 : the constructor computes the parameter that is missing; [None] for a failing assertion or a division by zero, which gives
    a double that is not a number of ours. *)
Definition onoff_new (rate alpha beta r1 : Q) : option (Q * Q * Q) :=
  if qlt 1 alpha || qlt 1 beta || qlt 1 r1 then None
  else if qlt alpha 0 then
    if qlt beta 0 || qlt r1 0 then None
    else if Qeq_bool (r1 - rate) 0 then None else Some (beta * rate / (r1 - rate), beta, r1)
  else if qlt beta 0 then
    if qlt r1 0 then None
    else if Qeq_bool rate 0 then None else Some (alpha, alpha * (r1 - rate) / rate, r1)
  else if qlt r1 0 then
    if Qeq_bool alpha 0 then None else Some (alpha, beta, rate * (alpha + beta) / alpha)
  else None.
(** rad-sim/sim/noc/booksim/injection.cpp:180-190 : OnOffInjectionProcess::test; [u] and [v] are the two numbers drawn, the second only where it is used. The states after it. *)
Definition onoff_test (p : Q * Q * Q) (st : list bool) (u v : Q) (source : nat) : option (bool * list bool) :=
  let '(alpha, beta, r1) := p in
  match nth_error st source with
  | None => None
  | Some s =>
    let s' := if s then Qle_bool beta u else qlt u alpha in
    Some (s' && qlt v r1, firstn source st ++ s' :: skipn (S source) st)
  end.
