(** What the properties of the priority arbiter speak about. *)
From Coq Require Import ZArith List Sorted.
From Verif Require Import PrioArbModel.
Import ListNotations.
Open Scope Z_scope.

(** At most one request per input, inputs ascending. *)
Definition requests_ok (inputs : Z) (l : list req) : Prop := StronglySorted (fun x y => q_in x < q_in y) l /\ forall x, In x l -> 0 <= q_in x < inputs.
(** How far behind the pointer a request is. *)
Definition behind (inputs rr : Z) (x : req) : Z := (q_in x - rr) mod inputs.
(** The request to be granted: highest priority, and among those the first from the pointer on. *)
Definition chosen (inputs rr : Z) (l : list req) (x : req) : Prop :=
  In x l /\ forall y, In y l -> q_pri y < q_pri x \/ (q_pri y = q_pri x /\ behind inputs rr x <= behind inputs rr y).
(** Rounds of arbitration: the lists of requests in each, with what is read at their ends; the matches. *)
Fixpoint rounds (inputs rr : Z) (ls : list (Z * list req)) : option (list Z) :=
  match ls with
  | [] => Some []
  | (e, l) :: ls => match p_arbitrate inputs rr e l with Some (m, rr', _) => option_map (cons m) (rounds inputs rr' ls) | None => None end
  end.
