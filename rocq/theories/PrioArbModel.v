(** The priority arbiter of BookSim. *)
From Coq Require Import ZArith Arith Bool List.
Import ListNotations.
Open Scope Z_scope.

(** rad-sim/sim/noc/booksim/arbiters/prio_arb.hpp:42-46 (sRequest). *)
Record req := mkReq { q_in : Z; q_label : Z; q_pri : Z }.
(** rad-sim/sim/noc/booksim/arbiters/prio_arb.cpp:47-83 (AddRequest); inserting before a request and erasing that request puts the new one in its place. *)
Fixpoint p_add (r : req) (l : list req) : list req :=
  match l with
  | [] => [r]
  | x :: t => if q_in x <? q_in r then x :: p_add r t else if q_in x =? q_in r then (if q_pri x <? q_pri r then r :: t else x :: t) else r :: x :: t
  end.
(** rad-sim/sim/noc/booksim/arbiters/prio_arb.cpp:85-97 (RemoveRequest); [None] for the failing assertion. *)
Fixpoint p_remove (i : Z) (l : list req) : option (list req) :=
  match l with
  | [] => None
  | x :: t => if q_in x <? i then option_map (cons x) (p_remove i t) else Some t
  end.
(** rad-sim/sim/noc/booksim/arbiters/prio_arb.cpp:116-120 : the requests from the pointer on. *)
Fixpoint p_from (rr : Z) (l : list req) : list req :=
  match l with
  | [] => []
  | x :: t => if q_in x <? rr then p_from rr t else l
  end.
(** rad-sim/sim/noc/booksim/arbiters/prio_arb.cpp:135-139 : index and priority of the best request so far. *)
Definition p_upd (m : Z * Z) (x : req) : Z * Z := if (q_pri x >? snd m) || (fst m =? -1) then (q_in x, q_pri x) else m.
(** rad-sim/sim/noc/booksim/arbiters/prio_arb.cpp:125-142 : the loop; [p] holds the requests from the iterator on. The condition reads through the iterator
    even at the end of the list; [e] is what it finds there, and the result tells whether it did. [fuel] bounds the loop; [None] if it does not suffice. *)
Fixpoint p_loop (fuel : nat) (all : list req) (rr e : Z) (p : list req) (wrapped : bool) (m : Z * Z) : option (Z * bool) :=
  match fuel with
  | O => None
  | S f =>
    if negb wrapped || ((match p with [] => e | x :: _ => q_in x end) <? rr) then
      match p with
      | [] => if wrapped then Some (fst m, true) else match all with [] => None | x :: t => p_loop f all rr e t true (p_upd m x) end
      | x :: t => p_loop f all rr e t wrapped (p_upd m x)
      end
    else Some (fst m, match p with [] => true | _ => false end)
  end.
(** rad-sim/sim/noc/booksim/arbiters/prio_arb.cpp:104-152 (Arbitrate): the match, the pointer afterwards, and whether the end of the list was read. *)
Definition p_arbitrate (inputs rr e : Z) (l : list req) : option (Z * Z * bool) :=
  match l with
  | [] => Some (-1, rr, false)
  | _ => match p_loop (2 * length l + 3) l rr e (p_from rr l) false (-1, 0) with
         | Some (m, r) => Some (m, (if m =? -1 then rr else Z.rem (m + 1) inputs), r)
         | None => None
         end
  end.
(** rad-sim/sim/noc/booksim/arbiters/prio_arb.cpp:157-160 (Update). *)
Definition p_update (inputs rr : Z) : Z := Z.rem (rr + 1) inputs.
