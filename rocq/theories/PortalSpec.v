(** What is handed over by the portal, with the reset signal at that edge. *)
From Coq Require Import ZArith Bool List.
From Verif Require Import InterRadModel PortalModel.
Import ListNotations.

(** The inputs of the two directions. *)
Definition net_in (e : pevent) : pin := snd (fst e).
Definition noc_in (e : pevent) : pin := snd e.

(** State after some edges. *)
Fixpoint after (l : list pevent) (s : portal) : portal :=
  match l with
  | [] => s
  | e :: r => after r (portal_tick (fst (fst e)) (snd (fst e)) (snd e) s)
  end.

(** Each transaction that the receiver of one direction takes, marked [true] if reset is active. *)
Fixpoint handed (sel : portal -> pdir) (inp : pevent -> pin) (l : list pevent) (s : portal) : list (bool * txn) :=
  match l with
  | [] => []
  | e :: r => map (pair (fst (fst e))) (gave (inp e) (sel s)) ++
              handed sel inp r (portal_tick (fst (fst e)) (snd (fst e)) (snd e) s)
  end.
