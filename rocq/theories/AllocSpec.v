(** What is expected of an allocator, said in terms of requests and matches only. *)
From Coq Require Import ZArith Arith Bool List.
From Verif Require Import AllocModel.
Import ListNotations.

(** The requests of a round: ports in range, labels not negative, at most one request per pair. *)
Definition legal_asks (n m : nat) (l : list ask) : Prop :=
  NoDup (map fst l) /\ Forall (fun a => fst (fst a) < n /\ snd (fst a) < m /\ (0 <= q_label (snd a))%Z) l.

Definition asked (l : list ask) (i o : nat) : Prop := exists q, In (i, o, q) l.

(** The two views agree and every pair was requested.  Hence every input has at most one output and
    every output at most one input. *)
Definition matching (l : list ask) (m : match_) : Prop :=
  (forall i o, m_in m i = Some o <-> m_out m o = Some i) /\ (forall i o, m_in m i = Some o -> asked l i o).

(** No request can be added. *)
Definition maximal (l : list ask) (m : match_) : Prop :=
  forall i o, asked l i o -> m_in m i <> None \/ m_out m o <> None.

Definition match_size (n : nat) (m : match_) : nat :=
  length (filter (fun i => match m_in m i with Some _ => true | None => false end) (seq 0 n)).

(** A matching that has at least one pair per iteration unless no request can be added. *)
Definition iterated (n k : nat) (l : list ask) (m : match_) : Prop :=
  matching l m /\ (maximal l m \/ k <= match_size n m).

(** The number of requests for an output. *)
Definition demand (l : list ask) (o : nat) : nat := length (filter (fun a => Nat.eqb (snd (fst a)) o) l).
(** Each requesting input has a least requested output among those it requests, and that output is matched. *)
Definition lonely (l : list ask) (m : match_) : Prop :=
  matching l m /\
  forall i o, asked l i o -> exists o', asked l i o' /\ (forall x, asked l i x -> demand l o' <= demand l x) /\ m_out m o' <> None.

(** No masked output is matched.  Each other requested output has a requester of top output priority
    that is matched with an output of at least this one's input priority. *)
Definition selected (mask : nat -> bool) (l : list ask) (m : match_) : Prop :=
  matching l m /\ (forall o, mask o = true -> m_out m o = None) /\
  forall i o q, In (i, o, q) l -> mask o = false -> exists i1 q1 o2 q2,
    In (i1, o, q1) l /\ (forall i3 q3, In (i3, o, q3) l -> (q_opri q3 <= q_opri q1)%Z) /\
    In (i1, o2, q2) l /\ m_in m i1 = Some o2 /\ (q_ipri q1 <= q_ipri q2)%Z.

(** [b]'s pair of output and input priority is at least [a]'s. *)
Definition pri_le (a b : areq) : Prop := (q_opri a < q_opri b)%Z \/ (q_opri a = q_opri b /\ (q_ipri a <= q_ipri b)%Z).
(** Every request is granted or shares a port with a granted one of at least its priority. *)
Definition stable (l : list ask) (m : match_) : Prop :=
  matching l m /\
  forall i o q, In (i, o, q) l -> exists i1 o1 q1, In (i1, o1, q1) l /\ m_in m i1 = Some o1 /\ (i1 = i \/ o1 = o) /\ pri_le q q1.

(** Every requesting input chooses an output of top input priority; every chosen output is matched
    with an input that chose it and has top output priority among those. *)
Definition input_choice (l : list ask) (m : match_) : Prop :=
  matching l m /\ exists c : nat -> option nat,
    (forall i, match c i with
               | Some o => exists q, In (i, o, q) l /\ forall o' q', In (i, o', q') l -> (q_ipri q' <= q_ipri q)%Z
               | None => forall o, ~ asked l i o end) /\
    (forall i o q, c i = Some o -> In (i, o, q) l ->
       exists i1 q1, m_in m i1 = Some o /\ c i1 = Some o /\ In (i1, o, q1) l /\ (q_opri q <= q_opri q1)%Z).
(** The same with inputs and outputs exchanged. *)
Definition output_choice (l : list ask) (m : match_) : Prop :=
  matching l m /\ exists c : nat -> option nat,
    (forall o, match c o with
               | Some i => exists q, In (i, o, q) l /\ forall i' q', In (i', o, q') l -> (q_opri q' <= q_opri q)%Z
               | None => forall i, ~ asked l i o end) /\
    (forall i o q, c o = Some i -> In (i, o, q) l ->
       exists o1 q1, m_out m o1 = Some i /\ c o1 = Some i /\ In (i, o1, q1) l /\ (q_ipri q <= q_ipri q1)%Z).

(** No matching is larger. *)
Definition maximum (n : nat) (l : list ask) (m : match_) : Prop :=
  matching l m /\ forall m', matching l m' -> match_size n m' <= match_size n m.

(** An allocator without requests and matches, whose own state is [x]. *)
Definition alloc_from (A : allocator) (x : al_st A) : alloc A := {| g_own := x; g_rq := fun _ _ => None; g_dirty := false; g_m := no_match |}.
