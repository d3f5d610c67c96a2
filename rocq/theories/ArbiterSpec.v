(** How arbiters are used, and what is expected of them, said in terms of calls and results only. *)
From Coq Require Import ZArith Arith Bool List.
From Verif Require Import ArbiterModel.
Import ListNotations.

Definition r_in (r : req) : nat := fst (fst r).
Definition r_pri (r : req) : Z := snd r.

(** Between two Clear calls each input requests at most once and Arbitrate is called at most once.
    [used] are the inputs that requested since the last Clear, [d] says whether Arbitrate was called. *)
Fixpoint legal (n : nat) (used : list nat) (d : bool) (l : list aop) : Prop :=
  match l with
  | [] => True
  | Add i _ _ :: r => i < n /\ ~ In i used /\ legal n (used ++ [i]) d r
  | Arb :: r => d = false /\ legal n used true r
  | Upd :: r => legal n used d r
  | Clr :: r => legal n [] false r
  end.

(** The requests present at each Arbitrate call. *)
Fixpoint asked (cur : list req) (l : list aop) : list (list req) :=
  match l with
  | [] => []
  | Add i id pri :: r => asked (cur ++ [(i, id, pri)]) r
  | Arb :: r => cur :: asked cur r
  | Upd :: r => asked cur r
  | Clr :: r => asked [] r
  end.

(** No grant without a request; otherwise a request of the highest priority. *)
Definition good (L : list req) (o : option req) : Prop :=
  match o with
  | None => L = []
  | Some w => In w L /\ forall j, In j L -> (r_pri j <= r_pri w)%Z
  end.

(** One round: the requests, in the order they are added, and whether the result is used (in which
    case UpdateState is called). *)
Record round := { rq : list req; used : bool }.
Definition round_ops (r : round) : list aop :=
  map (fun q => Add (fst (fst q)) (snd (fst q)) (snd q)) (rq r) ++ [Arb] ++ (if used r then [Upd] else []) ++ [Clr].
Definition rounds_ops (l : list round) : list aop := flat_map round_ops l.
Definition round_ok (n : nat) (r : round) : Prop := NoDup (map r_in (rq r)) /\ Forall (fun q => r_in q < n) (rq r).

(** Steps from [p] to [i] on a ring of [n]. *)
Definition ring_dist (n p i : nat) : nat := (i + n - p) mod n.

(** The first requester of top priority at or after the turn; the turn then goes to the input after it. *)
Fixpoint rr_results (n turn : nat) (l : list round) (outs : list (option req)) : Prop :=
  match l, outs with
  | [], [] => True
  | r :: l', o :: outs' =>
      good (rq r) o /\
      match o with
      | None => rr_results n turn l' outs'
      | Some w => (forall j, In j (rq r) -> r_pri j = r_pri w -> ring_dist n turn (r_in w) <= ring_dist n turn (r_in j)) /\
                  rr_results n (if used r then (r_in w + 1) mod n else turn) l' outs'
      end
  | _, _ => False
  end.

(** [before h i j]: the last grant of [i] in the history [h] (latest first) is earlier than that
    of [j]; of inputs that were never granted the higher one counts as earlier. *)
Fixpoint before (h : list nat) (i j : nat) : Prop :=
  match h with
  | [] => j < i
  | w :: r => if Nat.eqb w i then False else if Nat.eqb w j then True else before r i j
  end.

(** The least recently granted requester of top priority wins. *)
Fixpoint lrg_results (h : list nat) (l : list round) (outs : list (option req)) : Prop :=
  match l, outs with
  | [], [] => True
  | r :: l', o :: outs' =>
      good (rq r) o /\
      match o with
      | None => lrg_results h l' outs'
      | Some w => (forall j, In j (rq r) -> r_pri j = r_pri w -> j <> w -> before h (r_in w) (r_in j)) /\
                  lrg_results (if used r then r_in w :: h else h) l' outs'
      end
  | _, _ => False
  end.

(** Input [i] requests with top priority. *)
Definition wants (i : nat) (r : round) : Prop :=
  exists q, In q (rq r) /\ r_in q = i /\ forall j, In j (rq r) -> (r_pri j <= r_pri q)%Z.
