(** What the credit path must preserve. *)
From Coq Require Import ZArith Bool List.
From Verif Require Import CreditModel AxisSlaveModel AxisMasterModel AxisMasterSpec.
Import ListNotations.

(** Virtual channels of the flits consumed at node [n], in order. *)
Definition consumed (n : nat) (evs : list cev) : list nat :=
  flat_map (fun e => match e with Consume m v => if Nat.eqb m n then [v] else [] | NocTick => [] end) evs.

(** Virtual channels of the credits written for node [n], in order. *)
Definition credited (n : nat) (o : list (nat * nat)) : list nat :=
  map snd (filter (fun x => Nat.eqb (fst x) n) o).

(** Node [n] consumes at most one flit between two NoC edges. *)
Fixpoint one_per_tick (n : nat) (seen : bool) (evs : list cev) : Prop :=
  match evs with
  | [] => True
  | Consume m _ :: r => if Nat.eqb m n then seen = false /\ one_per_tick n true r else one_per_tick n seen r
  | NocTick :: r => one_per_tick n false r
  end.

(** [a] is [b] with some elements removed. *)
Inductive sublist : list nat -> list nat -> Prop :=
| sub_nil : forall b, sublist [] b
| sub_keep : forall x a b, sublist a b -> sublist (x :: a) (x :: b)
| sub_drop : forall x a b, sublist a b -> sublist a (x :: b).

(** Flits that reached a node on channel [v]. *)
Definition arrivals (v : nat) (o : list mobs) : nat :=
  length (filter (fun x => match x with Arrive f => on_vc v f | _ => false end) o).
