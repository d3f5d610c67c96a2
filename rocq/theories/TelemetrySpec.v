(** What the telemetry calls mean, independent of the table. *)
From Coq Require Import ZArith Bool List.
From Verif Require Import TelemetryModel.
Import ListNotations.
Local Open Scope Z_scope.

Definition kind_eqb (a b : kind) : bool :=
  match a, b with
  | Packet, Packet | Inject, Inject | Eject, Eject | Depacket, Depacket | Receipt, Receipt => true
  | _, _ => false
  end.

Fixpoint last_time (k : kind) (id : Z) (l : list call) (d : Z) : Z :=
  match l with
  | [] => d
  | Ev k' id' t :: r => last_time k id r (if kind_eqb k k' && (id =? id') then t else d)
  | _ :: r => last_time k id r d
  end.
Fixpoint last_hops (id : Z) (l : list call) (d : Z) : Z :=
  match l with
  | [] => d
  | Hops id' h :: r => last_hops id r (if id =? id' then h else d)
  | _ :: r => last_hops id r d
  end.

(** How many initiations a list of calls has. *)
Definition inits (l : list call) : list call := filter (fun c => match c with Init _ _ _ _ _ _ => true | _ => false end) l.

(** The time field that an event of a kind sets. *)
Definition time_of (k : kind) (e : trace) : Z :=
  match k with Packet => t_packet e | Inject => t_inject e | Eject => t_eject e | Depacket => t_depacket e | Receipt => t_receive e end.

(** Sum of the widths of the transactions initiated from [s] to local node [d] on NoC [n]. *)
Definition volume (fw n s d : Z) (l : list call) : Z :=
  fold_right Z.add 0 (map (fun c => match c with
    | Init src dest _ dw net _ => if (net =? n) && (src =? s) && (dest mod 2 ^ fw =? d) then dw else 0
    | _ => 0 end) l).

(** Calls that name an id only after it was returned. *)
Fixpoint names_known (g : Z) (l : list call) : Prop :=
  match l with
  | [] => True
  | Init _ _ _ _ _ _ :: r => names_known (g + 1) r
  | Ev _ id _ :: r | Hops id _ :: r => 1 <= id <= g /\ names_known g r
  end.

(** Node and network numbers and widths that are non-negative ints. *)
Definition small (x : Z) := 0 <= x < 2 ^ 31.
Definition sane (fw : Z) (c : call) : Prop :=
  match c with Init src dest _ dw net _ => small src /\ small net /\ small (dest mod 2 ^ fw) /\ 0 <= dw | _ => True end.
