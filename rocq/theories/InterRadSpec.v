(** What an observer of the inter-device network sees. *)
From Coq Require Import ZArith Bool List.
From Verif Require Import AxisFormatModel Fupd InterRadModel.
Import ListNotations.

(** Transactions for device [d] that entered and were kept, with the number of the edge, in order. *)
Definition kept_at (c : ircfg) (d : nat) (e : list accept_ev) : list txn :=
  flat_map (fun x => match x with (_, t, true) => if Nat.eqb (Z.to_nat (dest_rad (ir_w c) (x_dest t))) d then [t] else [] | _ => [] end) e.
Fixpoint entered (c : ircfg) (d : nat) (k : nat) (os : list irobs) : list (nat * txn) :=
  match os with
  | [] => []
  | o :: r => map (pair k) (kept_at c d (fst o)) ++ entered c d (S k) r
  end.

(** Transactions shown to device [d]: those of the signals after edge [k] are sampled at edge [k+1]. *)
Fixpoint shown (d : nat) (k : nat) (os : list irobs) : list (nat * txn) :=
  match os with
  | [] => []
  | o :: r => match snd o d with Some t => [(S k, t)] | None => [] end ++ shown d (S k) r
  end.

(** Handshakes of device [i] at an edge. *)
Definition handshakes (i : nat) (o : irobs) : nat := length (filter (fun x => Nat.eqb (fst (fst x)) i) (fst o)).

(** Was anything dropped. *)
Definition drops_in (o : irobs) : Prop := exists x, In x (fst o) /\ snd x = false.
