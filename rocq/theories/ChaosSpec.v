(** What the properties of these routing functions speak about. *)
From Coq Require Import ZArith List.
From Verif Require Import RouteModel RouteSpec ChaosModel.
Open Scope Z_scope.

(** The lowest dimension in which two nodes differ. *)
Definition lowest (k : Z) (n : nat) (u v : Z) (d : nat) : Prop :=
  (d < n)%nat /\ digit k d u <> digit k d v /\ forall i, (i < d)%nat -> digit k i u = digit k i v.
(** planar_adapt_mesh without faulty outputs, with everything it draws at random. *)
Definition rf_planar (k : Z) (n : nat) : rfun unit := fun s x r => exists rnd, rf_pure (planar_adapt_mesh k n (fun _ => false) rnd) s x r.
