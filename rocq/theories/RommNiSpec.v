(** romm_ni_mesh and valiant_ni_torus with everything they draw at random and everything that may be in the variable. *)
From Coq Require Import ZArith List.
From Verif Require Import RouteModel RouteSpec RommNiModel.
Open Scope Z_scope.

Definition rf_romm_ni (k : Z) (n : nat) : rfun (Z * Z) := fun s x r =>
  exists rnd, (forall i d, 0 <= d -> 0 <= rnd i d <= d) /\ r = romm_ni_mesh k n (k ^ Z.of_nat n) rnd s x.
Definition rf_vni (k : Z) (n : nat) : rfun (Z * Z) := fun s x r =>
  exists pick r1 g, 0 <= pick <= k ^ Z.of_nat n - 1 /\ r = valiant_ni_torus k n (k ^ Z.of_nat n) pick r1 g s x.
