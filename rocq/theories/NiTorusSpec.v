(** dim_order_ni_torus with everything it draws at random. *)
From Coq Require Import ZArith List.
From Verif Require Import RouteModel RouteSpec NiTorusModel.
Open Scope Z_scope.

Definition rf_ni_torus (k : Z) (n : nat) : rfun unit := fun s x r => exists r1, rf_pure (dim_order_ni_torus k n (k ^ Z.of_nat n) r1) s x r.
