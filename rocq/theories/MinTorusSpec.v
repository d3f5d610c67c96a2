(** min_adapt_torus with everything it draws at random. *)
From Coq Require Import ZArith List.
From Verif Require Import RouteModel RouteSpec MinTorusModel.
Open Scope Z_scope.

Definition rf_mt (k : Z) (n : nat) : rfun Z := fun ph x r => exists r1, r = min_adapt_torus k n r1 ph x.
