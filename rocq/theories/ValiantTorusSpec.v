(** valiant_torus with everything it draws at random and everything that may be in the variable. *)
From Coq Require Import ZArith List.
From Verif Require Import RouteModel RouteSpec ValiantTorusModel.
Open Scope Z_scope.

Definition rf_vtorus (k : Z) (n : nat) : rfun (Z * Z) := fun st x r =>
  exists pick r1 r2 g, 0 <= pick <= k ^ Z.of_nat n - 1 /\ r = valiant_torus k n pick r1 r2 g st x.
(** Where the packet is going: the node between, and then its destination. *)
Definition heading (st : Z * Z) (x : rin) : Z := if fst st / 2 =? 0 then snd st else ri_dest x.
