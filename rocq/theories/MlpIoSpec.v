(** The MLP design with its driver: what is connected to what. *)
From Coq Require Import ZArith Arith Bool List.
From Verif Require Import StreamSpec MvmModel MvmSpec MlpModel MlpSpec.
Import ListNotations.
Open Scope nat_scope.

(** Numbers of 32 bits with sign. *)
Definition fits32 (x : Z) : Prop := (- 2 ^ 31 <= x < 2 ^ 31)%Z.

(** What dispatcher [m] has sent is [fed m], what engine [m] of layer [l] has received and sent is [rx l m] and [out l m], what the collector has received is [got].
    With [prefix] for [R] transactions are under way, with equality everything has arrived. *)
Record wired (R : forall A, list A -> list A -> Prop) (D : design) (fed : nat -> list (Z * Z)) (rx : nat -> nat -> list (Z * Z)) (out : nat -> nat -> list sent) (got : list Z) : Prop := {
  wi_in : forall m, m < mvms D 0 -> R _ (filter (of_kind 3) (rx 0 m)) (fed m);
  wi_next : forall l m, l + 1 < layers D -> m < mvms D (l + 1) -> R _ (filter (of_kind 3) (rx (l + 1) m)) (sent_to (Z.of_nat (l + 2)) (Z.of_nat m) (out l (mvms D l - 1)));
  wi_sum : forall l m, l < layers D -> m + 1 < mvms D l -> R _ (filter (of_kind 2) (rx l (m + 1))) (sent_to (Z.of_nat (l + 1)) (Z.of_nat (m + 1)) (out l m));
  wi_first : forall l, l < layers D -> filter (of_kind 2) (rx l 0) = [];
  wi_out : R _ got (map snd (sent_to 0 0 (out (layers D - 1) (mvms D (layers D - 1) - 1)))) }.
