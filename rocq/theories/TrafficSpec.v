(** What the properties of the traffic patterns speak about. *)
From Coq Require Import ZArith Arith Bool List Permutation.
From Verif Require Import TrafficModel.
Import ListNotations.
Open Scope Z_scope.

(** The nodes. *)
Definition nodes_of (nodes : Z) : list Z := map Z.of_nat (seq 0 (Z.to_nat nodes)).
(** Every node is the destination of one node. *)
Definition permutes (nodes : Z) (d : Z -> Z) : Prop := Permutation (map d (nodes_of nodes)) (nodes_of nodes).
(** The sum of the rates of hotspots. *)
Definition weight (hs : list (Z * Z)) : Z := fold_right (fun h a => snd h + a) 0 hs.
