(** What the properties of the k-ary n-fly network speak about. *)
From Coq Require Import ZArith Arith Bool List.
From Verif Require Import BufferModel RouteModel ChannelModel IqRouterModel NetModel NetSpec NetMeshSpec FlyModel.
Import ListNotations.
Open Scope nat_scope.

(** A packet for node [d] on channel [c] that is led by the routing function leaves the network at node [d], after [h] routers. *)
Inductive flies (k n d : nat) (w : netcfg) : cid -> nat -> Prop :=
| fl_out : flies k n d w (Ej d) 0
| fl_hop : forall c r i p h, w_snk w c = Some (r, i) -> (forall b e, dest_tag_fly k n r d b e = [add_range (Z.of_nat p) b e]) -> p < k -> flies k n d w (w_out w r p) h -> flies k n d w c (S h).

(** The stages of the way from node [a] to node [d].  In stage [s] the number of the router has the first [s] digits of [d] and then the last but one digits of [a]; the port is the next digit of [d]. *)
Definition fly_at (k n a d s : nat) : nat := (d / k ^ (n - s)) * k ^ (n - 1 - s) + (a / k) mod k ^ (n - 1 - s).
Definition fly_digit (k n d s : nat) : nat := (d / k ^ (n - 1 - s)) mod k.
(** The channel that leaves stage [s]. *)
Definition fly_hop (k n a d s : nat) : cid := if Nat.eqb s (n - 1) then Ej d else Ch (s * k ^ n + fly_at k n a d s * k + fly_digit k n d s).
Definition fly_way (k n a d : nat) : list cid := Inj a :: map (fly_hop k n a d) (seq 0 n).
(** A head may be on the way from its source to its destination. *)
Definition fly_ok (k n : nat) (T : traffic) (vcs : nat) (c : cid) (g : flit) : Prop :=
  y_src T (f_id g) < k ^ n /\ y_dest T (f_id g) < k ^ n /\ y_b T (f_id g) <= y_e T (f_id g) < vcs /\ y_b T (f_id g) <= f_vc g <= y_e T (f_id g) /\ In c (fly_way k n (y_src T (f_id g)) (y_dest T (f_id g))).
(** What the routing function gives. *)
Definition fly_route (k n : nat) (T : traffic) (r : nat) (f : flit) : list oelem := dest_tag_fly k n r (y_dest T (f_id f)) (Z.of_nat (y_b T (f_id f))) (Z.of_nat (y_e T (f_id f))).
Definition fly_may (k n : nat) (T : traffic) (r i : nat) (f : flit) (es : list oelem) : Prop := es = fly_route k n T r f.
(** The router is on the way of the flit. *)
Definition fly_by (k n : nat) (T : traffic) (r i : nat) (f : flit) : Prop := exists s, s < n /\ r = s * k ^ (n - 1) + fly_at k n (y_src T (f_id f)) (y_dest T (f_id f)) s.
