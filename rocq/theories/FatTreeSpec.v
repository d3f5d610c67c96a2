(** What the properties of the fat tree speak about. *)
From Coq Require Import ZArith Arith Bool List.
From Verif Require Import BufferModel RouteModel ChannelModel IqRouterModel NetModel NetSpec NetMeshSpec FatTreeModel.
Import ListNotations.
Open Scope nat_scope.

(** Whatever the random numbers are, a packet for node [d] on channel [c] leaves the network at node [d], after [h] routers. *)
Inductive led (k n d : nat) (w : netcfg) : cid -> nat -> Prop :=
| led_out : led k n d w (Ej d) 0
| led_hop : forall c r i p h, w_snk w c = Some (r, i) -> (forall x, x < k -> p x < c_outs (w_cfg w r) /\ forall b e, fattree_nca k n r i d x b e = Some [add_range (Z.of_nat (p x)) b e]) ->
    (forall x, x < k -> led k n d w (w_out w r (p x)) h) -> led k n d w c (S h).
(** The least level, counted from the leaves, of a router from which both nodes can be reached going down. *)
Definition meet (k a d h : nat) : Prop := a / k ^ (h + 1) = d / k ^ (h + 1) /\ forall j, j < h -> a / k ^ (j + 1) <> d / k ^ (j + 1).

(** Channels between levels [l] and [l + 1], from router [pos], port [p]. *)
Definition ft_down (k n l pos p : nat) : cid := Ch (l * (2 * k ^ n) + (pos * k + p)).
Definition ft_up (k n l pos p : nat) : cid := Ch (l * (2 * k ^ n) + (k ^ n + (pos * k + p))).
(** A head may be on a channel that leads up from a router above its source and not above its destination, and on one that leads down to a router above its destination. *)
Definition ft_ok (k n : nat) (T : traffic) (vcs : nat) (c : cid) (g : flit) : Prop :=
  let a := y_src T (f_id g) in let d := y_dest T (f_id g) in
  a < k ^ n /\ d < k ^ n /\ y_b T (f_id g) <= y_e T (f_id g) < vcs /\ y_b T (f_id g) <= f_vc g <= y_e T (f_id g) /\
  match c with
  | Inj m => m = a
  | Ej m => m = d
  | Ch _ => exists l pos p, S l < n /\ pos < k ^ (n - 1) /\ p < k /\
      ((c = ft_down k n l pos p /\ pos / k ^ (n - 1 - l) = d / k ^ (n - l) /\ p = (d / k ^ (n - 1 - l)) mod k) \/
       (c = ft_up k n l pos p /\ pos / k ^ (n - 2 - l) = a / k ^ (n - 1 - l) /\ a / k ^ (n - 1 - l) <> d / k ^ (n - 1 - l)))
  end.
(** What the routing functions may give. *)
Definition ft_may (k n : nat) (T : traffic) (r i : nat) (f : flit) (es : list oelem) : Prop :=
  let b := Z.of_nat (y_b T (f_id f)) in let e := Z.of_nat (y_e T (f_id f)) in
  (exists x, x < k /\ es = match fattree_nca k n r i (y_dest T (f_id f)) x b e with Some l => l | None => [] end) \/
  (exists x y used, x < k /\ y < k /\ es = match fattree_anca k n r i (y_dest T (f_id f)) x y used b e with Some l => l | None => [] end).
(** The assertion in them holds. *)
Definition ft_sure (k n : nat) (T : traffic) (r i : nat) (f : flit) : Prop :=
  forall x y used b e, fattree_nca k n r i (y_dest T (f_id f)) x b e <> None /\ fattree_anca k n r i (y_dest T (f_id f)) x y used b e <> None.
(** A way over the wires from a channel to another one, through a number of routers. *)
Inductive hops (w : netcfg) : cid -> nat -> cid -> Prop :=
| hops_0 : forall c, hops w c 0 c
| hops_S : forall c r i o m c', w_snk w c = Some (r, i) -> o < c_outs (w_cfg w r) -> hops w (w_out w r o) m c' -> hops w c (S m) c'.
