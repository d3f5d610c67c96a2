(** What the properties of the trees of fixed size speak about. *)
From Coq Require Import ZArith Arith Bool List.
From Verif Require Import BufferModel RouteModel ChannelModel IqRouterModel NetModel NetSpec NetMeshSpec TreeModel.
Import ListNotations.
Open Scope nat_scope.

(** What the routing functions may give for a head. *)
Definition qt_may (T : traffic) (r i : nat) (f : flit) (es : list oelem) : Prop :=
  es = qtree_nca r (y_dest T (f_id f)) (Z.of_nat (y_b T (f_id f))) (Z.of_nat (y_e T (f_id f))).
Definition t4_may (T : traffic) (r i : nat) (f : flit) (es : list oelem) : Prop :=
  let b := Z.of_nat (y_b T (f_id f)) in let e := Z.of_nat (y_e T (f_id f)) in
  (exists x y, x < 2 /\ y < 4 /\ es = tree4_nca r (y_dest T (f_id f)) x y b e) \/ (exists x, x < 2 /\ es = tree4_anca r (y_dest T (f_id f)) x b e).
(** Whatever a routing function gives, a packet for node [d] on channel [c] leaves the network at node [d], after [h] routers: [gives r es] if it may give [es] at router [r]. *)
Inductive goes (w : netcfg) (gives : nat -> list oelem -> Prop) (b e : Z) (d : nat) : cid -> nat -> Prop :=
| goes_out : goes w gives b e d (Ej d) 0
| goes_hop : forall c r i h, w_snk w c = Some (r, i) -> (exists es, gives r es) ->
    (forall es, gives r es -> exists p, es = [add_range (Z.of_nat p) b e] /\ p < c_outs (w_cfg w r) /\ goes w gives b e d (w_out w r p) h) -> goes w gives b e d c (S h).
(** The routers on the way between nodes: four nodes at a leaf, four leaves below a router or a pair of routers. *)
Definition way_len (a d : nat) : nat := if Nat.eqb (a / 4) (d / 4) then 1 else if Nat.eqb (a / 16) (d / 16) then 3 else 5.

(** A head may be on a channel that leads up from a router that is not above its destination, and on one that leads down to a router above it. *)
Definition tree_ok (nodes : nat) (okb : nat -> nat -> bool) (T : traffic) (vcs : nat) (c : cid) (g : flit) : Prop :=
  let a := y_src T (f_id g) in let d := y_dest T (f_id g) in
  a < nodes /\ d < nodes /\ y_b T (f_id g) <= y_e T (f_id g) < vcs /\ y_b T (f_id g) <= f_vc g <= y_e T (f_id g) /\
  match c with Inj m => m = a | Ej m => m = d | Ch x => okb x d = true end.
(** The channels of the qtree: up to the top, up from the leaves, down from the top, down to the leaves. *)
Definition qt_okb (c d : nat) : bool :=
  if Nat.ltb c 4 then negb (Nat.eqb (d / 16) c) else if Nat.ltb c 20 then negb (Nat.eqb (d / 4) (c - 4)) else if Nat.ltb c 24 then Nat.eqb (d / 16) (c - 20) else Nat.eqb (d / 4) (c - 24).
Definition qt_left (c : cid) (d : nat) : nat :=
  match c with
  | Inj a => way_len a d
  | Ej _ => 0
  | Ch c => if Nat.ltb c 4 then 3 else if Nat.ltb c 20 then if Nat.eqb ((c - 4) / 4) (d / 16) then 2 else 4 else if Nat.ltb c 24 then 2 else 1
  end.
Definition qt_rank (c : cid) : nat :=
  match c with Inj _ => 5 | Ej _ => 0 | Ch c => if Nat.ltb c 4 then 3 else if Nat.ltb c 20 then 4 else if Nat.ltb c 24 then 2 else 1 end.
(** Those of tree4: the even ones lead down, the first 64 from or to leaves. *)
Definition t4_leaf (c : nat) : nat := 4 * (c / 2 / 4 / 2) + (c / 2) mod 4.
Definition t4_mid (c : nat) : nat := ((c - 64) / 2) mod 8 / 2.
Definition t4_okb (c d : nat) : bool :=
  let here := if Nat.ltb c 64 then Nat.eqb (d / 4) (t4_leaf c) else Nat.eqb (d / 16) (t4_mid c) in if Nat.even c then here else negb here.
Definition t4_left (c : cid) (d : nat) : nat :=
  match c with
  | Inj a => way_len a d
  | Ej _ => 0
  | Ch c => if Nat.even c then if Nat.ltb c 64 then 1 else 2 else if Nat.ltb c 64 then if Nat.eqb (t4_leaf c / 4) (d / 16) then 2 else 4 else 3
  end.
Definition t4_rank (c : cid) : nat :=
  match c with Inj _ => 5 | Ej _ => 0 | Ch c => if Nat.even c then if Nat.ltb c 64 then 1 else 2 else if Nat.ltb c 64 then 4 else 3 end.
