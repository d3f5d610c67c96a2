(** What a grid, a link, a route and a deadlock are, without the model's loops. *)
From Coq Require Import ZArith Bool List Relations.
From Verif Require Import RouteModel.
Import ListNotations.
Open Scope Z_scope.

(** The coordinate of node [x] in dimension [i] of a grid with [k] nodes per dimension. *)
Definition digit (k : Z) (i : nat) (x : Z) : Z := (x / k ^ Z.of_nat i) mod k.
Definition on_grid (k : Z) (n : nat) (x : Z) : Prop := 0 <= x < k ^ Z.of_nat n.

(** The distance on the mesh, and on the torus. *)
Fixpoint mesh_dist (k : Z) (n : nat) (a b : Z) : Z :=
  match n with O => 0 | S m => mesh_dist k m a b + Z.abs (digit k m a - digit k m b) end.
Fixpoint torus_dist (k : Z) (n : nat) (a b : Z) : Z :=
  match n with
  | O => 0
  | S m => torus_dist k m a b + Z.min ((digit k m a - digit k m b) mod k) ((digit k m b - digit k m a) mod k)
  end.

(** Every coordinate of [v] is between those of [a] and [b]. *)
Definition in_box (k : Z) (n : nat) (a b v : Z) : Prop :=
  forall i, (i < n)%nat -> Z.min (digit k i a) (digit k i b) <= digit k i v <= Z.max (digit k i a) (digit k i b).

(** Output [p] of router [u] and input [q] of router [v] are the two ends of a channel. *)
Definition linked (k : Z) (n : nat) (u : Z) (p : nat) (v : Z) (q : nat) : Prop :=
  on_grid k n u /\ on_grid k n v /\
  exists c, nth_error (out_channels n u) p = Some c /\ nth_error (in_channels k n v) q = Some c.

(** [v] is [u] with coordinate [d] changed to [x]. *)
Definition moved (k : Z) (n : nat) (u v : Z) (d : nat) (x : Z) : Prop :=
  (d < n)%nat /\ digit k d v = x /\ forall i, (i < n)%nat -> i <> d -> digit k i v = digit k i u.

(** The links of a mesh: those that do not wrap around. *)
Definition mesh_link (k : Z) (n : nat) (u v : Z) : Prop :=
  exists p q d, linked k n u p v q /\ (moved k n u v d (digit k d u + 1) \/ moved k n u v d (digit k d u - 1)).

(** A channel with one of its virtual channels: the router it leaves, the output port, the virtual channel. *)
Definition chan : Type := (Z * nat * Z)%type.

(** A routing function: what is stored in the flit, where the head flit is, and the outputs offered; [None] is a failed assertion. *)
Definition rfun (St : Type) : Type := St -> rin -> option (list oelem * St) -> Prop.

Section Travel.
  Context {St : Type} (rf : rfun St) (k : Z) (n : nat) (b e : Z).

  Definition at_router (src dest : Z) (u : Z) (i : nat) (vc : Z) : rin :=
    {| ri_cur := u; ri_in := i; ri_src := src; ri_dest := dest; ri_vc := vc; ri_b := b; ri_e := e; ri_inject := false |}.

  (** A packet injected at [src] for [dest] that has crossed the channels [l] and whose head waits in virtual channel [vc] of input [i] of router [u]. *)
  Inductive gone (src dest : Z) : list chan -> Z -> nat -> Z -> St -> Prop :=
  | gone_nil : forall vc s, b <= vc <= e -> gone src dest [] src (2 * n)%nat vc s
  | gone_hop : forall l u i vc s es s' x p v j vc',
      gone src dest l u i vc s -> rf s (at_router src dest u i vc) (Some (es, s')) ->
      In x es -> o_port x = Z.of_nat p -> o_lo x <= vc' <= o_hi x -> linked k n u p v j ->
      gone src dest (l ++ [(u, p, vc')]) v j vc' s'.

  (** The outputs offered to the head. *)
  Definition offers (es : list oelem) (u : Z) (c : chan) : Prop :=
    exists x p vc, In x es /\ o_port x = Z.of_nat p /\ o_lo x <= vc <= o_hi x /\ c = (u, p, vc).

  Record pkt := { pk_src : Z; pk_dest : Z; pk_done : list chan; pk_held : list chan; pk_at : Z; pk_in : nat; pk_vc : Z; pk_st : St;
                  pk_es : list oelem; pk_st' : St }.

  (** A packet between two nodes of the grid: the channels it has left behind, those it still holds, and the outputs offered to its head. *)
  Definition travelling (p : pkt) : Prop :=
    on_grid k n (pk_src p) /\ on_grid k n (pk_dest p) /\
    gone (pk_src p) (pk_dest p) (pk_done p ++ pk_held p) (pk_at p) (pk_in p) (pk_vc p) (pk_st p) /\
    rf (pk_st p) (at_router (pk_src p) (pk_dest p) (pk_at p) (pk_in p) (pk_vc p)) (Some (pk_es p, pk_st' p)).

  (** Packets none of which can ever move: no two hold the same channel, none is offered the ejection port, and everything that is offered to one
      is held by one of them. *)
  Definition deadlock (D : list pkt) : Prop :=
    D <> [] /\ Forall travelling D /\ NoDup (flat_map pk_held D) /\
    forall p c, In p D -> offers (pk_es p) (pk_at p) c -> snd (fst c) <> (2 * n)%nat /\ In c (flat_map pk_held D).
End Travel.
Arguments pkt : clear implicits.

Arguments at_router b e src dest u i vc : assert.

(** A routing function delivers: [dist] hops bring a packet from its source to its destination, over links that satisfy [lk]; the packet stays in [box],
    keeps a virtual channel of its type, no assertion fails, the head is always offered something, and it is offered the ejection port exactly at its
    destination. *)
Definition delivers {St} (rf : rfun St) (k : Z) (n : nat) (b e : Z) (dist : Z -> Z -> Z) (box : Z -> Z -> Z -> Prop) (lk : Z -> Z -> Prop) : Prop :=
  forall src dest l u i vc s, on_grid k n src -> on_grid k n dest -> gone rf k n b e src dest l u i vc s ->
    on_grid k n u /\ b <= vc <= e /\ box src dest u /\ Z.of_nat (length l) + dist u dest = dist src dest /\
    (exists r, rf s (at_router b e src dest u i vc) r) /\
    forall r, rf s (at_router b e src dest u i vc) r ->
      exists es s', r = Some (es, s') /\ es <> [] /\
        forall x, In x es -> b <= o_lo x <= o_hi x /\ o_hi x <= e /\
          if u =? dest then o_port x = Z.of_nat (2 * n)
          else exists p v j, o_port x = Z.of_nat p /\ linked k n u p v j /\ lk u v.

(** No assertion fails on the way of a packet, and it is only offered virtual channels of its type. *)
Definition own_channels {St} (rf : rfun St) (k : Z) (n : nat) (b e : Z) : Prop :=
  forall src dest l u i vc s r, on_grid k n src -> on_grid k n dest -> gone rf k n b e src dest l u i vc s -> rf s (at_router b e src dest u i vc) r ->
    exists es s', r = Some (es, s') /\ es <> [] /\ forall x, In x es -> b <= o_lo x <= o_hi x /\ o_hi x <= e.

(** A new packet, without a virtual channel yet, is offered channels of its type at the injection port and nothing else. *)
Definition injects {St} (rf : rfun St) (k : Z) (n : nat) (b e : Z) : Prop :=
  forall s x r, ri_inject x = true -> ri_vc x = -1 -> ri_b x = b -> ri_e x = e -> on_grid k n (ri_dest x) -> rf s x r ->
    exists y s', r = Some ([y], s') /\ o_port y = -1 /\ b <= o_lo y <= o_hi y /\ o_hi y <= e.

(** The routing functions with everything they draw at random. *)
Definition rf_pure (f : rin -> option (list oelem)) : rfun unit :=
  fun _ x r => r = match f x with Some es => Some (es, tt) | None => None end.
Definition rf_dor k n := rf_pure (dim_order_mesh k n (k ^ Z.of_nat n)).
Definition rf_ni k n := rf_pure (dim_order_ni_mesh k n (k ^ Z.of_nat n)).
Definition rf_pni k n := rf_pure (dim_order_pni_mesh k n (k ^ Z.of_nat n)).
Definition rf_adapt k n := rf_pure (min_adapt_mesh k n (k ^ Z.of_nat n)).
Definition rf_xy k n : rfun unit := fun s x r => exists xy, rf_pure (xy_yx_mesh k n (k ^ Z.of_nat n) xy) s x r.
Definition rf_romm k n : rfun (Z * Z) := fun s x r =>
  exists rnd, (forall i d, 0 <= d -> 0 <= rnd i d <= d) /\ r = romm_mesh k n (k ^ Z.of_nat n) rnd s x.
Definition rf_valiant k n : rfun (Z * Z) := fun s x r =>
  exists pick, 0 <= pick <= k ^ Z.of_nat n - 1 /\ r = valiant_mesh k n (k ^ Z.of_nat n) pick s x.
Definition rf_torus k n balance : rfun Z := fun ph x r => exists r1 r2, r = dim_order_torus k n balance r1 r2 ph x.

(** The networks of a design after all of them are built: the routing function works with the globals that the last one left behind. *)
Definition rf_shared (cfgs : list (Z * nat)) : rfun unit := rf_pure (dim_order_mesh_g (build_nets {| g_k := 0; g_n := 0%nat; g_nodes := 0 |} cfgs)).
