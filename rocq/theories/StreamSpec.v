(** Streams of flits from several sources on one virtual channel: what the NoC is assumed to
    keep when the adapters are put together. *)
From Coq Require Import ZArith Bool List.
Import ListNotations.

Section S.
Context {F : Type}.
Variable tail : F -> bool.
Variable src : F -> Z.

(** A packet: exactly its last flit is a tail. *)
Definition packet (p : list F) : Prop :=
  p <> [] /\ forall j f, nth_error p j = Some f -> (tail f = true <-> S j = length p).

(** Packets do not interleave: after a flit that is not a tail comes a flit of the same source. *)
Definition wormhole (l : list F) : Prop :=
  forall a f g b, l = a ++ f :: g :: b -> tail f = false -> src g = src f.

Definition from (k : Z) (f : F) : bool := Z.eqb (src f) k.
End S.

(** [a] is the first part of [b]. *)
Definition prefix {A} (a b : list A) : Prop := exists later, b = a ++ later.
