(** Numbers that stand for lists of numbers: the routers and channels look only at the fields in IqRouterModel.v, the rest of a flit travels with it as a number. *)
From Coq Require Import ZArith List.
From stdpp Require countable.
Import ListNotations.

(** The data and other fields of rad-sim/sim/noc/booksim/flit.hpp:42-92 that the network does not look at, as one number. *)
Definition zcode (l : list Z) : Z := Zpos (countable.encode l).
(** And back, for rad-sim/sim/noc/booksim/flit.hpp:42-92. *)
Definition zdecode (i : Z) : list Z := match i with Zpos p => match countable.decode p with Some l => l | None => [] end | _ => [] end.
Lemma zdecode_code : forall l, zdecode (zcode l) = l.
Proof. intros l. unfold zdecode, zcode. rewrite countable.decode_encode. reflexivity. Qed.
