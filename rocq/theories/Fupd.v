(** Pointwise update of a function on [nat], used to model arrays and vectors. *)
From Coq Require Import Arith List.

(** [v[k] = x] for a C++ vector [v]. *)
Definition fupd {A} (f : nat -> A) (k : nat) (x : A) : nat -> A :=
  fun j => if Nat.eqb j k then x else f j.

Lemma fupd_same : forall A (f : nat -> A) k x, fupd f k x k = x.
Proof. intros. unfold fupd. rewrite Nat.eqb_refl. reflexivity. Qed.

Lemma fupd_other : forall A (f : nat -> A) k x j, j <> k -> fupd f k x j = f j.
Proof. intros. unfold fupd. apply Nat.eqb_neq in H. rewrite H. reflexivity. Qed.
