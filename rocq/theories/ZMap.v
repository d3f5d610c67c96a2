(** [std::map<int, A>]: an association list in increasing key order. *)
From Coq Require Import ZArith List Lia Sorted.
Import ListNotations.
Local Open Scope Z_scope.

(** C++ [std::map::find]; [None] is [end()]. *)
Fixpoint mfind {A} (k : Z) (m : list (Z * A)) : option A :=
  match m with
  | [] => None
  | (k', v) :: r => if k =? k' then Some v else mfind k r
  end.

(** C++ [map[k] = v]. *)
Fixpoint mset {A} (k : Z) (v : A) (m : list (Z * A)) : list (Z * A) :=
  match m with
  | [] => [(k, v)]
  | (k', v') :: r => if k =? k' then (k, v) :: r else if k <? k' then (k, v) :: (k', v') :: r else (k', v') :: mset k v r
  end.

(** C++ [map.erase(k)]. *)
Fixpoint mdel {A} (k : Z) (m : list (Z * A)) : list (Z * A) :=
  match m with
  | [] => []
  | (k', v') :: r => if k =? k' then r else (k', v') :: mdel k r
  end.

Definition msorted {A} (m : list (Z * A)) := StronglySorted Z.lt (map fst m).

Lemma mfind_set_same : forall A k (v : A) m, mfind k (mset k v m) = Some v.
Proof.
  induction m as [|[k' v'] r IH]; cbn.
  - rewrite Z.eqb_refl. auto.
  - destruct (Z.eqb_spec k k'); cbn; [rewrite Z.eqb_refl; auto|].
    destruct (Z.ltb_spec k k'); cbn.
    + rewrite Z.eqb_refl. auto.
    + destruct (Z.eqb_spec k k'); [congruence|auto].
Qed.

Lemma mfind_set_other : forall A k k2 (v : A) m, k2 <> k -> mfind k2 (mset k v m) = mfind k2 m.
Proof.
  induction m as [|[k' v'] r IH]; intros N; cbn.
  - destruct (Z.eqb_spec k2 k); congruence.
  - destruct (Z.eqb_spec k k') as [->|E]; cbn.
    + destruct (Z.eqb_spec k2 k'); congruence.
    + destruct (Z.ltb_spec k k'); cbn.
      * destruct (Z.eqb_spec k2 k); congruence.
      * destruct (Z.eqb_spec k2 k'); auto.
Qed.

Lemma mset_keys : forall A k (v : A) m x, In x (map fst (mset k v m)) <-> x = k \/ In x (map fst m).
Proof.
  induction m as [|[k' v'] r IH]; intros x; cbn; [intuition|].
  destruct (Z.eqb_spec k k') as [->|E]; cbn; [intuition|].
  destruct (Z.ltb_spec k k'); cbn; [intuition|]. rewrite IH. intuition.
Qed.

Lemma mset_sorted : forall A k (v : A) m, msorted m -> msorted (mset k v m).
Proof.
  unfold msorted. induction m as [|[k' v'] r IH]; intros S; cbn; [repeat constructor|].
  cbn in S. inversion S as [|? ? S1 S2]; subst.
  destruct (Z.eqb_spec k k') as [->|E]; cbn; auto.
  destruct (Z.ltb_spec k k'); cbn.
  - constructor; auto. constructor; auto. eapply Forall_impl; [|exact S2]. intros; lia.
  - constructor; auto. apply Forall_forall. intros x Hx. apply mset_keys in Hx. destruct Hx as [->|Hx]; [lia|].
    rewrite Forall_forall in S2. auto.
Qed.

Lemma mfind_In : forall A k (v : A) m, mfind k m = Some v -> In (k, v) m.
Proof.
  induction m as [|[k' v'] r IH]; cbn; [discriminate|]. destruct (Z.eqb_spec k k') as [->|E]; intros H.
  - inversion H. auto.
  - auto.
Qed.

Lemma mIn_find : forall A k (v : A) m, msorted m -> In (k, v) m -> mfind k m = Some v.
Proof.
  unfold msorted. induction m as [|[k' v'] r IH]; intros S H; [destruct H|]. cbn in S. inversion S as [|? ? S1 S2]; subst. cbn.
  destruct H as [H|H].
  - inversion H; subst. rewrite Z.eqb_refl. auto.
  - destruct (Z.eqb_spec k k') as [->|E]; auto. rewrite Forall_forall in S2.
    specialize (S2 k' (in_map fst _ _ H)). lia.
Qed.

Lemma mfind_None : forall A k (m : list (Z * A)), mfind k m = None <-> ~ In k (map fst m).
Proof.
  induction m as [|[k' v'] r IH]; cbn; [intuition|]. destruct (Z.eqb_spec k k') as [->|E].
  - split; [discriminate|intros H; exfalso; auto].
  - rewrite IH. intuition.
Qed.

Lemma mdel_keys : forall A k (m : list (Z * A)) x, msorted m -> (In x (map fst (mdel k m)) <-> x <> k /\ In x (map fst m)).
Proof.
  unfold msorted. induction m as [|[k' v'] r IH]; intros x S; cbn; [intuition|].
  cbn in S. inversion S as [|? ? S1 S2]; subst. rewrite Forall_forall in S2.
  destruct (Z.eqb_spec k k') as [->|E]; cbn.
  - split.
    + intros H. split; auto. intros ->. specialize (S2 _ H). lia.
    + intros [N [H|H]]; [congruence|auto].
  - rewrite IH by auto. split; [intros [H|H]; subst; intuition|intuition].
Qed.

Lemma mdel_sorted : forall A k (m : list (Z * A)), msorted m -> msorted (mdel k m).
Proof.
  unfold msorted. induction m as [|[k' v'] r IH]; intros S; cbn; auto.
  cbn in S. inversion S as [|? ? S1 S2]; subst.
  destruct (Z.eqb_spec k k') as [->|E]; cbn; auto. constructor; auto.
  apply Forall_forall. intros x Hx. apply mdel_keys in Hx; auto. rewrite Forall_forall in S2. apply S2. tauto.
Qed.

Lemma mfind_del_same : forall A k (m : list (Z * A)), msorted m -> mfind k (mdel k m) = None.
Proof. intros. apply mfind_None. rewrite mdel_keys by auto. tauto. Qed.

Lemma mfind_del_other : forall A k k2 (m : list (Z * A)), k2 <> k -> mfind k2 (mdel k m) = mfind k2 m.
Proof.
  induction m as [|[k' v'] r IH]; intros N; cbn; auto.
  destruct (Z.eqb_spec k k') as [->|E]; cbn.
  - destruct (Z.eqb_spec k2 k'); congruence.
  - destruct (Z.eqb_spec k2 k'); auto.
Qed.
