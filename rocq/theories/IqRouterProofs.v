(** Lemmas about the router: an invariant kept by every part of a step. *)
From Coq Require Import ZArith Arith Bool List Lia Permutation.
From Verif Require Import Fupd ArbiterModel AllocModel AllocSpec BufferModel BufferSpec BufferProofs RouteModel IqRouterModel IqRouterSpec.
Import ListNotations.
Open Scope nat_scope.

(** ** Sequences *)
Lemma parse_snoc : forall l f, parse (l ++ [f]) = pstep (parse l) f.
Proof. intros. unfold parse. rewrite fold_left_app. reflexivity. Qed.
Lemma pstep_none : forall l, fold_left pstep l None = None.
Proof. intros l; induction l; cbn; auto. Qed.
Lemma parse_pre : forall a b, parse (a ++ b) <> None -> parse a <> None.
Proof. intros a b H E. apply H. unfold parse in *. rewrite fold_left_app, E. apply pstep_none. Qed.
Lemma on_vc_app : forall v a b, on_vc v (a ++ b) = on_vc v a ++ on_vc v b.
Proof. intros. unfold on_vc. apply filter_app. Qed.

Definition way_eqb (a b : nat * nat) : bool := Nat.eqb (fst a) (fst b) && Nat.eqb (snd a) (snd b).
Lemma way_eqb_ok : forall a b, way_eqb a b = true <-> a = b.
Proof. intros [a1 a2] [b1 b2]. unfold way_eqb. cbn [fst snd]. rewrite andb_true_iff, !Nat.eqb_eq. split; [intros [-> ->]; auto|intros E; injection E; auto]. Qed.
Definition gstep (a : option (option (Z * (nat * nat)))) (t : trip) : option (option (Z * (nat * nat))) :=
  match a with
  | None => None
  | Some None => if f_head (fst t) then Some (if f_tail (fst t) then None else Some (f_pid (fst t), way t)) else None
  | Some (Some (p, w)) => if negb (f_head (fst t)) && (f_pid (fst t) =? p)%Z && way_eqb (way t) w then Some (if f_tail (fst t) then None else Some (p, w)) else None
  end.
Definition gparse (l : list trip) := fold_left gstep l (Some None).
Lemma gparse_snoc : forall l t, gparse (l ++ [t]) = gstep (gparse l) t.
Proof. intros. unfold gparse. rewrite fold_left_app. reflexivity. Qed.
Lemma gstep_none : forall l, fold_left gstep l None = None.
Proof. intros l; induction l; cbn; auto. Qed.
Lemma gparse_fst : forall l gs, gparse l = Some gs -> parse (map fst l) = Some (option_map fst gs).
Proof.
  intros l; induction l as [|t l IH] using rev_ind; intros gs E; [injection E as <-; reflexivity|].
  rewrite gparse_snoc in E. rewrite map_app. cbn [map]. rewrite parse_snoc. destruct (gparse l) as [a|]; [|discriminate]. rewrite (IH a eq_refl).
  destruct a as [[p w]|]; cbn [gstep pstep option_map fst] in *.
  - destruct (negb (f_head (fst t)) && (f_pid (fst t) =? p)%Z); [|discriminate]. destruct (way_eqb (way t) w); [|discriminate]. injection E as <-. destruct (f_tail (fst t)); reflexivity.
  - destruct (f_head (fst t)); [|discriminate]. injection E as <-. destruct (f_tail (fst t)); reflexivity.
Qed.
Lemma gparse_way : forall l, gparse l <> None -> same_way l.
Proof.
  intros l G l1 a b l2 E T. subst l. unfold gparse in G. rewrite fold_left_app in G. cbn [fold_left] in G.
  destruct (fold_left gstep l1 (Some None)) as [s|]; [|cbn in G; rewrite gstep_none in G; congruence].
  assert (W : forall s t, gstep (Some s) t <> None -> f_tail (fst t) = false -> exists p, gstep (Some s) t = Some (Some (p, way t))).
  { intros s0 t N T0. destruct s0 as [[p w]|]; cbn [gstep] in *.
    - destruct (negb (f_head (fst t)) && (f_pid (fst t) =? p)%Z); [|cbn in N; congruence]. cbn [andb] in *. destruct (way_eqb (way t) w) eqn:Y; [|congruence].
      apply way_eqb_ok in Y. rewrite T0. exists p. congruence.
    - destruct (f_head (fst t)); [|congruence]. rewrite T0. eexists. reflexivity. }
  destruct (gstep (Some s) a) as [s1|] eqn:A; [|cbn in G; rewrite gstep_none in G; congruence].
  destruct (W s a) as [p Q]; [congruence|auto|]. rewrite A in Q. injection Q as ->. cbn [gstep] in G.
  destruct (negb (f_head (fst b)) && (f_pid (fst b) =? p)%Z); [|cbn in G; rewrite gstep_none in G; congruence]. cbn [andb] in G.
  destruct (way_eqb (way b) (way a)) eqn:Y; [apply way_eqb_ok; auto|rewrite gstep_none in G; congruence].
Qed.

(** ** Updates *)
Lemma upd2_same : forall A (f : nat -> nat -> A) i v x, upd2 f i v x i v = x.
Proof. intros. unfold upd2. rewrite !fupd_same. reflexivity. Qed.
Lemma upd2_other : forall A (f : nat -> nat -> A) i v x a b, (a, b) <> (i, v) -> upd2 f i v x a b = f a b.
Proof.
  intros A f i v x a b N. unfold upd2, fupd. destruct (Nat.eqb_spec a i) as [->|]; [|reflexivity]. destruct (Nat.eqb_spec b v) as [->|]; [congruence|reflexivity].
Qed.
Lemma upd2_row : forall A (f : nat -> nat -> A) i v x a, a <> i -> upd2 f i v x a = f a.
Proof. intros. unfold upd2. apply fupd_other. auto. Qed.
Lemma nn_dec : forall a b : nat * nat, {a = b} + {a <> b}.
Proof. decide equality; apply Nat.eq_dec. Qed.

(** ** Queues *)
Section Queues.
Variable c : iqcfg.

Definition waits_rt (b : vcst) : Prop := v_state b = Routing.
Definition waits_va (b : vcst) : Prop := v_state b = VAlloc.
Definition waits_sa (b : vcst) : Prop := v_state b = Active /\ v_buf b <> [].
Definition listed (f : nat -> nat -> vcst) (p : vcst -> Prop) (q : list (nat * nat)) : Prop :=
  NoDup q /\ forall i v, In (i, v) q <-> i < c_in c /\ v < c_vcs c /\ p (f i v).
Definition queues (f : nat -> nat -> vcst) (rq va sa : list (nat * nat)) : Prop := listed f waits_rt rq /\ listed f waits_va va /\ listed f waits_sa sa.
(** The same with the channel [iv] taken out. *)
Definition listed_but (iv : nat * nat) (f : nat -> nat -> vcst) (p : vcst -> Prop) (q : list (nat * nat)) : Prop :=
  NoDup q /\ forall i v, In (i, v) q <-> (i, v) <> iv /\ i < c_in c /\ v < c_vcs c /\ p (f i v).
Definition queues_but iv (f : nat -> nat -> vcst) (rq va sa : list (nat * nat)) : Prop :=
  listed_but iv f waits_rt rq /\ listed_but iv f waits_va va /\ listed_but iv f waits_sa sa.

Lemma listed_perm : forall f p q q', Permutation q q' -> listed f p q -> listed f p q'.
Proof.
  intros f p q q' E [N I]. split; [eapply Permutation_NoDup; eauto|]. intros i v. rewrite <- I. split; apply Permutation_in; auto. apply Permutation_sym; auto.
Qed.
Lemma listed_out : forall f p i v q, listed f p ((i, v) :: q) -> listed_but (i, v) f p q.
Proof.
  intros f p i v q [N I]. inversion N as [|? ? N1 N2]; subst. split; auto. intros a b. specialize (I a b). cbn [In] in I. split.
  - intros X. split; [|tauto]. intros E. apply N1. congruence.
  - intros [X Y]. apply I in Y. destruct Y as [Y|Y]; [congruence|auto].
Qed.
Lemma listed_none : forall f (p : vcst -> Prop) i v q, listed f p q -> ~ p (f i v) -> listed_but (i, v) f p q.
Proof.
  intros f p i v q [N I] X. split; auto. intros a b. rewrite I. split; [|tauto]. intros Y. split; auto. intros E. injection E as -> ->. tauto.
Qed.
Lemma listed_in : forall f (p : vcst -> Prop) i v q b, listed_but (i, v) f p q -> i < c_in c -> v < c_vcs c -> p b -> listed (upd2 f i v b) p ((i, v) :: q).
Proof.
  intros f p i v q b [N I] Hi Hv Hp. split.
  - constructor; auto. rewrite I. tauto.
  - intros a w. cbn [In]. rewrite I. destruct (nn_dec (a, w) (i, v)) as [E|E].
    + injection E as -> ->. rewrite upd2_same. tauto.
    + rewrite upd2_other by auto. split; [intros [X|X]; [congruence|tauto]|intros X; right; tauto].
Qed.
Lemma listed_stay : forall f (p : vcst -> Prop) i v q b, listed_but (i, v) f p q -> ~ p b -> listed (upd2 f i v b) p q.
Proof.
  intros f p i v q b [N I] Hp. split; auto. intros a w. rewrite I. destruct (nn_dec (a, w) (i, v)) as [E|E].
  - injection E as -> ->. rewrite upd2_same. tauto.
  - rewrite upd2_other by auto. tauto.
Qed.
(** A channel in the same queue as before. *)
Lemma listed_same : forall f (p : vcst -> Prop) i v q b, listed f p q -> (p b <-> p (f i v)) -> listed (upd2 f i v b) p q.
Proof.
  intros f p i v q b [N I] E. split; auto. intros a w. rewrite I. destruct (nn_dec (a, w) (i, v)) as [E1|E1].
  - injection E1 as -> ->. rewrite upd2_same. tauto.
  - rewrite upd2_other by auto. tauto.
Qed.
Lemma queues_same : forall f rq va sa i v b, queues f rq va sa -> v_state b = v_state (f i v) -> (v_buf b = [] <-> v_buf (f i v) = []) -> queues (upd2 f i v b) rq va sa.
Proof.
  intros f rq va sa i v b [A [B C]] S E. split; [|split]; apply listed_same; auto; unfold waits_rt, waits_va, waits_sa; rewrite S; tauto.
Qed.

(** Where a channel goes. *)
Definition at_rt (iv : nat * nat) (b : vcst) (q : list (nat * nat)) := match v_state b with Routing => q ++ [iv] | _ => q end.
Definition at_va (iv : nat * nat) (b : vcst) (q : list (nat * nat)) := match v_state b with VAlloc => q ++ [iv] | _ => q end.
Definition at_sa (iv : nat * nat) (b : vcst) (q : list (nat * nat)) := match v_state b, v_buf b with Active, _ :: _ => q ++ [iv] | _, _ => q end.

Lemma queues_place : forall f rq pr va pv sa ps i v b, queues_but (i, v) f (rq ++ pr) (va ++ pv) (sa ++ ps) -> i < c_in c -> v < c_vcs c ->
  queues (upd2 f i v b) (at_rt (i, v) b rq ++ pr) (at_va (i, v) b va ++ pv) (at_sa (i, v) b sa ++ ps).
Proof.
  assert (M : forall (x : nat * nat) a b, Permutation (x :: a ++ b) ((a ++ [x]) ++ b)).
  { intros. rewrite <- app_assoc. cbn [app]. apply Permutation_middle. }
  intros f rq pr va pv sa ps i v b [A [B C]] Hi Hv. unfold at_rt, at_va, at_sa. split; [|split].
  - destruct (v_state b) eqn:S; try (apply listed_stay; auto; unfold waits_rt; congruence). eapply listed_perm; [apply M|]. apply listed_in; auto.
  - destruct (v_state b) eqn:S; try (apply listed_stay; auto; unfold waits_va; congruence). eapply listed_perm; [apply M|]. apply listed_in; auto.
  - destruct (v_state b) eqn:S; try (apply listed_stay; auto; unfold waits_sa; intros [? _]; congruence).
    destruct (v_buf b) eqn:E; [apply listed_stay; auto; unfold waits_sa; tauto|]. eapply listed_perm; [apply M|]. apply listed_in; auto. split; congruence.
Qed.
Lemma queues_out_rt : forall f rq pr va sa i v, queues f (rq ++ (i, v) :: pr) va sa -> queues_but (i, v) f (rq ++ pr) va sa.
Proof.
  intros f rq pr va sa i v [A [B C]]. apply (listed_perm f waits_rt _ _ (Permutation_sym (Permutation_middle rq pr (i, v)))) in A. pose proof A as [_ X]. destruct (proj1 (X i v) (or_introl eq_refl)) as [_ [_ S]]. unfold waits_rt in S.
  split; [apply listed_out; auto|]. split; apply listed_none; auto; unfold waits_va, waits_sa; intros Y; first [congruence | destruct Y; congruence].
Qed.
Lemma queues_out_va : forall f rq va pv sa i v, queues f rq (va ++ (i, v) :: pv) sa -> queues_but (i, v) f rq (va ++ pv) sa.
Proof.
  intros f rq va pv sa i v [A [B C]]. apply (listed_perm f waits_va _ _ (Permutation_sym (Permutation_middle va pv (i, v)))) in B. pose proof B as [_ X]. destruct (proj1 (X i v) (or_introl eq_refl)) as [_ [_ S]]. unfold waits_va in S.
  split; [|split; [apply listed_out; auto|]]; apply listed_none; auto; unfold waits_rt, waits_sa; intros Y; first [congruence | destruct Y; congruence].
Qed.
Lemma queues_out_sa : forall f rq va sa ps i v, queues f rq va (sa ++ (i, v) :: ps) -> queues_but (i, v) f rq va (sa ++ ps).
Proof.
  intros f rq va sa ps i v [A [B C]]. apply (listed_perm f waits_sa _ _ (Permutation_sym (Permutation_middle sa ps (i, v)))) in C. pose proof C as [_ X]. destruct (proj1 (X i v) (or_introl eq_refl)) as [_ [_ [S _]]].
  split; [|split; [|apply listed_out; auto]]; apply listed_none; auto; unfold waits_rt, waits_va; congruence.
Qed.
Lemma queues_out_none : forall f rq va sa i v, queues f rq va sa -> v_state (f i v) = Idle \/ (v_state (f i v) = Active /\ v_buf (f i v) = []) -> queues_but (i, v) f rq va sa.
Proof.
  intros f rq va sa i v [A [B C]] S. split; [|split]; apply listed_none; auto; unfold waits_rt, waits_va, waits_sa; destruct S as [S|[S E]]; try congruence; intros [? ?]; congruence.
Qed.
End Queues.
