From Coq Require Import ZArith Arith Bool List Lia.
From Verif Require Import Fupd ArbiterModel AllocModel AllocSpec.
Import ListNotations.

Definition rq_of (l : list ask) (r : rqm) : Prop := forall i o q, r i o = Some q <-> In (i, o, q) l.
Definition vacant (m : match_) : Prop := (forall i, m_in m i = None) /\ (forall o, m_out m o = None).

Lemma vacant_matching : forall l m, vacant m -> matching l m.
Proof. intros l m [A B]. split; intros i o; rewrite ?A, ?B; [split; discriminate|discriminate]. Qed.

Lemma matching_vacant : forall m, matching [] m -> vacant m.
Proof.
  intros m [A B]. split.
  - intros i. destruct (m_in m i) as [o|] eqn:E; auto. destruct (B i o E) as [q []].
  - intros o. destruct (m_out m o) as [i|] eqn:E; auto. apply A in E. destruct (B i o E) as [q []].
Qed.

Lemma is_some_true : forall A (x : option A), is_some x = true <-> x <> None.
Proof. intros A [a|]; cbn; split; congruence. Qed.
Lemma is_none_true : forall A (x : option A), is_none x = true <-> x = None.
Proof. intros A [a|]; cbn; split; congruence. Qed.
Lemma is_at_true : forall x k, is_at x k = true <-> x = Some k.
Proof. intros [y|] k; cbn; [rewrite Nat.eqb_eq|]; split; congruence. Qed.

Record alloc_inv (n m : nat) (A : allocator) (I J : al_st A -> list ask -> Prop) (Q : list ask -> match_ -> Prop) : Prop := {
  av_add : forall s l i o q, I s l -> legal_asks n m (l ++ [(i, o, q)]) -> I (al_add A i o q s) (l ++ [(i, o, q)]);
  av_alloc : forall s l r mt, I s l -> legal_asks n m l -> rq_of l r -> vacant mt ->
    exists s' mt', al_alloc A r mt s = Some (s', mt') /\ J s' l /\ Q l mt';
  av_clear : forall s l, J s l -> I (al_clear A s) [];
  av_q : forall l mt, Q l mt -> matching l mt }.

Lemma legal_asks_app : forall n m l1 l2, legal_asks n m (l1 ++ l2) -> legal_asks n m l1.
Proof.
  intros n m l1 l2 [A B]. rewrite map_app in A. apply Forall_app in B. split; [|tauto].
  clear B. induction l1 as [|x l1 IH]; cbn in *; [constructor|]. apply NoDup_cons_iff in A. destruct A as [A B]. constructor; auto.
  intro C. apply A. apply in_or_app. auto.
Qed.

Lemma alloc_adds_ok : forall n m A I J Q, alloc_inv n m A I J Q -> forall l pre s,
  I (g_own s) pre -> legal_asks n m (pre ++ l) -> rq_of pre (g_rq s) -> (g_dirty s = false -> pre = []) ->
  exists s', alloc_adds A n m l s = Some s' /\ I (g_own s') (pre ++ l) /\ rq_of (pre ++ l) (g_rq s') /\ g_m s' = g_m s /\ (g_dirty s' = false -> pre ++ l = []).
Proof.
  intros n m A I J Q H. induction l as [|[[i o] q] l IH]; intros pre s HI HL HR HD.
  - exists s. rewrite app_nil_r. cbn. auto.
  - change ((i, o, q) :: l) with ([(i, o, q)] ++ l : list ask) in HL. rewrite app_assoc in HL.
    change ((i, o, q) :: l) with ([(i, o, q)] ++ l : list ask). rewrite (app_assoc pre). change ([(i, o, q)] ++ l) with ((i, o, q) :: l).
    pose proof (legal_asks_app n m (pre ++ [(i, o, q)]) l HL) as HL1. destruct HL1 as [N F]. apply Forall_app in F. destruct F as [_ F].
    apply Forall_cons_iff in F. destruct F as [[F1 [F2 F3]] _]. cbn in F1, F2, F3.
    cbn [alloc_adds]. unfold alloc_add. rewrite (proj2 (Nat.ltb_lt i n) F1), (proj2 (Nat.ltb_lt o m) F2), (proj2 (Z.leb_le _ _) F3).
    assert (E : g_rq s i o = None).
    { destruct (g_rq s i o) as [q'|] eqn:E; auto. apply HR in E. rewrite map_app in N. cbn in N.
      apply NoDup_remove in N. destruct N as [_ N]. exfalso. apply N. rewrite app_nil_r. apply (in_map fst) in E. exact E. }
    rewrite E. cbn [is_none is_some negb andb].
    match goal with |- context [alloc_adds A n m l ?x] => set (s1 := x) end. change (g_m s) with (g_m s1).
    apply IH; unfold s1; cbn [g_own g_rq g_dirty].
    + apply (av_add _ _ _ _ _ _ H); auto. apply (legal_asks_app n m _ l HL).
    + exact HL.
    + intros a b c. destruct (Nat.eqb_spec a i) as [->|Na]; [destruct (Nat.eqb_spec b o) as [->|Nb]|]; cbn [andb].
      * rewrite in_app_iff. cbn. split; [intros X; injection X as ->; auto|].
        intros [X|[X|[]]]; [apply HR in X; congruence|injection X as ->; auto].
      * rewrite (HR i b c), in_app_iff. cbn. split; [auto|intros [X|[X|[]]]; [auto|congruence]].
      * rewrite (HR a b c), in_app_iff. cbn. split; [auto|intros [X|[X|[]]]; [auto|congruence]].
    + discriminate.
Qed.

Lemma alloc_rounds_ok : forall n m A I J Q, alloc_inv n m A I J Q -> forall ls s,
  I (g_own s) [] -> rq_of [] (g_rq s) -> g_dirty s = false -> vacant (g_m s) -> Forall (legal_asks n m) ls ->
  exists s' ms, alloc_rounds A n m ls s = Some (s', ms) /\ Forall2 Q ls ms.
Proof.
  intros n m A I J Q H. induction ls as [|l ls IH]; intros s HI HR HD HV HF.
  - exists s, []. split; [reflexivity|constructor].
  - apply Forall_cons_iff in HF. destruct HF as [HL HF]. cbn [alloc_rounds].
    destruct (alloc_adds_ok _ _ _ _ _ _ H l [] s HI HL HR (fun _ => eq_refl)) as [s1 [E1 [I1 [R1 [M1 D1]]]]]. rewrite E1.
    cbn [app] in I1, R1, D1. unfold alloc_run.
    destruct (av_alloc _ _ _ _ _ _ H _ _ _ (g_m s1) I1 HL R1) as [x [mt [E2 [J2 Q2]]]]; [rewrite M1; auto|]. rewrite E2.
    match goal with |- context [alloc_rounds A n m ls ?x] => set (s2 := x) end.
    destruct (IH s2) as [s3 [ms [E3 F3]]]; cbn.
    + apply (av_clear _ _ _ _ _ _ H _ _ J2).
    + intros a b c. split; [discriminate|intros []].
    + reflexivity.
    + destruct (g_dirty s1) eqn:D; [split; reflexivity|]. apply matching_vacant. rewrite <- (D1 eq_refl). apply (av_q _ _ _ _ _ _ H). auto.
    + exact HF.
    + rewrite E3. exists s3, (mt :: ms). split; [reflexivity|constructor; auto].
Qed.

Lemma alloc0_ok : forall n m A I J Q, alloc_inv n m A I J Q -> I (al_init A) [] -> forall ls, Forall (legal_asks n m) ls ->
  exists s' ms, alloc_rounds A n m ls (alloc0 A) = Some (s', ms) /\ Forall2 Q ls ms.
Proof.
  intros n m A I J Q H H0 ls F. apply (alloc_rounds_ok n m A I J Q H); auto.
  - intros a b c. split; [discriminate|intros []].
  - split; reflexivity.
Qed.

(** Keys in order. *)
Lemma in_outs : forall m r i o, In o (outs_of m r i) <-> o < m /\ r i o <> None.
Proof. intros. unfold outs_of. rewrite filter_In, in_seq, is_some_true. intuition lia. Qed.
Lemma in_ins : forall n r o i, In i (ins_of n r o) <-> i < n /\ r i o <> None.
Proof. intros. unfold ins_of. rewrite filter_In, in_seq, is_some_true. intuition lia. Qed.

Inductive incr : list nat -> Prop :=
| incr_nil : incr []
| incr_cons : forall x l, (forall y, In y l -> x < y) -> incr l -> incr (x :: l).

Lemma incr_filter_seq : forall f n a, incr (filter f (seq a n)).
Proof.
  intros f. induction n as [|n IH]; intros a; [constructor|]. cbn [seq filter]. destruct (f a); [|auto]. constructor; [|auto].
  intros y H. apply filter_In in H. destruct H as [H _]. apply in_seq in H. lia.
Qed.

Lemma in_take_below : forall k l x, incr l -> (In x (take_below k l) <-> In x l /\ x < k).
Proof.
  intros k l x H. induction H as [|y l Hy Hl IH]; cbn [take_below drop_below In]; [tauto|]. destruct (Nat.ltb_spec y k); cbn [In].
  - rewrite IH. split; [intros [->|[A B]]; auto|intros [[->|A] B]; auto].
  - split; [tauto|]. intros [[->|A] B]; [lia|]. apply Hy in A. lia.
Qed.
Lemma in_drop_below : forall k l x, incr l -> (In x (drop_below k l) <-> In x l /\ k <= x).
Proof.
  intros k l x H. induction H as [|y l Hy Hl IH]; cbn [take_below drop_below In]; [tauto|]. destruct (Nat.ltb_spec y k); cbn [In].
  - rewrite IH. split; [intros [A B]; auto|intros [[->|A] B]; [lia|auto]].
  - split; [intros [->|A]; auto|intros [[->|A] B]; auto]. split; auto. apply Hy in A. lia.
Qed.
Lemma in_visit : forall k l x, incr l -> (In x (visit k l) <-> In x l).
Proof.
  intros k l x H. unfold visit. rewrite in_app_iff, (in_drop_below _ _ _ H). destruct H as [|y l Hy Hl]; [cbn; tauto|].
  cbn [In]. rewrite (in_take_below _ _ _ Hl). split; [tauto|]. intros [->|A]; [auto|].
  destruct (le_lt_dec k x); auto.
Qed.

Lemma in_rotated : forall k n x, In x (rotated k n) <-> x < n.
Proof.
  intros k n x. unfold rotated. rewrite in_map_iff. split.
  - intros [i [<- H]]. apply in_seq in H. apply Nat.mod_upper_bound. lia.
  - intros H. exists ((x + (n - k mod n)) mod n). split.
    + rewrite Nat.add_mod_idemp_l by lia. pose proof (Nat.mod_upper_bound k n). pose proof (Nat.div_mod k n).
      replace (x + (n - k mod n) + k) with (x + (1 + k / n) * n) by nia. rewrite Nat.mod_add by lia. apply Nat.mod_small. auto.
    + apply in_seq. pose proof (Nat.mod_upper_bound (x + (n - k mod n)) n). lia.
Qed.

Lemma find_none_iff : forall A (f : A -> bool) l, find f l = None -> forall x, In x l -> f x = false.
Proof. intros A f l H x. apply find_none. auto. Qed.

(** Accepting grants. *)
Record accepted (n : nat) (gr : nat -> option nat) (P : nat -> nat -> Prop) (mt mt' : match_) : Prop := {
  ac_agree : forall i o, m_in mt' i = Some o <-> m_out mt' o = Some i;
  ac_from : forall i o, m_in mt' i = Some o -> m_in mt i = Some o \/ (gr o = Some i /\ i < n /\ P i o);
  ac_keep : forall i o, m_in mt i = Some o -> m_in mt' i = Some o;
  ac_done : forall i o, gr o = Some i -> i < n -> m_in mt' i <> None }.

Lemma pair_up_agree : forall i o m, m_in m i = None -> m_out m o = None -> (forall a b, m_in m a = Some b <-> m_out m b = Some a) ->
  forall a b, m_in (pair_up i o m) a = Some b <-> m_out (pair_up i o m) b = Some a.
Proof.
  intros i o m E1 E2 H a b. cbn [m_in m_out pair_up]. unfold fupd. destruct (Nat.eqb_spec a i) as [->|Na], (Nat.eqb_spec b o) as [->|Nb].
  - tauto.
  - split; [congruence|]. intros X. apply H in X. congruence.
  - split; [|congruence]. intros X. apply H in X. congruence.
  - apply H.
Qed.

Lemma accept_phase : forall S (pi : S -> match_) (f : S -> nat -> S) gr (P : nat -> nat -> Prop),
  (forall s i, (pi (f s i) = pi s /\ forall o, gr o <> Some i) \/ (exists o, gr o = Some i /\ P i o /\ pi (f s i) = pair_up i o (pi s))) ->
  forall n s0, (forall a b, m_in (pi s0) a = Some b <-> m_out (pi s0) b = Some a) ->
  (forall i o, gr o = Some i -> m_in (pi s0) i = None /\ m_out (pi s0) o = None) ->
  accepted n gr P (pi s0) (pi (fold_left f (seq 0 n) s0)).
Proof.
  intros S pi f gr P Hf n s0 HA HG. induction n as [|n IH].
  - cbn. constructor; auto. intros; lia.
  - rewrite seq_S, fold_left_app. cbn [fold_left plus]. set (s := fold_left f (seq 0 n) s0) in *. destruct IH as [A B C D].
    destruct (Hf s n) as [[E N]|[o [G [GP E]]]]; rewrite E.
    + constructor; auto.
      * intros i o X. destruct (B i o X) as [Y|[Y1 [Y2 Y3]]]; [auto|]. right. split; [auto|]. split; [lia|auto].
      * intros i o X Hi. destruct (Nat.eq_dec i n) as [->|Ne]; [exfalso; apply (N o X)|]. apply (D i o X). lia.
    + destruct (HG n o G) as [G1 G2].
      assert (M1 : m_in (pi s) n = None). { destruct (m_in (pi s) n) as [x|] eqn:X; auto. destruct (B _ _ X) as [Y|[_ [Y _]]]; [congruence|lia]. }
      assert (M2 : m_out (pi s) o = None).
      { destruct (m_out (pi s) o) as [x|] eqn:X; auto. apply A in X. destruct (B _ _ X) as [Y|[Y1 [Y2 _]]].
        - apply HA in Y. congruence. - rewrite G in Y1. injection Y1 as ->. lia. }
      constructor.
      * apply pair_up_agree; auto.
      * intros i x. cbn [m_in pair_up]. unfold fupd. destruct (Nat.eqb_spec i n) as [->|Ne].
        -- intros X. injection X as <-. right. split; [auto|]. split; [lia|auto].
        -- intros X. destruct (B _ _ X) as [Y|[Y1 [Y2 Y3]]]; [auto|]. right. split; [auto|]. split; [lia|auto].
      * intros i x X. cbn [m_in pair_up]. unfold fupd. destruct (Nat.eqb_spec i n) as [->|Ne]; [congruence|auto].
      * intros i x X Hi. cbn [m_in pair_up]. unfold fupd. destruct (Nat.eqb_spec i n) as [->|Ne]; [discriminate|]. apply (D i x X). lia.
Qed.

(** Iterations of grant and accept. *)
Lemma filter_le : forall A (f g : A -> bool) l, (forall x, f x = true -> g x = true) -> length (filter f l) <= length (filter g l).
Proof.
  intros A f g l H. induction l as [|x l IH]; cbn; [lia|]. destruct (f x) eqn:E; [rewrite (H x E); cbn; lia|]. destruct (g x); cbn; lia.
Qed.
Lemma filter_lt : forall A (f g : A -> bool) l x, (forall x, f x = true -> g x = true) -> In x l -> f x = false -> g x = true ->
  length (filter f l) < length (filter g l).
Proof.
  intros A f g l x H. induction l as [|y l IH]; intros Hi Hf Hg; [destruct Hi|]. cbn. destruct Hi as [->|Hi].
  - rewrite Hf, Hg. cbn. pose proof (filter_le A f g l H). lia.
  - specialize (IH Hi Hf Hg). destruct (f y) eqn:E; [rewrite (H y E); cbn; lia|]. destruct (g y); cbn; lia.
Qed.

(** A complete grant phase: only free requesters, and every output with a free requester grants. *)
Definition grants_ok (n : nat) (l : list ask) (mt : match_) (gr : nat -> option nat) : Prop :=
  (forall i o, gr o = Some i -> asked l i o /\ m_in mt i = None /\ m_out mt o = None) /\
  (forall i o, asked l i o -> m_in mt i = None -> m_out mt o = None -> gr o <> None).

Lemma accepted_iterated : forall n m l mt gr P mt' k, legal_asks n m l -> iterated n k l mt -> grants_ok n l mt gr -> accepted n gr P mt mt' -> iterated n (S k) l mt'.
Proof.
  intros n m l mt gr P mt' k HL [[HA HB] HK] [G1 G2] [A B C D].
  assert (M : matching l mt'). { split; auto. intros i o X. destruct (B i o X) as [Y|[Y _]]; auto. apply (G1 i o Y). }
  split; auto.
  destruct HK as [HM|HK].
  - left. intros i o X. destruct (HM i o X) as [Y|Y].
    + left. destruct (m_in mt i) as [x|] eqn:E; [|congruence]. rewrite (C _ _ E). discriminate.
    + right. destruct (m_out mt o) as [x|] eqn:E; [|congruence]. apply HA in E. apply C in E. apply A in E. rewrite E. discriminate.
  - assert (Dec : (exists i o, asked l i o /\ m_in mt i = None /\ m_out mt o = None) \/ maximal l mt).
    { unfold maximal, asked. clear -l. induction l as [|[[i o] q] l IH]; [right; intros i o [q []]|].
      destruct IH as [[a [b [[c X] [Y Z]]]]|IH].
      - left. exists a, b. split; [exists c; right; auto|auto].
      - destruct (m_in mt i) as [x|] eqn:E1; [|destruct (m_out mt o) as [x|] eqn:E2].
        + right. intros a b [c [X|X]]; [injection X as -> -> ->; left; congruence|apply IH; exists c; auto].
        + right. intros a b [c [X|X]]; [injection X as -> -> ->; right; congruence|apply IH; exists c; auto].
        + left. exists i, o. split; [exists q; left; auto|auto]. }
    destruct Dec as [[i [o [X [Y Z]]]]|HM].
    + right. pose proof (G2 i o X Y Z) as W. destruct (gr o) as [i'|] eqn:E; [|congruence].
      destruct (G1 _ _ E) as [[q R] [S T]]. destruct HL as [_ HL]. rewrite Forall_forall in HL. apply HL in R. cbn in R.
      assert (match_size n mt < match_size n mt'); [|lia]. unfold match_size. apply (filter_lt _ _ _ _ i').
      * intros x. destruct (m_in mt x) as [y|] eqn:Ex; [|discriminate]. rewrite (C _ _ Ex). auto.
      * apply in_seq. lia.
      * rewrite S. reflexivity.
      * destruct (m_in mt' i') eqn:Ei; auto. exfalso. apply (D i' o E); tauto.
    + left. intros a b H. destruct (HM a b H) as [Y|Y].
      * left. destruct (m_in mt a) as [x|] eqn:E; [|congruence]. rewrite (C _ _ E). discriminate.
      * right. destruct (m_out mt b) as [x|] eqn:E; [|congruence]. apply HA in E. apply C in E. apply A in E. rewrite E. discriminate.
Qed.

Lemma vacant_iterated : forall n l mt, vacant mt -> iterated n 0 l mt.
Proof. intros. split; [apply vacant_matching; auto|right; lia]. Qed.

Lemma find_visit_spec : forall f k l, incr l -> match find f (visit k l) with Some x => In x l /\ f x = true | None => forall x, In x l -> f x = false end.
Proof.
  intros f k l H. destruct (find f (visit k l)) as [x|] eqn:E.
  - apply find_some in E. destruct E as [E1 E2]. split; auto. apply in_visit in E1; auto.
  - intros x X. apply (find_none _ _ E). apply in_visit; auto.
Qed.
Lemma find_rotated_spec : forall f k n, match find f (rotated k n) with Some x => x < n /\ f x = true | None => forall x, x < n -> f x = false end.
Proof.
  intros f k n. destruct (find f (rotated k n)) as [x|] eqn:E.
  - apply find_some in E. destruct E as [E1 E2]. split; auto. apply in_rotated in E1; auto.
  - intros x X. apply (find_none _ _ E). apply in_rotated; auto.
Qed.

Lemma rq_asked : forall l r i o, rq_of l r -> (r i o <> None <-> asked l i o).
Proof.
  intros l r i o H. split.
  - intros X. destruct (r i o) as [q|] eqn:E; [|congruence]. exists q. apply H. auto.
  - intros [q X]. apply H in X. congruence.
Qed.
Lemma asked_range : forall n m l i o, legal_asks n m l -> asked l i o -> i < n /\ o < m.
Proof. intros n m l i o [_ H] [q X]. rewrite Forall_forall in H. apply H in X. cbn in X. tauto. Qed.

(** iSLIP. *)
Lemma islip_grants : forall n m l r mt p, legal_asks n m l -> rq_of l r ->
  grants_ok n l mt (fun o => if Nat.ltb o m then islip_grant n r mt p o else None).
Proof.
  intros n m l r mt p HL HR.
  assert (K : forall o, match (if Nat.ltb o m then islip_grant n r mt p o else None) with
    | Some i => asked l i o /\ m_in mt i = None /\ m_out mt o = None
    | None => forall i, asked l i o -> m_in mt i = None -> m_out mt o = None -> False end).
  { intros o. destruct (Nat.ltb_spec o m) as [Ho|Ho].
    - unfold islip_grant. destruct (m_out mt o) as [x|] eqn:E; cbn [is_some]; [intros; congruence|].
      pose proof (find_visit_spec (fun i => is_none (m_in mt i)) (p_g p o) (ins_of n r o) (incr_filter_seq _ _ _)) as F.
      destruct (find _ _) as [x|].
      + destruct F as [F1 F2]. apply in_ins in F1. destruct F1 as [F1 F3]. apply (rq_asked l r x o HR) in F3. apply is_none_true in F2. auto.
      + intros i X Y _. assert (Z : In i (ins_of n r o)). { apply in_ins. split; [apply (asked_range _ _ _ _ _ HL X)|apply (rq_asked l r i o HR); auto]. }
        apply F in Z. rewrite Y in Z. discriminate.
    - intros i X. apply (asked_range _ _ _ _ _ HL) in X. lia. }
  split.
  - intros i o X. specialize (K o). rewrite X in K. auto.
  - intros i o X Y Z W. specialize (K o). rewrite W in K. eauto.
Qed.

Lemma islip_iter_ok : forall n m l r first s k, legal_asks n m l -> rq_of l r -> iterated n k l (snd s) ->
  iterated n (S k) l (snd (islip_iter n m r first s)).
Proof.
  intros n m l r first s k HL HR HI.
  pose proof (islip_grants n m l r (snd s) (fst s) HL HR) as G. unfold islip_iter.
  set (gr := fun o => if Nat.ltb o m then islip_grant n r (snd s) (fst s) o else None) in *.
  apply (accepted_iterated n m l (snd s) gr (fun _ _ => True) _ k HL HI G).
  apply (accept_phase _ snd).
  - intros [p mt] i. unfold islip_accept.
    pose proof (find_visit_spec (fun o => is_at (gr o) i) (p_a p i) (outs_of m r i) (incr_filter_seq _ _ _)) as F.
    destruct (find _ _) as [o|].
    + right. exists o. destruct F as [_ F]. apply is_at_true in F. auto.
    + left. split; [reflexivity|]. intros o X. destruct G as [G _]. destruct (G _ _ X) as [Y _].
      assert (Z : In o (outs_of m r i)). { apply in_outs. split; [apply (asked_range _ _ _ _ _ HL Y)|apply (rq_asked l r i o HR); auto]. }
      apply F in Z. rewrite X in Z. cbn in Z. rewrite Nat.eqb_refl in Z. discriminate.
  - apply HI.
  - intros i o X. apply (proj1 G) in X. tauto.
Qed.

Lemma islip_iters_ok : forall n m l r k j s, legal_asks n m l -> rq_of l r -> iterated n j l (snd s) ->
  iterated n (j + k) l (snd (islip_iters n m r k s)).
Proof.
  intros n m l r. induction k as [|k IH]; intros j s HL HR HI; cbn [islip_iters]; [rewrite Nat.add_0_r; auto|].
  replace (j + S k) with (S j + k) by lia. apply IH; auto. apply islip_iter_ok; auto.
Qed.

Lemma islip_inv : forall n m k, alloc_inv n m (islip n m k) (fun _ _ => True) (fun _ _ => True) (iterated n k).
Proof.
  intros n m k. constructor; auto; [|intros l mt H; apply H].
  intros s l r mt _ HL HR HV. cbn. unfold islip_alloc. pose proof (vacant_iterated n l mt HV) as H0. destruct k as [|k].
  - exists s, mt. auto.
  - destruct (islip_iters n m r k (islip_iter n m r true (s, mt))) as [s' mt'] eqn:E. exists s', mt'. split; [exact (f_equal Some E)|]. split; [auto|].
    change mt' with (snd (s', mt')). rewrite <- E. apply (islip_iters_ok n m l r k 1); auto. apply islip_iter_ok; auto.
Qed.

(** PIM. *)
Lemma pim_iter_ok : forall n m l r rnd s k, legal_asks n m l -> rq_of l r -> iterated n k l (snd s) ->
  iterated n (S k) l (snd (pim_iter n m r rnd s)).
Proof.
  intros n m l r rnd [c mt] k HL HR HI. unfold pim_iter. cbn [snd] in *.
  set (gr := fun o => if Nat.ltb o m then pim_grant n r mt (rnd (c + o)) o else None).
  assert (K : forall o, match gr o with
    | Some i => asked l i o /\ m_in mt i = None /\ m_out mt o = None
    | None => forall i, asked l i o -> m_in mt i = None -> m_out mt o = None -> False end).
  { intros o. unfold gr. destruct (Nat.ltb_spec o m) as [Ho|Ho].
    - unfold pim_grant.
      pose proof (find_rotated_spec (fun i => is_some (r i o) && is_none (m_in mt i) && is_none (m_out mt o)) (rnd (c + o)) n) as F.
      destruct (find _ _) as [x|].
      + destruct F as [F1 F2]. rewrite !andb_true_iff, is_some_true, !is_none_true in F2. destruct F2 as [[F2 F3] F4]. apply (rq_asked l r x o HR) in F2. auto.
      + intros i X Y Z. specialize (F i (proj1 (asked_range _ _ _ _ _ HL X))). apply (rq_asked l r i o HR) in X.
        rewrite Y, Z in F. destruct (r i o); [discriminate|congruence].
    - intros i X. apply (asked_range _ _ _ _ _ HL) in X. lia. }
  assert (G : grants_ok n l mt gr).
  { split.
    - intros i o X. specialize (K o). rewrite X in K. auto.
    - intros i o X Y Z W. specialize (K o). rewrite W in K. eauto. }
  apply (accepted_iterated n m l mt gr (fun _ _ => True) _ k HL HI G).
  apply (accept_phase _ (fun x => x)).
  - intros mt1 i. unfold pim_accept.
    pose proof (find_rotated_spec (fun o => is_at (gr o) i) (rnd (c + m + i)) m) as F.
    destruct (find _ _) as [o|].
    + right. exists o. destruct F as [_ F]. apply is_at_true in F. auto.
    + left. split; [reflexivity|]. intros o X. destruct (proj1 G _ _ X) as [Y _].
      specialize (F o (proj2 (asked_range _ _ _ _ _ HL Y))). rewrite X in F. cbn in F. rewrite Nat.eqb_refl in F. discriminate.
  - apply HI.
  - intros i o X. apply (proj1 G) in X. tauto.
Qed.

Lemma pim_iters_ok : forall n m l r rnd k j s, legal_asks n m l -> rq_of l r -> iterated n j l (snd s) ->
  iterated n (j + k) l (snd (pim_iters n m r rnd k s)).
Proof.
  intros n m l r rnd. induction k as [|k IH]; intros j s HL HR HI; cbn [pim_iters]; [rewrite Nat.add_0_r; auto|].
  replace (j + S k) with (S j + k) by lia. apply IH; auto. apply pim_iter_ok; auto.
Qed.

Lemma pim_inv : forall n m k rnd, alloc_inv n m (pim n m k rnd) (fun _ _ => True) (fun _ _ => True) (iterated n k).
Proof.
  intros n m k rnd. constructor; auto; [|intros l mt H; apply H].
  intros s l r mt _ HL HR HV. cbn. pose proof (vacant_iterated n l mt HV) as H0.
  destruct (pim_iters n m r rnd k (s, mt)) as [s' mt'] eqn:E. exists s', mt'. split; [exact (f_equal Some E)|]. split; [auto|].
  change mt' with (snd (s', mt')). rewrite <- E. apply (pim_iters_ok n m l r rnd k 0); auto.
Qed.

(** Bounded number of pairs: enough iterations give a maximal matching. *)
Lemma matching_size_out : forall n m l mt, legal_asks n m l -> matching l mt ->
  match_size n mt = length (filter (fun o => match m_out mt o with Some _ => true | None => false end) (seq 0 m)).
Proof.
  intros n m l mt HL [HA HB]. unfold match_size.
  set (fi := fun i => match m_in mt i with Some _ => true | None => false end).
  set (fo := fun o => match m_out mt o with Some _ => true | None => false end).
  set (gi := fun i => match m_in mt i with Some o => o | None => 0 end).
  set (go := fun o => match m_out mt o with Some i => i | None => 0 end).
  assert (L1 : length (filter fi (seq 0 n)) <= length (filter fo (seq 0 m))).
  { rewrite <- (map_length gi). apply NoDup_incl_length.
    - assert (N : NoDup (filter fi (seq 0 n))) by (apply NoDup_filter; apply seq_NoDup).
      assert (F : forall x, In x (filter fi (seq 0 n)) -> fi x = true) by (intros x X; apply filter_In in X; tauto).
      clear -HA N F. induction N as [|x xs Nx Nxs IH]; cbn; [constructor|]. constructor.
      + intros C. apply in_map_iff in C. destruct C as [y [E Y]]. unfold gi in E.
        pose proof (F x (or_introl eq_refl)) as F1. pose proof (F y (or_intror Y)) as F2. unfold fi in F1, F2.
        destruct (m_in mt x) as [a|] eqn:Ex; [|discriminate]. destruct (m_in mt y) as [b|] eqn:Ey; [|discriminate]. subst.
        apply HA in Ex. apply HA in Ey. rewrite Ex in Ey. injection Ey as ->. contradiction.
      + apply IH. intros; apply F; right; auto.
    - intros o X. apply in_map_iff in X. destruct X as [i [<- X]]. apply filter_In in X. destruct X as [X1 X2]. unfold fi, gi in *.
      destruct (m_in mt i) as [o|] eqn:E; [|discriminate]. apply filter_In. split.
      + apply in_seq. pose proof (asked_range _ _ _ _ _ HL (HB _ _ E)). lia.
      + unfold fo. apply HA in E. rewrite E. auto. }
  assert (L2 : length (filter fo (seq 0 m)) <= length (filter fi (seq 0 n))).
  { rewrite <- (map_length go). apply NoDup_incl_length.
    - assert (N : NoDup (filter fo (seq 0 m))) by (apply NoDup_filter; apply seq_NoDup).
      assert (F : forall x, In x (filter fo (seq 0 m)) -> fo x = true) by (intros x X; apply filter_In in X; tauto).
      clear -HA N F. induction N as [|x xs Nx Nxs IH]; cbn; [constructor|]. constructor.
      + intros C. apply in_map_iff in C. destruct C as [y [E Y]]. unfold go in E.
        pose proof (F x (or_introl eq_refl)) as F1. pose proof (F y (or_intror Y)) as F2. unfold fo in F1, F2.
        destruct (m_out mt x) as [a|] eqn:Ex; [|discriminate]. destruct (m_out mt y) as [b|] eqn:Ey; [|discriminate]. subst.
        apply HA in Ex. apply HA in Ey. rewrite Ex in Ey. injection Ey as ->. contradiction.
      + apply IH. intros; apply F; right; auto.
    - intros o X. apply in_map_iff in X. destruct X as [i [<- X]]. apply filter_In in X. destruct X as [X1 X2]. unfold fo, go in *.
      destruct (m_out mt i) as [o|] eqn:E; [|discriminate]. apply HA in E. apply filter_In. split.
      + apply in_seq. pose proof (asked_range _ _ _ _ _ HL (HB _ _ E)). lia.
      + unfold fi. rewrite E. auto. }
  lia.
Qed.

Lemma iterated_maximal : forall n m k l mt, legal_asks n m l -> iterated n k l mt -> n <= k \/ m <= k -> maximal l mt.
Proof.
  intros n m k l mt HL [HM [H|H]] HK; auto. intros i o X. destruct (asked_range _ _ _ _ _ HL X) as [Hi Ho]. destruct HK as [HK|HK].
  - left. intros E. assert (match_size n mt < length (filter (fun _ => true) (seq 0 n))).
    { apply (filter_lt _ _ _ _ i); auto; [apply in_seq; lia|rewrite E; auto]. }
    assert (forall A (x : list A), length (filter (fun _ => true) x) <= length x) as Q by (intros A x; induction x; cbn; lia).
    pose proof (Q nat (seq 0 n)). rewrite seq_length in *. lia.
  - right. intros E. rewrite (matching_size_out _ _ _ _ HL HM) in H. 
    assert (length (filter (fun o => match m_out mt o with Some _ => true | None => false end) (seq 0 m)) < length (filter (fun _ => true) (seq 0 m))).
    { apply (filter_lt _ _ _ _ o); auto; [apply in_seq; lia|rewrite E; auto]. }
    assert (forall A (x : list A), length (filter (fun _ => true) x) <= length x) as Q by (intros A x; induction x; cbn; lia).
    pose proof (Q nat (seq 0 m)). rewrite seq_length in *. lia.
Qed.
