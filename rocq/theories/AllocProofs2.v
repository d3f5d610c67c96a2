From Coq Require Import ZArith Arith Bool List Lia Permutation.
From Verif Require Import Fupd ArbiterModel AllocModel AllocSpec AllocProofs.
Import ListNotations.

Definition flip (m : match_) : match_ := {| m_in := m_out m; m_out := m_in m |}.

(** LOA. *)
Lemma demand_count : forall n m l r o, legal_asks n m l -> rq_of l r -> demand l o = loa_count n r o.
Proof.
  intros n m l r o HL HR. unfold demand, loa_count. rewrite <- (map_length (fun a => fst (fst a))).
  apply Permutation_length. apply NoDup_Permutation.
  - destruct HL as [N _]. clear HR. induction l as [|[[i o'] q] l IH]; cbn [filter map]; [constructor|].
    cbn [map fst snd] in *. apply NoDup_cons_iff in N. destruct N as [N1 N2]. destruct (Nat.eqb_spec o' o) as [->|Ne]; [|auto].
    cbn [map fst]. constructor; [|auto]. intros C. apply in_map_iff in C. destruct C as [[[a b] c] [E C]]. cbn in E. subst a.
    apply filter_In in C. destruct C as [C D]. cbn in D. apply Nat.eqb_eq in D. subst b. apply N1. apply (in_map fst) in C. exact C.
  - apply NoDup_filter. apply seq_NoDup.
  - intros i. rewrite in_ins, in_map_iff. split.
    + intros [[[a b] c] [E X]]. cbn in E. subst a. apply filter_In in X. destruct X as [X Y]. cbn in Y. apply Nat.eqb_eq in Y. subst b.
      split; [apply (asked_range _ _ _ _ _ HL (ex_intro _ c X))|]. apply HR in X. congruence.
    + intros [_ X]. destruct (r i o) as [q|] eqn:E; [|congruence]. apply HR in E. exists (i, o, q). split; [auto|]. apply filter_In. cbn.
      rewrite Nat.eqb_refl. auto.
Qed.

Lemma loa_count_le : forall n r o, loa_count n r o <= n.
Proof.
  intros. unfold loa_count, ins_of. rewrite <- (seq_length n 0) at 2. generalize (seq 0 n). intros l. induction l as [|x l IH]; cbn; [lia|].
  destruct (is_some (r x o)); cbn; lia.
Qed.

Lemma loa_pick_spec : forall n r i l,
  match loa_pick n r i l with
  | Some o => In o l /\ r i o <> None /\ (forall x, In x l -> r i x <> None -> loa_count n r o <= loa_count n r x)
  | None => forall x, In x l -> r i x = None
  end.
Proof.
  intros n r i l. unfold loa_pick.
  set (f := fun (acc : option nat * nat) o => if is_some (r i o) && Nat.ltb (loa_count n r o) (snd acc) then (Some o, loa_count n r o) else acc).
  assert (K : forall l2 l1 acc,
    match fst acc with
    | Some o => In o l1 /\ r i o <> None /\ snd acc = loa_count n r o /\ (forall x, In x l1 -> r i x <> None -> loa_count n r o <= loa_count n r x)
    | None => snd acc = n + 1 /\ forall x, In x l1 -> r i x = None end ->
    match fst (fold_left f l2 acc) with
    | Some o => In o (l1 ++ l2) /\ r i o <> None /\ (forall x, In x (l1 ++ l2) -> r i x <> None -> loa_count n r o <= loa_count n r x)
    | None => forall x, In x (l1 ++ l2) -> r i x = None end).
  { induction l2 as [|y l2 IH]; intros l1 acc H.
    - rewrite app_nil_r. cbn. destruct (fst acc); tauto.
    - cbn [fold_left]. change (y :: l2) with ([y] ++ l2). rewrite app_assoc. apply IH. unfold f.
      destruct (r i y) as [q|] eqn:E; cbn [is_some andb].
      + destruct (Nat.ltb_spec (loa_count n r y) (snd acc)) as [Hlt|Hge]; cbn [fst snd].
        * split; [apply in_or_app; right; left; auto|]. split; [congruence|]. split; [auto|]. intros x X Y. apply in_app_iff in X. destruct X as [X|[<-|[]]]; [|lia].
          destruct (fst acc) as [o|]; [destruct H as [H1 [H2 [H3 H4]]]; specialize (H4 x X Y); lia|]. destruct H as [_ H]. rewrite (H x X) in Y. congruence.
        * destruct (fst acc) as [o|].
          -- destruct H as [H1 [H2 [H3 H4]]]. split; [apply in_or_app; auto|]. split; [auto|]. split; [auto|]. intros x X Y. apply in_app_iff in X.
             destruct X as [X|[<-|[]]]; [auto|lia].
          -- destruct H as [H _]. pose proof (loa_count_le n r y). lia.
      + destruct (fst acc) as [o|].
        * destruct H as [H1 [H2 [H3 H4]]]. split; [apply in_or_app; auto|]. split; [auto|]. split; [auto|]. intros x X Y. apply in_app_iff in X.
          destruct X as [X|[<-|[]]]; [auto|congruence].
        * destruct H as [H1 H2]. split; [auto|]. intros x X. apply in_app_iff in X. destruct X as [X|[<-|[]]]; auto. }
  apply (K l [] (None, n + 1)). cbn. split; [auto|intros x []].
Qed.

Lemma loa_inv : forall n m, alloc_inv n m (loa n m) (fun _ _ => True) (fun _ _ => True) lonely.
Proof.
  intros n m. constructor; auto; [|intros l mt H; apply H].
  intros p l r mt _ HL HR HV. cbn. unfold loa_alloc.
  set (req := fun i => if Nat.ltb i n then loa_pick n r i (rotated (p_a p i) m) else None).
  assert (K : forall i, match req i with
    | Some o => asked l i o /\ (forall x, asked l i x -> demand l o <= demand l x)
    | None => forall x, ~ asked l i x end).
  { intros i. unfold req. destruct (Nat.ltb_spec i n) as [Hi|Hi].
    - pose proof (loa_pick_spec n r i (rotated (p_a p i) m)) as F. destruct (loa_pick _ _ _ _) as [o|].
      + destruct F as [F1 [F2 F3]]. split; [apply (rq_asked l r i o HR); auto|]. intros x X.
        rewrite !(demand_count n m l r _ HL HR). apply F3; [apply in_rotated; apply (asked_range _ _ _ _ _ HL X)|apply (rq_asked l r i x HR); auto].
      + intros x X. pose proof (asked_range _ _ _ _ _ HL X) as [_ Y]. apply (rq_asked l r i x HR) in X. apply X. apply F. apply in_rotated. auto.
    - intros x X. apply (asked_range _ _ _ _ _ HL) in X. lia. }
  destruct (fold_left (loa_grant n m req) (seq 0 m) (p, mt)) as [p' mt'] eqn:E. exists p', mt'.
  split; [exact (f_equal Some E)|]. split; [auto|].
  assert (A : accepted m req (fun _ _ => True) (flip mt) (flip mt')).
  { change mt' with (snd (p', mt')). rewrite <- E. apply (accept_phase _ (fun s : ptrs * match_ => flip (snd s)) (loa_grant n m req) req (fun _ _ => True)) with (s0 := (p, mt)).
    - intros [p1 m1] o. unfold loa_grant. pose proof (find_rotated_spec (fun i => is_at (req i) o) (p_g p1 o) n) as F.
      destruct (find _ _) as [i|].
      + right. exists i. destruct F as [_ F]. apply is_at_true in F. auto.
      + left. split; [reflexivity|]. intros i X. specialize (K i). rewrite X in K. destruct K as [K _].
        specialize (F i (proj1 (asked_range _ _ _ _ _ HL K))). rewrite X in F. cbn in F. rewrite Nat.eqb_refl in F. discriminate.
    - cbn. intros a b. destruct HV as [V1 V2]. rewrite V1, V2. split; discriminate.
    - intros o i X. cbn. destruct HV as [V1 V2]. auto. }
  destruct A as [A B C D]. cbn in A, B, C, D. split.
  - split.
    + intros i o. rewrite A. tauto.
    + intros i o X. apply A in X. destruct (B _ _ X) as [Y|[Y _]]; [destruct HV as [_ V]; rewrite V in Y; discriminate|].
      specialize (K i). rewrite Y in K. tauto.
  - intros i o X. specialize (K i). destruct (req i) as [o'|] eqn:Er; [|exfalso; apply (K o X)]. exists o'.
    destruct K as [K1 K2]. split; [auto|]. split; [auto|]. apply (D o' i Er). apply (asked_range _ _ _ _ _ HL K1).
Qed.

(** SelAlloc. *)
Lemma best_of_spec : forall ok pri l,
  match best_of ok pri l with
  | Some x => In x l /\ ok x = true /\ (forall y, In y l -> ok y = true -> (pri y <= pri x)%Z)
  | None => forall x, In x l -> ok x = false
  end.
Proof.
  intros ok pri l. unfold best_of.
  set (f := fun (acc : option nat * Z) x => if ok x && ((snd acc <? pri x)%Z || is_none (fst acc)) then (Some x, pri x) else acc).
  assert (K : forall l2 l1 acc,
    match fst acc with
    | Some x => In x l1 /\ ok x = true /\ snd acc = pri x /\ (forall y, In y l1 -> ok y = true -> (pri y <= pri x)%Z)
    | None => forall x, In x l1 -> ok x = false end ->
    match fst (fold_left f l2 acc) with
    | Some x => In x (l1 ++ l2) /\ ok x = true /\ (forall y, In y (l1 ++ l2) -> ok y = true -> (pri y <= pri x)%Z)
    | None => forall x, In x (l1 ++ l2) -> ok x = false end).
  { induction l2 as [|y l2 IH]; intros l1 acc H.
    - rewrite app_nil_r. cbn. destruct (fst acc); tauto.
    - cbn [fold_left]. change (y :: l2) with ([y] ++ l2). rewrite app_assoc. apply IH. unfold f. destruct (ok y) eqn:E; cbn [andb].
      + destruct (fst acc) as [x|] eqn:F; cbn [is_none is_some negb].
        * rewrite orb_false_r. destruct H as [H1 [H2 [H3 H4]]]. destruct (Z.ltb_spec (snd acc) (pri y)) as [Hlt|Hge]; [cbn [fst snd]|rewrite F].
          -- split; [apply in_or_app; right; left; auto|]. split; [auto|]. split; [auto|]. intros z X Y. apply in_app_iff in X. destruct X as [X|[<-|[]]]; [|lia].
             specialize (H4 z X Y). lia.
          -- split; [apply in_or_app; auto|]. split; [auto|]. split; [auto|]. intros z X Y. apply in_app_iff in X.
             destruct X as [X|[<-|[]]]; [auto|lia].
        * rewrite orb_true_r. cbn [fst snd]. split; [apply in_or_app; right; left; auto|]. split; [auto|]. split; [auto|]. intros z X Y.
          apply in_app_iff in X. destruct X as [X|[<-|[]]]; [|lia]. rewrite (H z X) in Y. discriminate.
      + destruct (fst acc) as [x|].
        * destruct H as [H1 [H2 [H3 H4]]]. split; [apply in_or_app; auto|]. split; [auto|]. split; [auto|]. intros z X Y. apply in_app_iff in X.
          destruct X as [X|[<-|[]]]; [auto|congruence].
        * intros x X. apply in_app_iff in X. destruct X as [X|[<-|[]]]; auto. }
  apply (K l [] (None, 0%Z)). cbn. intros x [].
Qed.

Lemma rq_fun : forall n m l i o q1 q2, legal_asks n m l -> In (i, o, q1) l -> In (i, o, q2) l -> q1 = q2.
Proof.
  intros n m l i o q1 q2 [N _] A B. induction l as [|x l IH]; [destruct A|]. cbn in N. apply NoDup_cons_iff in N. destruct N as [N1 N2].
  destruct A as [->|A], B as [B|B].
  - congruence.
  - exfalso. apply N1. apply (in_map fst) in B. exact B.
  - exfalso. subst. apply N1. apply (in_map fst) in A. exact A.
  - auto.
Qed.

Lemma selalloc_inv : forall n m mask, alloc_inv n m (selalloc n m 1 mask) (fun _ _ => True) (fun _ _ => True) (selected mask).
Proof.
  intros n m mask. constructor; auto; [|intros l mt H; apply H].
  intros p l r mt _ HL HR HV. cbn. set (gr := sel_grant n m r mask mt p (fun _ => None)).
  destruct HV as [V1 V2].
  assert (K : forall o, match gr o with
    | Some i => exists q, In (i, o, q) l /\ mask o = false /\ (forall i3 q3, In (i3, o, q3) l -> (q_opri q3 <= q_opri q)%Z)
    | None => mask o = true \/ forall i, ~ asked l i o end).
  { intros o. unfold gr, sel_grant. destruct (Nat.ltb_spec o m) as [Ho|Ho]; cbn [negb orb].
    2:{ right. intros i X. apply (asked_range _ _ _ _ _ HL) in X. lia. }
    destruct (Nat.eqb_spec (length (ins_of n r o)) 0) as [Z|Z]; cbn [orb].
    { right. intros i X. assert (Y : In i (ins_of n r o)). { apply in_ins. split; [apply (asked_range _ _ _ _ _ HL X)|apply (proj2 (rq_asked l r i o HR) X)]. }
      destruct (ins_of n r o); [destruct Y|discriminate]. }
    rewrite V2. cbn [is_some orb]. destruct (mask o) eqn:Hm; [auto|].
    pose proof (best_of_spec (fun i => is_none (m_in mt i)) (fun i => opri r i o) (visit (p_g p o) (ins_of n r o))) as F.
    destruct (best_of _ _ _) as [i|].
    - destruct F as [F1 [_ F3]]. apply in_visit in F1; [|apply incr_filter_seq]. apply in_ins in F1. destruct F1 as [F1 F2].
      destruct (r i o) as [q|] eqn:E; [|congruence]. exists q. split; [apply HR; auto|]. split; [auto|]. intros i3 q3 X.
      assert (Y : In i3 (visit (p_g p o) (ins_of n r o))).
      { apply in_visit; [apply incr_filter_seq|]. apply in_ins. pose proof (asked_range _ _ _ _ _ HL (ex_intro _ q3 X)). apply HR in X. split; [tauto|congruence]. }
      specialize (F3 i3 Y). rewrite V1 in F3. specialize (F3 eq_refl). unfold opri in F3. rewrite E in F3. apply HR in X. rewrite X in F3. exact F3.
    - right. intros i X. assert (Y : In i (visit (p_g p o) (ins_of n r o))).
      { apply in_visit; [apply incr_filter_seq|]. apply in_ins. pose proof (asked_range _ _ _ _ _ HL X). split; [tauto|apply (proj2 (rq_asked l r i o HR) X)]. }
      specialize (F i Y). rewrite V1 in F. discriminate. }
  destruct (fold_left (sel_accept n m r gr true) (seq 0 n) (p, mt)) as [p' mt'] eqn:E. exists p', mt'.
  split; [exact (f_equal Some E)|]. split; [auto|].
  set (P := fun i o => forall o2 q q2, gr o2 = Some i -> In (i, o, q) l -> In (i, o2, q2) l -> (q_ipri q2 <= q_ipri q)%Z).
  assert (A : accepted n gr P mt mt').
  { change mt' with (snd (p', mt')). rewrite <- E. apply (accept_phase _ snd (sel_accept n m r gr true) gr P) with (s0 := (p, mt)).
    - intros [p1 m1] i. unfold sel_accept.
      pose proof (best_of_spec (fun o => is_at (gr o) i) (fun o => ipri r i o) (visit (p_a p1 i) (outs_of m r i))) as F.
      assert (V : forall o q, In (i, o, q) l -> In o (visit (p_a p1 i) (outs_of m r i))).
      { intros o q X. apply in_visit; [apply incr_filter_seq|]. apply in_outs. pose proof (asked_range _ _ _ _ _ HL (ex_intro _ q X)).
        apply HR in X. split; [tauto|congruence]. }
      destruct (best_of _ _ _) as [o|].
      + right. exists o. destruct F as [_ [F2 F3]]. apply is_at_true in F2. split; [auto|]. split; [|reflexivity].
        intros o2 q q2 G2 X X2. specialize (F3 o2 (V _ _ X2)). rewrite (proj2 (is_at_true _ _) G2) in F3. specialize (F3 eq_refl).
        unfold ipri in F3. apply HR in X. apply HR in X2. rewrite X, X2 in F3. exact F3.
      + left. split; [reflexivity|]. intros o X. specialize (K o). rewrite X in K. destruct K as [q [K _]].
        specialize (F o (V _ _ K)). rewrite X in F. cbn in F. rewrite Nat.eqb_refl in F. discriminate.
    - cbn. intros a b. rewrite V1, V2. split; discriminate.
    - intros i o X. cbn. auto. }
  destruct A as [A B C D].
  assert (B' : forall i o, m_in mt' i = Some o -> gr o = Some i /\ P i o).
  { intros i o X. destruct (B _ _ X) as [Y|[Y [_ Z]]]; [rewrite V1 in Y; discriminate|auto]. }
  assert (M : matching l mt').
  { split; [auto|]. intros i o X. apply B' in X. destruct X as [X _]. specialize (K o). rewrite X in K. destruct K as [q [K _]]. exists q. auto. }
  split; [exact M|]. split.
  - intros o X. destruct (m_out mt' o) as [i|] eqn:Y; auto. apply A in Y. apply B' in Y. destruct Y as [Y _]. specialize (K o). rewrite Y in K.
    destruct K as [q [_ [K _]]]. congruence.
  - intros i o q X Hm. pose proof (K o) as Ko. destruct (gr o) as [i1|] eqn:G.
    + destruct Ko as [q1 [K1 [_ K3]]]. pose proof (asked_range _ _ _ _ _ HL (ex_intro _ q1 K1)) as [R1 _].
      pose proof (D i1 o G R1) as Z. destruct (m_in mt' i1) as [o2|] eqn:Mi; [|congruence].
      destruct (proj2 M _ _ Mi) as [q2 X2]. exists i1, q1, o2, q2. split; [auto|]. split; [auto|]. split; [auto|]. split; [auto|].
      destruct (B' _ _ Mi) as [_ Pm]. apply (Pm o q2 q1 G X2 K1).
    + destruct Ko as [Ko|Ko]; [congruence|]. exfalso. apply (Ko i). exists q. auto.
Qed.
