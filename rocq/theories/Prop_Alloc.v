(** C27, C28, C29, C30, C31, C32 : the allocators. *)
From Coq Require Import ZArith Arith Bool List Lia.
From Verif Require Import Fupd ArbiterModel AllocModel AllocSpec AllocProofs AllocProofs2 AllocWave AllocSep AllocMax.
Import ListNotations.

Lemma from_ok : forall n m A I J Q, alloc_inv n m A I J Q -> forall x, I x [] -> forall ls, Forall (legal_asks n m) ls ->
  exists s' ms, alloc_rounds A n m ls (alloc_from A x) = Some (s', ms) /\ Forall2 Q ls ms.
Proof.
  intros n m A I J Q H x H0 ls F. apply (alloc_rounds_ok n m A I J Q H); auto.
  - intros a b c. split; [discriminate|intros []].
  - split; reflexivity.
Qed.
Lemma Forall2_imp : forall (P Q : list ask -> match_ -> Prop) n m ls ms, Forall (legal_asks n m) ls ->
  (forall l mt, legal_asks n m l -> P l mt -> Q l mt) -> Forall2 P ls ms -> Forall2 Q ls ms.
Proof. intros P Q n m ls ms F H G. induction G; constructor; inversion F; subst; auto. Qed.
Lemma iterated_progress : forall n k l mt, 0 < k -> iterated n k l mt -> l <> [] -> exists i o, m_in mt i = Some o.
Proof.
  intros n k l mt Hk [M [H|H]] Hl.
  - destruct l as [|[[i o] q] l]; [congruence|]. destruct (H i o (ex_intro _ q (or_introl eq_refl))) as [X|X].
    + destruct (m_in mt i) as [x|] eqn:E; [eauto|congruence].
    + destruct (m_out mt o) as [x|] eqn:E; [|congruence]. apply (proj1 M) in E. eauto.
  - unfold match_size in H. destruct (filter _ (seq 0 n)) as [|i xs] eqn:E; [cbn in H; lia|].
    assert (X : In i (filter (fun i => match m_in mt i with Some _ => true | None => false end) (seq 0 n))) by (rewrite E; left; auto).
    apply filter_In in X. destruct X as [_ X]. destruct (m_in mt i) as [o|] eqn:Y; [eauto|discriminate].
Qed.

(** C27. iSLIP, from any pointers: in every round the result is a matching in the requests, and it
    has at least one pair per iteration unless no request can be added. *)
Theorem C27_matching : forall n m k p ls, Forall (legal_asks n m) ls ->
  exists s ms, alloc_rounds (islip n m k) n m ls (alloc_from (islip n m k) p) = Some (s, ms) /\ Forall2 (iterated n k) ls ms.
Proof. intros n m k p. exact (from_ok n m _ _ _ _ (islip_inv n m k) p Logic.I). Qed.
Print Assumptions C27_matching.

(** C27. With at least one iteration a round with requests has a pair; with as many iterations as
    inputs or outputs no request can be added. *)
Theorem C27_progress : forall n m k p ls, Forall (legal_asks n m) ls -> 0 < k ->
  exists s ms, alloc_rounds (islip n m k) n m ls (alloc_from (islip n m k) p) = Some (s, ms) /\
    Forall2 (fun l mt => l <> [] -> exists i o, m_in mt i = Some o) ls ms /\ (n <= k \/ m <= k -> Forall2 maximal ls ms).
Proof.
  intros n m k p ls H Hk. destruct (C27_matching n m k p ls H) as [s [ms [E F]]]. exists s, ms. split; [exact E|]. split.
  - apply (Forall2_imp _ _ n m ls ms H) with (2 := F). intros l mt _ I. exact (iterated_progress n k l mt Hk I).
  - intros B. apply (Forall2_imp _ _ n m ls ms H) with (2 := F). intros l mt L I. exact (iterated_maximal n m k l mt L I B).
Qed.
Print Assumptions C27_progress.

Definition rqst (p : Z) : areq := {| q_label := 0; q_ipri := p; q_opri := p |}.
Definition dense2 : list ask := [(0, 0, rqst 0); (0, 1, rqst 0); (1, 0, rqst 0); (1, 1, rqst 0)].
Definition asks3 : list ask := [(0, 1, rqst 2); (1, 1, rqst 5); (1, 0, rqst 1); (2, 0, rqst 7); (2, 1, rqst 5)].
Ltac legal_tac := split; [cbn; repeat (apply NoDup_cons; [cbn; intuition congruence|]); apply NoDup_nil|
  repeat (apply Forall_cons; [cbn; lia|]); apply Forall_nil].
Definition pairs (n : nat) (ms : list match_) : list (list (option nat)) := map (fun mt => map (m_in mt) (seq 0 n)) ms.

(** Four equal rounds: the first iteration alone finds one pair in the first round and, once the
    pointers have separated, two in the following ones. *)
Example C27_matching_ex : Forall (legal_asks 2 2) [dense2; []; dense2; dense2] /\
  match alloc_rounds (islip 2 2 1) 2 2 [dense2; []; dense2; dense2] (alloc_from (islip 2 2 1) ptrs0) with
  | Some (_, ms) => pairs 2 ms = [[Some 0; None]; [None; None]; [Some 1; Some 0]; [Some 0; Some 1]] | None => False end.
Proof. split; [repeat (apply Forall_cons; [legal_tac|]); apply Forall_nil|vm_compute; reflexivity]. Qed.
Example C27_progress_ex : Forall (legal_asks 3 2) [asks3; dense2] /\
  match alloc_rounds (islip 3 2 2) 3 2 [asks3; dense2] (alloc_from (islip 3 2 2) ptrs0) with
  | Some (_, ms) => pairs 3 ms = [[Some 1; Some 0; None]; [Some 0; Some 1; None]] | None => False end.
Proof. split; [repeat (apply Forall_cons; [legal_tac|]); apply Forall_nil|vm_compute; reflexivity]. Qed.

(** C28. PIM, for every stream of random numbers. *)
Theorem C28_matching : forall n m k rnd c ls, Forall (legal_asks n m) ls ->
  exists s ms, alloc_rounds (pim n m k rnd) n m ls (alloc_from (pim n m k rnd) c) = Some (s, ms) /\ Forall2 (iterated n k) ls ms.
Proof. intros n m k rnd c. exact (from_ok n m _ _ _ _ (pim_inv n m k rnd) c Logic.I). Qed.
Print Assumptions C28_matching.

Theorem C28_progress : forall n m k rnd c ls, Forall (legal_asks n m) ls -> 0 < k ->
  exists s ms, alloc_rounds (pim n m k rnd) n m ls (alloc_from (pim n m k rnd) c) = Some (s, ms) /\
    Forall2 (fun l mt => l <> [] -> exists i o, m_in mt i = Some o) ls ms /\ (n <= k \/ m <= k -> Forall2 maximal ls ms).
Proof.
  intros n m k rnd c ls H Hk. destruct (C28_matching n m k rnd c ls H) as [s [ms [E F]]]. exists s, ms. split; [exact E|]. split.
  - apply (Forall2_imp _ _ n m ls ms H) with (2 := F). intros l mt _ I. exact (iterated_progress n k l mt Hk I).
  - intros B. apply (Forall2_imp _ _ n m ls ms H) with (2 := F). intros l mt L I. exact (iterated_maximal n m k l mt L I B).
Qed.
Print Assumptions C28_progress.

Example C28_matching_ex : Forall (legal_asks 3 2) [asks3; dense2] /\
  match alloc_rounds (pim 3 2 1 (fun k => k * k)) 3 2 [asks3; dense2] (alloc_from (pim 3 2 1 (fun k => k * k)) 0) with
  | Some (_, ms) => pairs 3 ms = [[None; Some 1; None]; [Some 1; Some 0; None]] | None => False end.
Proof. split; [repeat (apply Forall_cons; [legal_tac|]); apply Forall_nil|vm_compute; reflexivity]. Qed.
Example C28_progress_ex : Forall (legal_asks 3 2) [asks3; dense2] /\
  match alloc_rounds (pim 3 2 2 (fun k => k * k)) 3 2 [asks3; dense2] (alloc_from (pim 3 2 2 (fun k => k * k)) 0) with
  | Some (_, ms) => pairs 3 ms = [[None; Some 1; Some 0]; [Some 0; Some 1; None]] | None => False end.
Proof. split; [repeat (apply Forall_cons; [legal_tac|]); apply Forall_nil|vm_compute; reflexivity]. Qed.

(** C29. Wavefront, both kinds: no assert fails, the result is a matching in the requests, and every
    request shares a port with a granted one of at least its priority. *)
Theorem C29_stable : forall n m skip ls, Forall (legal_asks n m) ls ->
  exists s ms, alloc_rounds (wavefront n m skip) n m ls (alloc0 (wavefront n m skip)) = Some (s, ms) /\ Forall2 stable ls ms.
Proof.
  intros n m skip. apply (alloc0_ok n m _ _ _ _ (wave_inv n m skip)).
  split; [reflexivity|]. split; [discriminate|]. split; [constructor|]. cbn. intros p. split; [intros []|intros [i [o [q [[] _]]]]].
Qed.
Print Assumptions C29_stable.

Theorem C29_maximal : forall n m skip ls, Forall (legal_asks n m) ls ->
  exists s ms, alloc_rounds (wavefront n m skip) n m ls (alloc0 (wavefront n m skip)) = Some (s, ms) /\
    Forall2 (fun l mt => matching l mt /\ maximal l mt) ls ms.
Proof.
  intros n m skip ls H. destruct (C29_stable n m skip ls H) as [s [ms [E F]]]. exists s, ms. split; [exact E|].
  apply (Forall2_imp _ _ n m ls ms H) with (2 := F). intros l mt _ S. split; [apply S|exact (stable_maximal l mt S)].
Qed.
Print Assumptions C29_maximal.

Example C29_stable_ex : Forall (legal_asks 3 2) [asks3; [(2, 1, rqst 0)]; dense2; []] /\
  match alloc_rounds (wavefront 3 2 false) 3 2 [asks3; [(2, 1, rqst 0)]; dense2; []] (alloc0 (wavefront 3 2 false)) with
  | Some (_, ms) => pairs 3 ms = [[None; Some 1; Some 0]; [None; None; Some 1]; [Some 0; Some 1; None]; [None; None; None]] | None => False end.
Proof. split; [repeat (apply Forall_cons; [legal_tac|]); apply Forall_nil|vm_compute; reflexivity]. Qed.
Example C29_maximal_ex : Forall (legal_asks 3 2) [dense2; dense2] /\
  match alloc_rounds (wavefront 3 2 true) 3 2 [dense2; dense2] (alloc0 (wavefront 3 2 true)) with
  | Some (_, ms) => pairs 3 ms = [[Some 0; Some 1; None]; [Some 1; Some 0; None]] | None => False end.
Proof. split; [repeat (apply Forall_cons; [legal_tac|]); apply Forall_nil|vm_compute; reflexivity]. Qed.

(** C30. Separable input-first, with arbiters of any type: no assert fails, the result is a matching
    in the requests; each input chooses an output of top input priority, each chosen output is
    matched with a chooser of top output priority. *)
Theorem C30_input_first : forall k n m A ls, new_sep_input_first k n m = Some A -> Forall (legal_asks n m) ls ->
  exists s ms, alloc_rounds A n m ls (alloc0 A) = Some (s, ms) /\ Forall2 input_choice ls ms.
Proof. intros k n m A ls E. destruct (sep_if_inv k n m A E) as [I [J [H H0]]]. exact (alloc0_ok n m A I J _ H H0 ls). Qed.
Print Assumptions C30_input_first.

(** C30. Separable output-first, the same with the roles of the ports exchanged. *)
Theorem C30_output_first : forall k n m A ls, new_sep_output_first k n m = Some A -> Forall (legal_asks n m) ls ->
  exists s ms, alloc_rounds A n m ls (alloc0 A) = Some (s, ms) /\ Forall2 output_choice ls ms.
Proof. intros k n m A ls E. destruct (sep_of_inv k n m A E) as [I [J [H H0]]]. exact (alloc0_ok n m A I J _ H H0 ls). Qed.
Print Assumptions C30_output_first.

Lemma input_choice_progress : forall l mt, input_choice l mt -> l <> [] -> exists i o, m_in mt i = Some o.
Proof.
  intros l mt [_ [c [C1 C2]]] H. destruct l as [|[[i o] q] l]; [congruence|]. specialize (C1 i). destruct (c i) as [o'|] eqn:E.
  - destruct C1 as [q' [X _]]. destruct (C2 i o' q' E X) as [i1 [q1 [Y _]]]. eauto.
  - destruct (C1 o (ex_intro _ q (or_introl eq_refl))).
Qed.
Lemma output_choice_progress : forall l mt, output_choice l mt -> l <> [] -> exists i o, m_in mt i = Some o.
Proof.
  intros l mt [M [c [C1 C2]]] H. destruct l as [|[[i o] q] l]; [congruence|]. specialize (C1 o). destruct (c o) as [i'|] eqn:E.
  - destruct C1 as [q' [X _]]. destruct (C2 i' o q' E X) as [o1 [q1 [Y _]]]. apply (proj1 M) in Y. eauto.
  - destruct (C1 i (ex_intro _ q (or_introl eq_refl))).
Qed.
(** C30. A round with requests has a pair. *)
Theorem C30_progress : forall k n m A ls, new_sep_input_first k n m = Some A \/ new_sep_output_first k n m = Some A -> Forall (legal_asks n m) ls ->
  exists s ms, alloc_rounds A n m ls (alloc0 A) = Some (s, ms) /\ Forall2 (fun l mt => l <> [] -> exists i o, m_in mt i = Some o) ls ms.
Proof.
  intros k n m A ls [E|E] H.
  - destruct (C30_input_first k n m A ls E H) as [s [ms [X F]]]. exists s, ms. split; [exact X|].
    apply (Forall2_imp _ _ n m ls ms H) with (2 := F). intros l mt _ S. exact (input_choice_progress l mt S).
  - destruct (C30_output_first k n m A ls E H) as [s [ms [X F]]]. exists s, ms. split; [exact X|].
    apply (Forall2_imp _ _ n m ls ms H) with (2 := F). intros l mt _ S. exact (output_choice_progress l mt S).
Qed.
Print Assumptions C30_progress.

Example C30_input_first_ex : Forall (legal_asks 3 2) [asks3; dense2; []; dense2] /\
  match new_sep_input_first RoundRobin 3 2 with
  | Some A => match alloc_rounds A 3 2 [asks3; dense2; []; dense2] (alloc0 A) with
              | Some (_, ms) => pairs 3 ms = [[None; Some 1; Some 0]; [Some 0; None; None]; [None; None; None]; [Some 1; Some 0; None]] | None => False end
  | None => False end.
Proof. split; [repeat (apply Forall_cons; [legal_tac|]); apply Forall_nil|vm_compute; reflexivity]. Qed.
Example C30_output_first_ex : Forall (legal_asks 4 2) [asks3; dense2; []; dense2] /\
  match new_sep_output_first (TreeOf 2 Matrix) 4 2 with
  | Some A => match alloc_rounds A 4 2 [asks3; dense2; []; dense2] (alloc0 A) with
              | Some (_, ms) => pairs 4 ms = [[None; None; Some 0; None]; [None; Some 1; None; None]; [None; None; None; None]; [Some 1; Some 0; None; None]] | None => False end
  | None => False end.
Proof. split; [repeat (apply Forall_cons; [legal_tac|]); apply Forall_nil|vm_compute; reflexivity]. Qed.
Example C30_progress_ex : (exists A, new_sep_input_first Matrix 3 2 = Some A) /\ Forall (legal_asks 3 2) [asks3; dense2].
Proof. split; [eexists; reflexivity|repeat (apply Forall_cons; [legal_tac|]); apply Forall_nil]. Qed.

(** C31. LOA, from any pointers: the result is a matching in the requests; every requesting input
    has a least requested output among those it requests, and that output is matched. *)
Theorem C31_loa : forall n m p ls, Forall (legal_asks n m) ls ->
  exists s ms, alloc_rounds (loa n m) n m ls (alloc_from (loa n m) p) = Some (s, ms) /\ Forall2 lonely ls ms.
Proof. intros n m p. exact (from_ok n m _ _ _ _ (loa_inv n m) p Logic.I). Qed.
Print Assumptions C31_loa.

Example C31_loa_ex : Forall (legal_asks 3 2) [asks3; dense2] /\
  match alloc_rounds (loa 3 2) 3 2 [asks3; dense2] (alloc_from (loa 3 2) ptrs0) with
  | Some (_, ms) => pairs 3 ms = [[Some 1; Some 0; None]; [None; Some 1; None]] | None => False end.
Proof. split; [repeat (apply Forall_cons; [legal_tac|]); apply Forall_nil|vm_compute; reflexivity]. Qed.

(** C31. SelAlloc with one iteration, from any pointers: a matching in the requests without masked
    outputs; every other requested output has a requester of top output priority that is matched
    with an output of at least this one's input priority. *)
Theorem C31_selalloc : forall n m mask p ls, Forall (legal_asks n m) ls ->
  exists s ms, alloc_rounds (selalloc n m 1 mask) n m ls (alloc_from (selalloc n m 1 mask) p) = Some (s, ms) /\ Forall2 (selected mask) ls ms.
Proof. intros n m mask p. exact (from_ok n m _ _ _ _ (selalloc_inv n m mask) p Logic.I). Qed.
Print Assumptions C31_selalloc.

Example C31_selalloc_ex : Forall (legal_asks 3 2) [asks3; dense2] /\
  match alloc_rounds (selalloc 3 2 1 (fun o => Nat.eqb o 5)) 3 2 [asks3; dense2] (alloc_from (selalloc 3 2 1 (fun o => Nat.eqb o 5)) ptrs0) with
  | Some (_, ms) => pairs 3 ms = [[None; Some 1; Some 0]; [Some 0; None; None]] | None => False end.
Proof. split; [repeat (apply Forall_cons; [legal_tac|]); apply Forall_nil|vm_compute; reflexivity]. Qed.

(** C31. With any larger number of iterations one input can be given two outputs. *)
Definition two_outputs : list ask := [(0, 0, rqst 0); (0, 1, rqst 0)].
Lemma sel_again : forall k r g p mt, (forall i o, r i o = if (Nat.eqb i 0 && Nat.ltb o 2)%bool then Some (rqst 0) else None) ->
  (forall o, o < 2 -> g o = Some 0) -> p_a p 0 = 1 -> m_in mt 0 <> None -> m_out mt 0 = Some 0 ->
  (k = 0 -> m_out mt 1 = Some 0) -> let mt' := snd (sel_iters 1 2 r (fun _ => false) k false g (p, mt)) in
  m_out mt' 0 = Some 0 /\ m_out mt' 1 = Some 0.
Proof.
  induction k as [|k IH]; intros r g p mt Hr Hg Hp Hi H0 H1.
  - cbn. auto.
  - cbn [sel_iters]. set (g' := sel_grant 1 2 r (fun _ => false) (snd (p, mt)) (fst (p, mt)) g).
    assert (Hg' : forall o, o < 2 -> g' o = Some 0).
    { intros o Ho. unfold g', sel_grant. cbn [fst snd]. destruct (negb (o <? 2) || (length (ins_of 1 r o) =? 0) || is_some (m_out mt o) || false); [apply Hg; auto|].
      unfold best_of. destruct (m_in mt 0) as [x|] eqn:E; [|congruence].
      assert (V : forall y, In y (visit (p_g p o) (ins_of 1 r o)) -> y = 0).
      { intros y Y. apply in_visit in Y; [|apply incr_filter_seq]. apply in_ins in Y. lia. }
      assert (F : fst (fold_left (fun acc x => if is_none (m_in mt x) && ((snd acc <? opri r x o)%Z || is_none (fst acc)) then (Some x, opri r x o) else acc)
        (visit (p_g p o) (ins_of 1 r o)) (None, 0%Z)) = None).
      { assert (G : forall l acc, (forall y, In y l -> y = 0) -> fold_left (fun acc x => if is_none (m_in mt x) && ((snd acc <? opri r x o)%Z || is_none (fst acc)) then (Some x, opri r x o) else acc) l acc = acc).
        { induction l as [|y l IHl]; intros acc Hl; cbn [fold_left]; auto. rewrite (Hl y (or_introl eq_refl)), E. cbn [is_none is_some negb andb]. apply IHl. intros z Z. apply Hl. right. auto. }
        rewrite G; auto. }
      rewrite F. apply Hg. auto. }
    assert (A : fold_left (sel_accept 1 2 r g' false) (seq 0 1) (p, mt) = (p, pair_up 0 1 mt)).
    { cbn [seq fold_left]. unfold sel_accept. rewrite Hp.
      replace (outs_of 2 r 0) with [0; 1] by (unfold outs_of; cbn [seq filter]; rewrite !Hr; reflexivity).
      cbn [visit drop_below take_below Nat.ltb Nat.leb app]. unfold best_of. cbn [fold_left].
      rewrite (Hg' 1), (Hg' 0) by lia. unfold ipri. rewrite !Hr. reflexivity. }
    rewrite A. apply IH; [auto|auto|auto| | |]; cbn; auto; discriminate.
Qed.
Theorem C31_selalloc_refuted : forall k, 2 <= k -> Forall (legal_asks 1 2) [two_outputs] /\
  exists s mt, alloc_rounds (selalloc 1 2 k (fun _ => false)) 1 2 [two_outputs] (alloc0 (selalloc 1 2 k (fun _ => false))) = Some (s, [mt]) /\
    m_out mt 0 = Some 0 /\ m_out mt 1 = Some 0 /\ ~ matching two_outputs mt.
Proof.
  intros k Hk. split; [repeat (apply Forall_cons; [legal_tac|]); apply Forall_nil|].
  destruct k as [|[|k]]; [lia|lia|]. unfold two_outputs at 1. cbn [alloc_rounds alloc_adds]. unfold alloc_add. cbn [Nat.ltb Nat.leb andb alloc0 g_rq is_none is_some negb q_label rqst Z.leb Z.compare].
  cbn [Nat.eqb andb is_none is_some negb]. unfold alloc_run. cbn [al_alloc selalloc g_rq g_m g_own al_add al_init].
  set (r := fun a b => if (Nat.eqb a 0 && Nat.eqb b 1)%bool then Some (rqst 0) else if (Nat.eqb a 0 && Nat.eqb b 0)%bool then Some (rqst 0) else None).
  assert (Hr : forall i o, r i o = if (Nat.eqb i 0 && Nat.ltb o 2)%bool then Some (rqst 0) else None).
  { intros i o. unfold r. destruct (Nat.eqb_spec i 0); cbn [andb]; auto. destruct o as [|[|o]]; reflexivity. }
  destruct (sel_iters 1 2 r (fun _ => false) (S (S k)) true (fun _ => None) (ptrs0, no_match)) as [p' mt'] eqn:E.
  assert (K : m_out mt' 0 = Some 0 /\ m_out mt' 1 = Some 0).
  { change mt' with (snd (p', mt')). rewrite <- E. clear E p' mt'.
    change (sel_iters 1 2 r (fun _ => false) (S (S k)) true (fun _ => None) (ptrs0, no_match)) with
      (sel_iters 1 2 r (fun _ => false) (S k) false (sel_grant 1 2 r (fun _ => false) no_match ptrs0 (fun _ => None))
        (fold_left (sel_accept 1 2 r (sel_grant 1 2 r (fun _ => false) no_match ptrs0 (fun _ => None)) true) (seq 0 1) (ptrs0, no_match))).
    assert (G : forall o, o < 2 -> sel_grant 1 2 r (fun _ => false) no_match ptrs0 (fun _ => None) o = Some 0).
    { intros [|[|o]] Ho; [reflexivity|reflexivity|lia]. }
    set (g := sel_grant 1 2 r (fun _ => false) no_match ptrs0 (fun _ => None)) in *.
    assert (A : fold_left (sel_accept 1 2 r g true) (seq 0 1) (ptrs0, no_match) = ({| p_g := fupd (p_g ptrs0) 0 0; p_a := fupd (p_a ptrs0) 0 1 |}, pair_up 0 0 no_match)).
    { cbn [seq fold_left]. unfold sel_accept. replace (outs_of 2 r 0) with [0; 1] by reflexivity.
      cbn [visit drop_below take_below Nat.ltb Nat.leb app p_a ptrs0]. unfold best_of. cbn [fold_left].
      rewrite (G 1), (G 0) by lia. reflexivity. }
    rewrite A. apply sel_again; auto; [cbn; discriminate|discriminate]. }
  eexists _, mt'. split; [cbn [g_own g_m alloc0 al_init selalloc]; rewrite E; reflexivity|]. destruct K as [K0 K1]. split; [auto|]. split; [auto|]. intros [M _]. apply M in K0. apply M in K1. congruence.
Qed.
Print Assumptions C31_selalloc_refuted.

Example C31_selalloc_refuted_ex :
  match alloc_rounds (selalloc 1 2 2 (fun _ => false)) 1 2 [two_outputs] (alloc0 (selalloc 1 2 2 (fun _ => false))) with
  | Some (_, [mt]) => m_in mt 0 = Some 1 /\ m_out mt 0 = Some 0 /\ m_out mt 1 = Some 0 | _ => False end.
Proof. vm_compute. auto. Qed.

(** C32. MaxSize with no more outputs than inputs, from any start: no memory error, and the result
    is a matching in the requests of maximum size. *)
Theorem C32_maximum : forall n m p ls, 0 < n -> m <= n -> Forall (legal_asks n m) ls ->
  exists s ms, alloc_rounds (max_size n m) n m ls (alloc_from (max_size n m) p) = Some (s, ms) /\ Forall2 (maximum n) ls ms.
Proof. intros n m p ls Hn Hm. exact (from_ok n m _ _ _ _ (max_size_inv n m Hn Hm) p Logic.I ls). Qed.
Print Assumptions C32_maximum.

(** Input 2 is served because the others are moved. *)
Definition chain : list ask := [(0, 0, rqst 0); (0, 1, rqst 0); (1, 1, rqst 0); (1, 2, rqst 0); (2, 0, rqst 0)].
Example C32_maximum_ex : Forall (legal_asks 3 3) [chain; asks3] /\
  match alloc_rounds (max_size 3 3) 3 3 [chain; asks3] (alloc_from (max_size 3 3) 0) with
  | Some (_, ms) => pairs 3 ms = [[Some 1; Some 2; Some 0]; [None; Some 0; Some 1]] | None => False end.
Proof. split; [repeat (apply Forall_cons; [legal_tac|]); apply Forall_nil|vm_compute; reflexivity]. Qed.

(** C32. With more outputs than inputs a single request reads [_from] beyond its size: undefined
    behaviour.  (An implementation that keeps the storage of the constructor reads the 0 it was
    created with there, and never serves the request.) *)
Theorem C32_out_of_bounds_refuted : forall n m, 0 < n < m -> legal_asks n m [(0, n, rqst 0)] /\
  alloc_rounds (max_size n m) n m [[(0, n, rqst 0)]] (alloc0 (max_size n m)) = None.
Proof.
  intros n m H. split; [split; [repeat constructor; intros []|apply Forall_cons; [cbn; lia|apply Forall_nil]]|].
  cbn [alloc_rounds alloc_adds]. unfold alloc_add. rewrite (proj2 (Nat.ltb_lt 0 n)), (proj2 (Nat.ltb_lt n m)) by lia.
  cbn [andb alloc0 g_rq is_none is_some negb q_label rqst Z.leb Z.compare]. unfold alloc_run. cbn [al_alloc max_size g_rq g_m g_own al_add al_init].
  unfold ms_alloc. destruct (Nat.eqb_spec n 0); [lia|]. cbn [ms_loop]. unfold ms_step.
  set (r := fun a b => if (Nat.eqb a 0 && Nat.eqb b n)%bool then Some (rqst 0) else None).
  assert (K : forall k a, a <= n < a + k -> ms_edges n r no_match 0 (seq a k) from0 [] = None).
  { induction k as [|k IH]; intros a Ha; [lia|]. cbn [seq ms_edges]. unfold r at 1. cbn [Nat.eqb andb]. destruct (Nat.eqb_spec a n) as [->|Ne].
    - cbn [is_some no_match m_in is_at negb andb]. rewrite Nat.ltb_irrefl. auto.
    - cbn [is_some andb]. apply IH. lia. }
  assert (S : ms_search n m r no_match n (filter (fun j => is_none (m_in no_match j)) (map (fun i => (i + 0) mod n) (seq 0 n))) from0 = None).
  { destruct n as [|n']; [lia|]. cbn [seq map filter]. rewrite (Nat.mod_small (0 + 0) (S n')) by lia. cbn [no_match m_in is_none is_some negb ms_search ms_level plus].
    fold no_match. rewrite (K m 0) by lia. reflexivity. }
  cbn [g_m g_own alloc0 al_init max_size]. rewrite S. reflexivity.
Qed.
Print Assumptions C32_out_of_bounds_refuted.

Example C32_out_of_bounds_refuted_ex : alloc_rounds (max_size 2 4) 2 4 [[(0, 1, rqst 0)]; [(0, 2, rqst 0)]] (alloc0 (max_size 2 4)) = None.
Proof. vm_compute. reflexivity. Qed.
