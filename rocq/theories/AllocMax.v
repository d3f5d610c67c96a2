From Coq Require Import ZArith Arith Bool List Lia.
From Verif Require Import Fupd ArbiterModel AllocModel AllocSpec AllocProofs AllocProofs2.
Import ListNotations.

Lemma rotated_nodup : forall k n, NoDup (rotated k n).
Proof.
  intros k n. apply NoDup_incl_NoDup with (l := seq 0 n).
  - apply seq_NoDup.
  - unfold rotated. rewrite map_length. auto.
  - intros x X. apply in_rotated. apply in_seq in X. lia.
Qed.

Lemma NoDup_range : forall l n, NoDup l -> (forall x, In x l -> x < n) -> length l <= n.
Proof.
  intros l n H F. rewrite <- (seq_length n 0). apply NoDup_incl_length; auto. intros x X. apply in_seq. apply F in X. lia.
Qed.

Lemma NoDup_map_inj : forall A B (f : A -> B) l, NoDup l -> (forall x y, In x l -> In y l -> f x = f y -> x = y) -> NoDup (map f l).
Proof.
  intros A B f l H. induction H as [|x l Hx Hl IH]; intros F; cbn; [constructor|]. constructor.
  - intros C. apply in_map_iff in C. destruct C as [y [E Y]]. apply F in E; [subst; contradiction|right; auto|left; auto].
  - apply IH. intros a b A1 B1. apply F; right; auto.
Qed.

Lemma NoDup_app_intro : forall A (l1 l2 : list A), NoDup l1 -> NoDup l2 -> (forall x, In x l1 -> In x l2 -> False) -> NoDup (l1 ++ l2).
Proof.
  intros A l1 l2 H1 H2 D. induction H1 as [|x l1 Hx H1 IH]; cbn; auto. constructor.
  - intros C. apply in_app_iff in C. destruct C as [C|C]; [auto|]. apply (D x); [left; auto|auto].
  - apply IH. intros y Y. apply D. right. auto.
Qed.

Section Search.
Variables (n m : nat) (l : list ask) (r : rqm) (mt : match_).
Hypothesis Hmn : m <= n.
Hypothesis HL : legal_asks n m l.
Hypothesis HR : rq_of l r.
Hypothesis HM : matching l mt.

Definition partner (j : nat) : nat := match m_out mt j with Some i => i | None => 0 end.

(** The outputs reached so far, in order. *)
Record bfs (from : nat -> option nat) (ord : list nat) : Prop := {
  b_from : forall j, from j <> None <-> In j ord;
  b_nodup : NoDup ord;
  b_edge : forall j i, from j = Some i -> asked l i j;
  b_chain : forall pre j post i j', ord = pre ++ j :: post -> from j = Some i -> m_in mt i = Some j' -> In j' pre }.
Definition all_matched (ord : list nat) : Prop := forall j, In j ord -> m_out mt j <> None.
(** Input [i] can start a further step. *)
Definition reach (ord : list nat) (i : nat) : Prop := match m_in mt i with None => True | Some j => In j ord end.
Definition expanded (from : nat -> option nat) (i : nat) : Prop := forall j, asked l i j -> m_in mt i <> Some j -> from j <> None.

Definition found (from : nat -> option nat) (j : nat) : Prop := exists ord, bfs from (ord ++ [j]) /\ m_out mt j = None.

Lemma bfs_snoc : forall from ord i j, bfs from ord -> asked l i j -> ~ In j ord -> reach ord i -> bfs (fupd from j (Some i)) (ord ++ [j]).
Proof.
  intros from ord i j [F N E C] Ha Hj Hr. constructor.
  - intros k. rewrite in_app_iff. unfold fupd. destruct (Nat.eqb_spec k j) as [->|Ne]; cbn [In].
    + split; [auto|congruence].
    + rewrite F. split; [auto|]. intros [X|[X|[]]]; [auto|congruence].
  - apply NoDup_app_intro; [auto|repeat constructor; intros []|]. intros x X [Y|[]]. subst. contradiction.
  - intros k i'. unfold fupd. destruct (Nat.eqb_spec k j) as [->|Ne]; [intros X; injection X as <-; auto|apply E].
  - intros pre k post i' j' Eo Ef Em. unfold fupd in Ef. destruct post as [|p post] using rev_ind.
    + apply app_inj_tail in Eo. destruct Eo as [<- <-]. rewrite Nat.eqb_refl in Ef. injection Ef as <-. unfold reach in Hr. rewrite Em in Hr. auto.
    + clear IHpost. change (pre ++ k :: post ++ [p]) with (pre ++ (k :: post) ++ [p]) in Eo. rewrite app_assoc in Eo. apply app_inj_tail in Eo.
      destruct Eo as [Eo <-]. destruct (Nat.eqb_spec k j) as [->|Ne].
      * exfalso. apply Hj. rewrite Eo. apply in_or_app. right. left. auto.
      * apply (C pre k post i' j'); auto.
Qed.

Lemma bfs_range : forall from ord, bfs from ord -> length ord <= m.
Proof.
  intros from ord [F N E C]. apply NoDup_range; auto. intros j J. apply F in J. destruct (from j) as [i|] eqn:X; [|congruence].
  apply E in X. apply (asked_range _ _ _ _ _ HL X).
Qed.

Lemma reach_app : forall ord new i, reach ord i -> reach (ord ++ new) i.
Proof. intros ord new i. unfold reach. destruct (m_in mt i); auto. intros X. apply in_or_app. auto. Qed.

Lemma ms_edges_ok : forall i js from ns ord, bfs from ord -> all_matched ord -> reach ord i -> length ns <= length ord -> (forall j, In j js -> j < m) ->
  match ms_edges n r mt i js from ns with
  | None => False
  | Some (Path from' j) => found from' j
  | Some (Next from' ns') => exists new, bfs from' (ord ++ new) /\ all_matched (ord ++ new) /\ ns' = ns ++ map partner new /\
      (forall j, from j <> None -> from' j <> None) /\
      forall j, In j js -> asked l i j -> m_in mt i <> Some j -> from' j <> None
  end.
Proof.
  intros i. induction js as [|j js IH]; intros from ns ord B A R Ln Hj.
  - cbn [ms_edges]. exists []. rewrite !app_nil_r. split; [auto|]. split; [auto|]. split; [cbn; rewrite ?app_nil_r; auto|]. split; [auto|intros j []].
  - cbn [ms_edges]. assert (Hj' : forall k, In k js -> k < m) by (intros k K; apply Hj; right; auto).
    assert (Lift : (asked l i j -> m_in mt i <> Some j -> from j <> None) ->
      match ms_edges n r mt i js from ns with
      | None => False
      | Some (Path from' j) => found from' j
      | Some (Next from' ns') => exists new, bfs from' (ord ++ new) /\ all_matched (ord ++ new) /\ ns' = ns ++ map partner new /\
          (forall j, from j <> None -> from' j <> None) /\
          forall j0, In j0 (j :: js) -> asked l i j0 -> m_in mt i <> Some j0 -> from' j0 <> None
      end).
    { intros Hd. specialize (IH from ns ord B A R Ln Hj'). destruct (ms_edges n r mt i js from ns) as [[f' k0|f' ns']|]; auto.
      destruct IH as [new [I1 [I2 [I3 [I4 I5]]]]]. exists new. split; [auto|]. split; [auto|]. split; [auto|]. split; [auto|].
      intros k [<-|K]; [intros; apply I4; auto|auto]. }
    destruct (is_some (r i j) && negb (is_at (m_in mt i) j)) eqn:E.
    + apply andb_true_iff in E. destruct E as [E1 E2]. apply is_some_true in E1. apply (rq_asked l r i j HR) in E1.
      pose proof (Hj j (or_introl eq_refl)) as Jm. rewrite (proj2 (Nat.ltb_lt j n)) by lia.
      destruct (from j) as [x|] eqn:Ef; [apply Lift; congruence|].
      assert (Nj : ~ In j ord) by (intros C; apply (b_from _ _ B) in C; congruence).
      pose proof (bfs_snoc from ord i j B E1 Nj R) as B'.
      destruct (m_out mt j) as [i'|] eqn:Em.
      * pose proof (bfs_range _ _ B') as Lr. rewrite app_length in Lr. cbn in Lr. rewrite (proj2 (Nat.ltb_lt (length ns) n)) by lia.
        specialize (IH (fupd from j (Some i)) (ns ++ [i']) (ord ++ [j]) B').
        destruct (ms_edges n r mt i js (fupd from j (Some i)) (ns ++ [i'])) as [[f' k0|f' ns']|].
        -- apply IH; auto; [|apply reach_app; auto|rewrite !app_length; cbn; lia]. intros k K. apply in_app_iff in K. destruct K as [K|[<-|[]]]; [auto|congruence].
        -- destruct IH as [new [I1 [I2 [I3 [I4 I5]]]]]; auto; [|apply reach_app; auto|rewrite !app_length; cbn; lia|].
           { intros k K. apply in_app_iff in K. destruct K as [K|[<-|[]]]; [auto|congruence]. }
           exists (j :: new). rewrite <- app_assoc in I1, I2. split; [auto|]. split; [auto|]. split.
           { rewrite I3, <- app_assoc. cbn. unfold partner. rewrite Em. auto. }
           split.
           { intros k K. apply I4. unfold fupd. destruct (Nat.eqb_spec k j); [discriminate|auto]. }
           intros k [<-|K]; [intros _ _; apply I4; rewrite fupd_same; discriminate|auto].
        -- apply IH; auto; [|apply reach_app; auto|rewrite !app_length; cbn; lia]. intros k K. apply in_app_iff in K. destruct K as [K|[<-|[]]]; [auto|congruence].
      * exists ord. auto.
    + apply Lift. intros X Y. apply (rq_asked l r i j HR) in X. apply is_some_true in X. rewrite X in E. cbn [andb] in E.
      apply negb_false_iff, is_at_true in E. congruence.
Qed.

Lemma ms_level_ok : forall st from ns ord, bfs from ord -> all_matched ord -> (forall i, In i st -> reach ord i) -> length ns <= length ord ->
  match ms_level n m r mt st from ns with
  | None => False
  | Some (Path from' j) => found from' j
  | Some (Next from' ns') => exists new, bfs from' (ord ++ new) /\ all_matched (ord ++ new) /\ ns' = ns ++ map partner new /\
      (forall j, from j <> None -> from' j <> None) /\
      forall i, In i st -> expanded from' i
  end.
Proof.
  induction st as [|i st IH]; intros from ns ord B A R Ln.
  - cbn [ms_level]. exists []. rewrite !app_nil_r. split; [auto|]. split; [auto|]. split; [cbn; rewrite ?app_nil_r; auto|]. split; [auto|intros i []].
  - cbn [ms_level]. pose proof (ms_edges_ok i (seq 0 m) from ns ord B A (R i (or_introl eq_refl)) Ln) as K.
    destruct (ms_edges n r mt i (seq 0 m) from ns) as [[f1 j|f1 ns1]|].
    + apply K. intros j' J. apply in_seq in J. lia.
    + destruct K as [new [K1 [K2 [K3 [K4 K5]]]]]; [intros j' J; apply in_seq in J; lia|].
      specialize (IH f1 ns1 (ord ++ new) K1 K2). destruct (ms_level n m r mt st f1 ns1) as [[f2 j|f2 ns2]|].
      * apply IH; [intros i' I'; apply reach_app; apply R; right; auto|]. rewrite K3, !app_length, map_length. lia.
      * destruct IH as [new2 [I1 [I2 [I3 [I4 I5]]]]].
        { intros i' I'; apply reach_app; apply R; right; auto. } { rewrite K3, !app_length, map_length. lia. }
        exists (new ++ new2). rewrite !app_assoc. split; [auto|]. split; [auto|]. split; [rewrite map_app, app_assoc, I3, K3; auto|]. split; [auto|].
        intros i' [<-|I']; [|auto]. intros j J1 J2. apply I4. apply K5; auto. apply in_seq. pose proof (asked_range _ _ _ _ _ HL J1). lia.
      * apply IH; [intros i' I'; apply reach_app; apply R; right; auto|]. rewrite K3, !app_length, map_length. lia.
    + apply K. intros j' J. apply in_seq in J. lia.
Qed.

Variable free : list nat.
Hypothesis Hfree : NoDup free.
Hypothesis Hfree_in : forall i, In i free <-> i < n /\ m_in mt i = None.

Lemma partner_spec : forall ord j, all_matched ord -> In j ord -> m_in mt (partner j) = Some j.
Proof. intros ord j A J. apply A in J. unfold partner. destruct (m_out mt j) as [i|] eqn:E; [|congruence]. apply HM. auto. Qed.

Lemma queue_nodup : forall from ord, bfs from ord -> all_matched ord -> NoDup (free ++ map partner ord).
Proof.
  intros from ord B A. apply NoDup_app_intro; [auto| |].
  - apply NoDup_map_inj; [apply (b_nodup _ _ B)|]. intros x y X Y E. pose proof (partner_spec ord x A X). pose proof (partner_spec ord y A Y). congruence.
  - intros x X Y. apply in_map_iff in Y. destruct Y as [j [<- Y]]. pose proof (partner_spec ord j A Y). apply Hfree_in in X. destruct X. congruence.
Qed.
Lemma queue_range : forall ord i, all_matched ord -> In i (free ++ map partner ord) -> i < n /\ reach ord i.
Proof.
  intros ord i A X. apply in_app_iff in X. destruct X as [X|X].
  - apply Hfree_in in X. destruct X as [X1 X2]. split; auto. unfold reach. rewrite X2. auto.
  - apply in_map_iff in X. destruct X as [j [<- X]]. pose proof (partner_spec ord j A X) as P. split.
    + apply (proj2 HM) in P. apply (asked_range _ _ _ _ _ HL P).
    + unfold reach. rewrite P. auto.
Qed.

Lemma ms_search_nil : forall k from, ms_search n m r mt k [] from = Some (Next from []).
Proof. induction k as [|k IH]; intros from; cbn [ms_search ms_level]; auto. Qed.

Lemma ms_search_ok : forall k dn st from ord, bfs from ord -> all_matched ord -> free ++ map partner ord = dn ++ st ->
  (forall i, In i dn -> expanded from i) ->
  match ms_search n m r mt k st from with
  | None => False
  | Some (Path from' j) => found from' j
  | Some (Next from' st') => exists ord' dn', bfs from' ord' /\ all_matched ord' /\ free ++ map partner ord' = dn' ++ st' /\
      (forall i, In i dn' -> expanded from' i) /\ (st' = [] \/ length dn + k <= length dn')
  end.
Proof.
  induction k as [|k IH]; intros dn st from ord B A Q X.
  - cbn [ms_search]. exists ord, dn. split; [auto|]. split; [auto|]. split; [auto|]. split; [auto|]. right. lia.
  - destruct st as [|s0 st].
    { rewrite ms_search_nil. exists ord, dn. auto 10. }
    cbn [ms_search]. pose proof (ms_level_ok (s0 :: st) from [] ord B A) as K.
    destruct (ms_level n m r mt (s0 :: st) from []) as [[f1 j|f1 ns1]|].
    + apply K; [|cbn; lia]. intros i I. apply queue_range; auto. rewrite Q. apply in_or_app. auto.
    + destruct K as [new [K1 [K2 [K3 [K4 K5]]]]]; [|cbn; lia|].
      { intros i I. apply queue_range; auto. rewrite Q. apply in_or_app. auto. }
      cbn [app] in K3. subst ns1.
      assert (Q1 : free ++ map partner (ord ++ new) = (dn ++ s0 :: st) ++ map partner new) by (rewrite map_app, app_assoc, Q; auto).
      assert (X1 : forall i, In i (dn ++ s0 :: st) -> expanded f1 i).
      { intros i I. apply in_app_iff in I. destruct I as [I|I]; [|auto]. intros j J1 J2. apply K4. apply (X i I j J1 J2). }
      specialize (IH (dn ++ s0 :: st) (map partner new) f1 (ord ++ new) K1 K2 Q1 X1).
      destruct (ms_search n m r mt k (map partner new) f1) as [[f2 j|f2 st2]|]; auto.
      destruct IH as [ord' [dn' [I1 [I2 [I3 [I4 I5]]]]]].
      exists ord', dn'. split; [auto|]. split; [auto|]. split; [auto|]. split; [auto|]. rewrite app_length in I5. cbn in I5. destruct I5; [auto|right; lia].
    + apply K; [|cbn; lia]. intros i I. apply queue_range; auto. rewrite Q. apply in_or_app. auto.
Qed.

Lemma bfs_start : bfs from0 [].
Proof. constructor; unfold from0; [cbn; intros; split; [congruence|tauto]|constructor|discriminate|intros pre; destruct pre; discriminate]. Qed.

(** After as many levels as there are inputs nothing is left to expand. *)
Lemma ms_search_all :
  match ms_search n m r mt n free from0 with
  | None => False
  | Some (Path from j) => found from j
  | Some (Next from st) => exists ord, bfs from ord /\ all_matched ord /\ forall i, In i (free ++ map partner ord) -> expanded from i
  end.
Proof.
  pose proof (ms_search_ok n [] free from0 []) as K. destruct (ms_search n m r mt n free from0) as [[f j|f st]|].
  - apply K; [exact bfs_start|intros j' []|apply app_nil_r|intros i []].
  - destruct K as [ord [dn [B [A [Q [X [E|E]]]]]]]; [exact bfs_start|intros j' []|apply app_nil_r|intros i []| |].
    + exists ord. subst st. rewrite app_nil_r in Q. rewrite Q. auto.
    + exists ord. split; [auto|]. split; [auto|]. cbn in E.
      assert (Ln : length (free ++ map partner ord) <= n).
      { apply NoDup_range; [apply (queue_nodup _ _ B A)|]. intros x I. apply (queue_range ord); auto. }
      rewrite Q in Ln |- *. rewrite app_length in Ln. destruct st as [|s st]; [rewrite app_nil_r; auto|cbn in Ln; lia].
  - apply K; [exact bfs_start|intros j' []|apply app_nil_r|intros i []].
Qed.

(** The vertex cover shows that no matching is larger. *)
Lemma cover_maximum : forall from ord, bfs from ord -> all_matched ord -> (forall i, In i (free ++ map partner ord) -> expanded from i) -> maximum n l mt.
Proof.
  intros from ord B A X. split; [exact HM|]. intros m' M'.
  set (Q := free ++ map partner ord) in *.
  set (inq := fun i => if in_dec Nat.eq_dec i Q then true else false).
  assert (Iq : forall i, inq i = true <-> In i Q) by (intros i; unfold inq; destruct (in_dec Nat.eq_dec i Q); split; congruence).
  assert (Split : forall (f : nat -> bool) xs, length (filter f xs) = length (filter (fun i => f i && negb (inq i)) xs) + length (filter (fun i => f i && inq i) xs)).
  { intros f xs. induction xs as [|x xs IH]; cbn; auto. destruct (f x), (inq x); cbn; lia. }
  set (f' := fun i => match m_in m' i with Some _ => true | None => false end).
  set (f0 := fun i => match m_in mt i with Some _ => true | None => false end).
  change (length (filter f' (seq 0 n)) <= length (filter f0 (seq 0 n))). rewrite (Split f' (seq 0 n)), (Split f0 (seq 0 n)).
  assert (P1 : length (filter (fun i => f' i && negb (inq i)) (seq 0 n)) <= length (filter (fun i => f0 i && negb (inq i)) (seq 0 n))).
  { apply NoDup_incl_length; [apply NoDup_filter; apply seq_NoDup|]. intros i I. apply filter_In in I. destruct I as [I1 I2].
    apply filter_In. split; auto. apply andb_true_iff in I2. destruct I2 as [I2 I3]. apply andb_true_iff. split; auto.
    unfold f0. destruct (m_in mt i) eqn:E; auto. exfalso. apply negb_true_iff in I3. assert (inq i = true); [|congruence]. apply Iq. apply in_or_app. left.
    apply Hfree_in. apply in_seq in I1. split; [lia|auto]. }
  assert (P2 : length (filter (fun i => f' i && inq i) (seq 0 n)) <= length ord).
  { set (g := fun i => match m_in m' i with Some o => o | None => 0 end). rewrite <- (map_length g). apply NoDup_incl_length.
    - apply NoDup_map_inj; [apply NoDup_filter; apply seq_NoDup|]. intros x y I J E. apply filter_In in I. apply filter_In in J.
      destruct I as [_ I]. destruct J as [_ J]. apply andb_true_iff in I. apply andb_true_iff in J. destruct I as [I _]. destruct J as [J _].
      unfold f', g in *. destruct (m_in m' x) as [o1|] eqn:E1; [|discriminate]. destruct (m_in m' y) as [o2|] eqn:E2; [|discriminate]. subst.
      apply (proj1 M') in E1. apply (proj1 M') in E2. congruence.
    - intros o I. apply in_map_iff in I. destruct I as [i [<- I]]. apply filter_In in I. destruct I as [_ I]. apply andb_true_iff in I. destruct I as [I1 I2].
      apply Iq in I2. unfold f', g in *. destruct (m_in m' i) as [o|] eqn:E; [|discriminate].
      pose proof (proj2 M' _ _ E) as Hask. destruct (m_in mt i) as [j|] eqn:Em.
      + destruct (Nat.eq_dec j o) as [->|Ne].
        * destruct (queue_range ord i A I2) as [_ Rr]. unfold reach in Rr. rewrite Em in Rr. auto.
        * apply (b_from _ _ B). apply (X i I2 o Hask). congruence.
      + apply (b_from _ _ B). apply (X i I2 o Hask). congruence. }
  assert (P3 : length ord <= length (filter (fun i => f0 i && inq i) (seq 0 n))).
  { rewrite <- (map_length partner). apply NoDup_incl_length.
    - apply NoDup_map_inj; [apply (b_nodup _ _ B)|]. intros x y I J E. pose proof (partner_spec ord x A I). pose proof (partner_spec ord y A J). congruence.
    - intros i I. assert (In i Q) by (apply in_or_app; auto). apply filter_In. destruct (queue_range ord i A H) as [R1 _].
      split; [apply in_seq; lia|]. rewrite (proj2 (Iq i) H), andb_true_r. unfold f0. apply in_map_iff in I. destruct I as [j [<- I]].
      rewrite (partner_spec ord j A I). auto. }
  lia.
Qed.

Lemma option_eq_dec : forall a b : option nat, {a = b} + {a <> b}.
Proof. decide equality. apply Nat.eq_dec. Qed.

Lemma augment_last : forall i j cur, m_in cur i = None -> asked l i j ->
  (forall a o, o <> j -> (m_in cur a = Some o <-> m_out cur o = Some a)) -> (forall a, m_in cur a <> Some j) ->
  (forall a o, m_in cur a = Some o -> asked l a o) ->
  let mt' := {| m_in := fupd (m_in cur) i (Some j); m_out := m_out {| m_in := m_in cur; m_out := fupd (m_out cur) j (Some i) |} |} in
  matching l mt' /\ match_size n cur < match_size n mt'.
Proof.
  intros i j cur E Ha Ag Nj As mt'. split.
  - split.
    + intros a o. unfold mt'. cbn [m_in m_out]. unfold fupd. destruct (Nat.eqb_spec a i) as [->|Na], (Nat.eqb_spec o j) as [->|No].
      * tauto.
      * split; [congruence|]. intros Y. apply Ag in Y; auto. congruence.
      * split; [|congruence]. intros Y. exfalso. apply (Nj a). auto.
      * apply Ag. auto.
    + intros a o. unfold mt'. cbn [m_in]. unfold fupd. destruct (Nat.eqb_spec a i) as [->|Na]; [intros Y; injection Y as <-; auto|apply As].
  - unfold match_size. apply (filter_lt _ _ _ _ i).
    + intros a. unfold mt'. cbn [m_in]. unfold fupd. destruct (Nat.eqb_spec a i); auto.
    + apply in_seq. pose proof (asked_range _ _ _ _ _ HL Ha). lia.
    + rewrite E. auto.
    + unfold mt'. cbn [m_in]. rewrite fupd_same. auto.
Qed.

(** Augmenting along the path. *)
Lemma ms_augment_ok : forall from ord, bfs from ord ->
  forall f pre j post cur, ord = pre ++ j :: post -> length pre <= f ->
  (forall i o, o <> j -> (m_in cur i = Some o <-> m_out cur o = Some i)) -> (forall i, m_in cur i <> Some j) ->
  (forall i o, m_in cur i = Some o -> asked l i o) ->
  (forall i, m_in cur i <> m_in mt i -> exists jq, m_in mt i = Some jq /\ ~ In jq pre) ->
  exists mt', ms_augment f from j cur = Some mt' /\ matching l mt' /\ match_size n cur < match_size n mt'.
Proof.
  intros from ord B. induction f as [|f IH]; intros pre j post cur Eo Lp Ag Nj As Ch.
  - destruct pre; [|cbn in Lp; lia]. cbn [ms_augment app] in *.
    assert (J : from j <> None) by (apply (b_from _ _ B); rewrite Eo; left; auto). destruct (from j) as [i|] eqn:Ef; [|congruence].
    destruct (m_in mt i) as [jx|] eqn:E0; [destruct (b_chain _ _ B [] j post i jx Eo Ef E0)|].
    assert (E1 : m_in cur i = None).
    { destruct (m_in cur i) eqn:E; auto. destruct (Ch i) as [jq [X _]]; congruence. }
    rewrite E1. eexists. split; [reflexivity|]. pose proof (b_edge _ _ B j i Ef) as Ha. apply augment_last; auto.
  - cbn [ms_augment].
    assert (J : from j <> None) by (apply (b_from _ _ B); rewrite Eo; apply in_or_app; right; left; auto). destruct (from j) as [i|] eqn:Ef; [|congruence].
    pose proof (b_edge _ _ B j i Ef) as Ha.
    assert (E0 : m_in cur i = m_in mt i).
    { destruct (option_eq_dec (m_in cur i) (m_in mt i)) as [E|E]; auto. destruct (Ch i E) as [jq [X Y]]. exfalso. apply Y. apply (b_chain _ _ B pre j post i jq Eo Ef X). }
    destruct (m_in cur i) as [jn|] eqn:E1.
    + pose proof (b_chain _ _ B pre j post i jn Eo Ef (eq_sym E0)) as Pn. apply in_split in Pn. destruct Pn as [p1 [p2 Ep]].
      assert (Nn : jn <> j) by (intros ->; apply (Nj i); auto).
      assert (Hn : m_out cur jn = Some i) by (apply Ag; auto).
      set (cur2 := {| m_in := fupd (m_in cur) i (Some j); m_out := m_out {| m_in := m_in cur; m_out := fupd (m_out cur) j (Some i) |} |}).
      destruct (IH p1 jn (p2 ++ j :: post) cur2) as [mt' [F1 [F2 F3]]].
      * rewrite Eo, Ep, <- app_assoc. auto.
      * rewrite Ep, app_length in Lp. cbn in Lp. lia.
      * intros a o No. unfold cur2. cbn [m_in m_out]. unfold fupd. destruct (Nat.eqb_spec a i) as [->|Na], (Nat.eqb_spec o j) as [->|Nj'].
        -- tauto.
        -- split; [congruence|]. intros Y. apply Ag in Y; auto. congruence.
        -- split; [|congruence]. intros Y. exfalso. apply (Nj a). auto.
        -- apply Ag. auto.
      * intros a. unfold cur2. cbn [m_in]. unfold fupd. destruct (Nat.eqb_spec a i) as [->|Na]; [congruence|]. intros Y. apply Ag in Y; auto. congruence.
      * intros a o. unfold cur2. cbn [m_in]. unfold fupd. destruct (Nat.eqb_spec a i) as [->|Na]; [intros Y; injection Y as <-; auto|apply As].
      * intros a. unfold cur2. cbn [m_in]. unfold fupd. destruct (Nat.eqb_spec a i) as [->|Na].
        -- intros _. exists jn. split; [congruence|]. pose proof (b_nodup _ _ B) as N. rewrite Eo, Ep in N. rewrite <- app_assoc in N. cbn in N.
           apply NoDup_remove_2 in N. intros C. apply N. apply in_or_app. auto.
        -- intros Y. destruct (Ch a Y) as [jq [Z1 Z2]]. exists jq. split; auto. intros C. apply Z2. rewrite Ep. apply in_or_app. auto.
      * exists mt'. split; [auto|]. split; [auto|]. unfold match_size in *. erewrite (filter_ext _ (fun x => match m_in cur2 x with Some _ => true | None => false end)); [exact F3|].
        intros a. unfold cur2. cbn [m_in]. unfold fupd. destruct (Nat.eqb_spec a i) as [->|Na]; [rewrite E1; auto|auto].
    + eexists. split; [reflexivity|]. apply augment_last; auto.
Qed.
End Search.

Lemma match_size_le : forall n mt, match_size n mt <= n.
Proof.
  intros. unfold match_size. rewrite <- (seq_length n 0) at 2. generalize (seq 0 n). intros xs. induction xs as [|x xs IH]; cbn; [lia|].
  destruct (m_in mt x); cbn; lia.
Qed.

Lemma ms_step_ok : forall n m l r mt prio, m <= n -> legal_asks n m l -> rq_of l r -> matching l mt ->
  match ms_step n m prio r mt with
  | None => False
  | Some None => maximum n l mt
  | Some (Some mt') => matching l mt' /\ match_size n mt < match_size n mt'
  end.
Proof.
  intros n m l r mt prio Hmn HL HR HM. unfold ms_step. fold (rotated prio n). set (free := filter (fun j => is_none (m_in mt j)) (rotated prio n)).
  assert (N : NoDup free) by (apply NoDup_filter; apply rotated_nodup).
  assert (F : forall i, In i free <-> i < n /\ m_in mt i = None).
  { intros i. unfold free. rewrite filter_In, in_rotated, is_none_true. tauto. }
  pose proof (ms_search_all n m l r mt Hmn HL HR HM free N F) as K. destruct (ms_search n m r mt n free from0) as [[f j|f st]|]; [| |auto].
  - destruct K as [ord [B E]].
    destruct (ms_augment_ok n m l mt Hmn HL f (ord ++ [j]) B n ord j [] mt) as [mt' [A1 A2]]; auto.
    + pose proof (bfs_range n m l mt HL f _ B) as Lr. rewrite app_length in Lr. cbn in Lr. lia.
    + intros i o _. apply HM.
    + intros i X. apply (proj1 HM) in X. congruence.
    + apply HM.
    + congruence.
    + rewrite A1. auto.
  - destruct K as [ord [B [A X]]]. apply (cover_maximum n m l mt Hmn HL HM free F f ord B A X).
Qed.

Lemma ms_loop_ok : forall n m l r prio, m <= n -> legal_asks n m l -> rq_of l r -> forall fuel mt, matching l mt -> n < match_size n mt + fuel ->
  exists mt', ms_loop fuel n m prio r mt = Some mt' /\ maximum n l mt'.
Proof.
  intros n m l r prio Hmn HL HR. induction fuel as [|f IH]; intros mt HM Hf; cbn [ms_loop]; pose proof (ms_step_ok n m l r mt prio Hmn HL HR HM) as K.
  - pose proof (match_size_le n mt). lia.
  - destruct (ms_step n m prio r mt) as [[mt'|]|]; [|eauto|destruct K]. destruct K as [K1 K2]. apply IH; auto. lia.
Qed.

Lemma max_size_inv : forall n m, 0 < n -> m <= n -> alloc_inv n m (max_size n m) (fun _ _ => True) (fun _ _ => True) (maximum n).
Proof.
  intros n m Hn Hmn. constructor; auto; [|intros l mt H; apply H].
  intros s l r mt _ HL HR HV. cbn [al_alloc max_size]. unfold ms_alloc. destruct (Nat.eqb_spec n 0); [lia|].
  destruct (ms_loop_ok n m l r s Hmn HL HR (S n) mt (vacant_matching l mt HV) ltac:(lia)) as [mt' [E M]]. rewrite E. eauto.
Qed.
