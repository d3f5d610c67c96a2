From Coq Require Import ZArith Bool List Lia Arith.
From Verif Require Import StreamSpec Fupd.
Import ListNotations.

Lemma prefix_refl : forall A (a : list A), prefix a a.
Proof. intros A a. exists []. symmetry. apply app_nil_r. Qed.
Lemma prefix_nil : forall A (a : list A), prefix [] a.
Proof. intros A a. exists a. reflexivity. Qed.
Lemma prefix_trans : forall A (a b c : list A), prefix a b -> prefix b c -> prefix a c.
Proof. intros A a b c (x & ->) (y & ->). exists (x ++ y). symmetry. apply app_assoc. Qed.
Lemma prefix_map : forall A B (f : A -> B) a b, prefix a b -> prefix (map f a) (map f b).
Proof. intros A B f a b (x & ->). exists (map f x). apply map_app. Qed.
Lemma prefix_filter : forall A (f : A -> bool) a b, prefix a b -> prefix (filter f a) (filter f b).
Proof. intros A f a b (x & ->). exists (filter f x). apply filter_app. Qed.
Lemma prefix_length : forall A (a b : list A), prefix a b -> length a = length b -> a = b.
Proof.
  intros A a b (x & ->) H. rewrite app_length in H. destruct x; [symmetry; apply app_nil_r|cbn in H; lia].
Qed.

Section S.
Context {F X : Type}.
Variable tail : F -> bool.
Variable src : F -> Z.
Variable pk : Z -> X -> list F.

Lemma packet_last : forall p, packet tail p -> exists a g, p = a ++ [g] /\ tail g = true /\ forall f, In f a -> tail f = false.
Proof.
  intros p (P1 & P2). destruct (exists_last P1) as (a & g & ->). exists a, g. split; auto. split.
  - apply (P2 (length a) g); [|rewrite app_length; cbn; lia]. rewrite nth_error_app2, Nat.sub_diag by lia. reflexivity.
  - intros f Hf. apply In_nth_error in Hf. destruct Hf as (j & Hj).
    assert (L : j < length a) by (apply nth_error_Some; rewrite Hj; discriminate).
    destruct (tail f) eqn:T; auto. apply (P2 j f) in T; [|rewrite nth_error_app1; auto].
    rewrite app_length in T. cbn in T. lia.
Qed.

(** Cutting at the first tail is unambiguous. *)
Lemma cut_tail : forall a g b a' g' b', a ++ g :: b = a' ++ g' :: b' ->
  (forall f, In f a -> tail f = false) -> tail g = true -> (forall f, In f a' -> tail f = false) -> tail g' = true ->
  a = a' /\ g = g' /\ b = b'.
Proof.
  induction a as [|x a IH]; intros g b a' g' b' E H1 H2 H3 H4; destruct a' as [|y a']; cbn [app] in E.
  - injection E as -> ->. auto.
  - injection E as -> ->. rewrite (H3 y (or_introl eq_refl)) in H2. discriminate.
  - injection E as -> E. rewrite (H1 _ (or_introl eq_refl)) in H4. discriminate.
  - injection E as -> E. destruct (IH g b a' g' b' E) as (-> & -> & ->); auto;
      intros f Hf; [apply H1|apply H3]; right; auto.
Qed.

Lemma split_tail : forall l : list F, (exists a g b, l = a ++ g :: b /\ tail g = true /\ forall f, In f a -> tail f = false) \/
  (forall f, In f l -> tail f = false).
Proof.
  induction l as [|x l IH]; [right; intros f []|]. destruct (tail x) eqn:T.
  - left. exists [], x, l. split; auto. split; auto. intros f [].
  - destruct IH as [(a & g & b & -> & T2 & H)|H].
    + left. exists (x :: a), g, b. split; auto. split; auto. intros f [<-|Hf]; auto.
    + right. intros f [<-|Hf]; auto.
Qed.

Lemma wormhole_run : forall k l, wormhole tail src l -> forall a x b, l = x :: a ++ b -> src x = k ->
  (forall f, In f (x :: removelast a) -> tail f = false) -> forall f, In f a -> src f = k.
Proof.
  intros k l W a. revert l W. induction a as [|y a IH]; intros l W x b E Hx T f Hf; [destruct Hf|].
  assert (Sy : src y = k).
  { rewrite <- Hx. apply (W [] x y (a ++ b)); [exact E|]. apply T. left. reflexivity. }
  destruct Hf as [<-|Hf]; auto. destruct a as [|z a]; [destruct Hf|].
  apply (IH (y :: (z :: a) ++ b)) with (x := y) (b := b); auto.
  - intros a1 f1 g1 b1 E1 T1. apply (W (x :: a1) f1 g1 b1); auto. rewrite E, <- app_comm_cons, E1. reflexivity.
  - intros f0 [<-|H0]; apply T; right; cbn [removelast]; [left; reflexivity|right; exact H0].
Qed.

Lemma filter_from_all : forall k (l : list F), (forall f, In f l -> src f = k) -> filter (from src k) l = l.
Proof.
  intros k l. induction l as [|x l IH]; cbn [filter]; intros H; auto. unfold from at 1.
  rewrite (H x (or_introl eq_refl)), Z.eqb_refl, IH; auto. intros f Hf. apply H. right. auto.
Qed.
Lemma filter_from_none : forall k k' (l : list F), (forall f, In f l -> src f = k') -> k <> k' -> filter (from src k) l = [].
Proof.
  intros k k' l. induction l as [|x l IH]; cbn [filter]; intros H N; auto. unfold from at 1.
  rewrite (H x (or_introl eq_refl)). destruct (Z.eqb_spec k' k); [congruence|]. apply IH; auto. intros f Hf. apply H. right. auto.
Qed.

Definition zupd {A} (f : Z -> A) (k : Z) (x : A) : Z -> A := fun j => if Z.eqb j k then x else f j.

Lemma chunks : forall n (l : list F) (E : Z -> list X), length l <= n ->
  (forall k e, In e (E k) -> packet tail (pk k e) /\ forall f, In f (pk k e) -> src f = k) ->
  wormhole tail src l ->
  (forall k, prefix (filter (from src k) l) (concat (map (pk k) (E k)))) ->
  exists qs : list (Z * X),
    prefix l (concat (map (fun q => pk (fst q) (snd q)) qs)) /\
    (forall k, prefix (map snd (filter (fun q => Z.eqb (fst q) k) qs)) (E k)) /\
    ((forall k, filter (from src k) l = concat (map (pk k) (E k))) ->
      l = concat (map (fun q => pk (fst q) (snd q)) qs) /\
      forall k, map snd (filter (fun q => Z.eqb (fst q) k) qs) = E k).
Proof.
  induction n as [|n IH]; intros l E L HP W HE.
  - destruct l; [|cbn in L; lia]. exists []. split; [apply prefix_nil|]. split; [intros; apply prefix_nil|].
    intros H. split; auto. intros k. specialize (H k). cbn in H. cbn [filter map].
    destruct (E k) as [|e r] eqn:Ek; auto. exfalso. cbn [map concat] in H.
    destruct (HP k e) as [(P1 & _) _]; [rewrite Ek; left; reflexivity|]. destruct (pk k e); [congruence|discriminate].
  - destruct l as [|x l0].
    { exists []. split; [apply prefix_nil|]. split; [intros; apply prefix_nil|].
      intros H. split; auto. intros k. specialize (H k). cbn in H. cbn [filter map].
      destruct (E k) as [|e r] eqn:Ek; auto. exfalso. cbn [map concat] in H.
      destruct (HP k e) as [(P1 & _) _]; [rewrite Ek; left; reflexivity|]. destruct (pk k e); [congruence|discriminate]. }
    set (l := x :: l0) in *. set (k := src x).
    destruct (HE k) as (more & Hm).
    assert (Hx : filter (from src k) l = x :: filter (from src k) l0).
    { unfold l. cbn [filter]. unfold from at 1. unfold k. rewrite Z.eqb_refl. reflexivity. }
    destruct (E k) as [|e r] eqn:Ek.
    { rewrite Hx in Hm. discriminate. }
    destruct (HP k e) as [Pe Se]; [rewrite Ek; left; reflexivity|].
    destruct (packet_last _ Pe) as (pa & pg & Pp & Tg & Ta).
    cbn [map concat] in Hm. rewrite Pp, <- app_assoc in Hm. cbn [app] in Hm.
    destruct (split_tail l) as [(a & g & b & El & T1 & T2)|T2].
    + assert (Sa : forall f, In f (a ++ [g]) -> src f = k).
      { destruct a as [|y a].
        - cbn [app] in El. unfold l in El. injection El as <- _. intros f [<-|[]]. reflexivity.
        - unfold l in El. cbn [app] in El. injection El as <- El. intros f Hf. cbn [app] in Hf. destruct Hf as [<-|Hf]; auto.
          apply (wormhole_run k l W (a ++ [g]) x b); auto.
          + unfold l. rewrite El, <- app_assoc. reflexivity.
          + intros f0 H0. apply T2. destruct H0 as [<-|H0]; [left; reflexivity|right]. rewrite removelast_last in H0. exact H0. }
      assert (Fl : filter (from src k) l = a ++ g :: filter (from src k) b).
      { rewrite El. replace (a ++ g :: b) with ((a ++ [g]) ++ b) by (rewrite <- app_assoc; reflexivity).
        rewrite filter_app, (filter_from_all k (a ++ [g]) Sa), <- app_assoc. reflexivity. }
      rewrite Fl, <- app_assoc in Hm. cbn [app] in Hm.
      destruct (cut_tail _ _ _ _ _ _ Hm Ta Tg T2 T1) as (-> & -> & Hr).
      set (E' := zupd E k r).
      assert (Ek' : E' k = r) by (unfold E', zupd; rewrite Z.eqb_refl; reflexivity).
      assert (Eo : forall j, j <> k -> E' j = E j).
      { intros j N. unfold E', zupd. destruct (Z.eqb_spec j k); [congruence|reflexivity]. }
      assert (Fo : forall j, j <> k -> filter (from src j) l = filter (from src j) b).
      { intros j N. rewrite El. replace (a ++ g :: b) with ((a ++ [g]) ++ b) by (rewrite <- app_assoc; reflexivity).
        rewrite filter_app, (filter_from_none j k _ Sa N). reflexivity. }
      destruct (IH b E') as (qs & Q1 & Q2 & Q3).
      * rewrite El, app_length in L. cbn in L. lia.
      * intros j e' He'. destruct (Z.eq_dec j k) as [->|N].
        -- apply HP. rewrite Ek. rewrite Ek' in He'. right. exact He'.
        -- apply HP. rewrite Eo in He'; auto.
      * intros a1 f1 g1 b1 E1 T. apply (W (a ++ g :: a1) f1 g1 b1); auto. rewrite El, E1, <- app_assoc. reflexivity.
      * intros j. destruct (Z.eq_dec j k) as [->|N].
        -- rewrite Ek'. exists more. exact Hr.
        -- rewrite Eo, <- Fo by auto. apply HE.
      * exists ((k, e) :: qs). cbn [map concat fst snd]. split; [|split].
        -- rewrite El, Pp. destruct Q1 as (m1 & Q1). exists m1. rewrite Q1, <- !app_assoc. reflexivity.
        -- intros j. cbn [filter fst]. destruct (Z.eqb_spec k j) as [<-|N].
           ++ cbn [map snd]. rewrite Ek. destruct (Q2 k) as (m1 & Q2k). rewrite Ek' in Q2k. exists m1. rewrite Q2k. reflexivity.
           ++ rewrite <- Eo by auto. apply Q2.
        -- intros HF. destruct Q3 as (Q3 & Q4).
           { intros j. destruct (Z.eq_dec j k) as [->|N].
             - specialize (HF k). rewrite Fl, Ek, Ek' in *. cbn [map concat] in HF. rewrite Pp, <- app_assoc in HF. cbn [app] in HF.
               destruct (cut_tail _ _ _ _ _ _ HF T2 T1 Ta Tg) as (_ & _ & HF2). exact HF2.
             - rewrite Eo, <- Fo by auto. apply HF. }
           split.
           ++ rewrite El, Pp, <- Q3, <- app_assoc. reflexivity.
           ++ intros j. cbn [filter fst]. destruct (Z.eqb_spec k j) as [<-|N].
              ** cbn [map snd]. rewrite Ek, Q4, Ek'. reflexivity.
              ** rewrite Q4. auto.
    + (* the rest is the beginning of one packet *)
      assert (Sl : forall f, In f l -> src f = k).
      { intros f [<-|Hf]; auto. apply (wormhole_run k l W l0 x []); auto.
        - rewrite app_nil_r. reflexivity.
        - intros f0 [<-|H0]; apply T2; [left; reflexivity|right].
          destruct (exists_last (l := l0)) as (l1 & z & Hz); [destruct l0; [destruct Hf|discriminate]|].
          rewrite Hz, removelast_last in H0. rewrite Hz. apply in_or_app. auto. }
      rewrite (filter_from_all k l Sl) in Hm.
      assert (PR : prefix l (pa ++ [pg])).
      { destruct (Nat.le_gt_cases (length l) (length (pa ++ [pg]))) as [Hl|Hl].
        - exists (skipn (length l) (pa ++ [pg])).
          rewrite <- (firstn_skipn (length l) (pa ++ [pg])) at 1. f_equal.
          assert (X1 : firstn (length l) (pa ++ pg :: concat (map (pk k) r)) = firstn (length l) (l ++ more)) by (rewrite Hm; reflexivity).
          rewrite (firstn_app (length l) l more), Nat.sub_diag, firstn_O, app_nil_r, firstn_all in X1.
          replace (pa ++ pg :: concat (map (pk k) r)) with ((pa ++ [pg]) ++ concat (map (pk k) r)) in X1 by (rewrite <- app_assoc; reflexivity).
          rewrite firstn_app in X1. replace (length l - length (pa ++ [pg])) with 0 in X1 by lia.
          rewrite firstn_O, app_nil_r in X1. exact X1.
        - exfalso. assert (In pg l).
          { assert (X1 : nth_error (l ++ more) (length pa) = Some pg).
            { rewrite <- Hm, nth_error_app2, Nat.sub_diag by lia. reflexivity. }
            rewrite app_length in Hl. assert (Hl2 : length pa < length l) by (cbn [length] in Hl |- *; lia).
            rewrite nth_error_app1 in X1 by exact Hl2. eapply nth_error_In; eauto. }
          rewrite (T2 pg H) in Tg. discriminate. }
      exists [(k, e)]. split; [|split].
      * cbn [map concat fst snd]. rewrite app_nil_r, Pp. exact PR.
      * intros j. cbn [filter fst]. destruct (Z.eqb_spec k j) as [<-|N]; [|apply prefix_nil].
        exists r. rewrite Ek. reflexivity.
      * intros HF. exfalso. specialize (HF k). rewrite (filter_from_all k l Sl), Ek in HF. cbn [map concat] in HF.
        assert (In pg l). { rewrite HF, Pp. apply in_or_app. left. apply in_or_app. right. left. reflexivity. }
        rewrite (T2 pg H) in Tg. discriminate.
Qed.
End S.

(** Putting labels back on a list of images. *)
Lemma merge : forall A Y (g : nat -> Y -> A) (L : list (nat * A)) (Q : nat -> list Y),
  (forall v, prefix (map snd (filter (fun x => Nat.eqb (fst x) v) L)) (map (g v) (Q v))) ->
  exists hist : list (nat * Y), map (fun h => (fst h, g (fst h) (snd h))) hist = L /\
    forall v, prefix (map snd (filter (fun x => Nat.eqb (fst x) v) hist)) (Q v).
Proof.
  intros A Y g. induction L as [|[u p] L IH]; intros Q H.
  - exists []. split; auto. intros v. apply prefix_nil.
  - destruct (Q u) as [|y r] eqn:Eu.
    { destruct (H u) as (x & Hx). rewrite Eu in Hx. cbn [filter fst] in Hx. rewrite Nat.eqb_refl in Hx. discriminate. }
    destruct (IH (fupd Q u r)) as (hist & H1 & H2).
    + intros v. specialize (H v). cbn [filter fst] in H. unfold fupd. destruct (Nat.eqb_spec v u) as [Ev|N]; [subst v|].
      * rewrite Nat.eqb_refl in H. destruct H as (x & Hx). rewrite Eu in Hx. cbn [map app snd] in Hx. injection Hx as _ Hx.
        exists x. exact Hx.
      * destruct (Nat.eqb_spec u v); [congruence|]. exact H.
    + exists ((u, y) :: hist). split.
      * cbn [map fst snd]. rewrite H1. f_equal. f_equal. destruct (H u) as (x & Hx). rewrite Eu in Hx. cbn [filter fst] in Hx.
        rewrite Nat.eqb_refl in Hx. cbn [map snd app] in Hx. injection Hx as -> _. reflexivity.
      * intros v. cbn [filter fst]. specialize (H2 v). unfold fupd in H2. destruct (Nat.eqb_spec u v) as [Ev|N].
        2:{ destruct (Nat.eqb_spec v u); [congruence|exact H2]. }
        subst v. rewrite Nat.eqb_refl in H2. destruct H2 as (x & Hx). exists x. rewrite Eu. cbn [map snd app]. rewrite <- Hx. reflexivity.
Qed.

Lemma finite_choice : forall A (P : nat -> A -> Prop) n, (forall v, v < n -> exists a, P v a) -> forall d : A,
  exists Q : nat -> A, (forall v, v < n -> P v (Q v)) /\ forall v, n <= v -> Q v = d.
Proof.
  intros A P n H d. induction n as [|n IH]; [exists (fun _ => d); split; [intros; lia|auto]|].
  destruct IH as (Q & H1 & H2); [intros v Hv; apply H; lia|]. destruct (H n) as (a & Ha); [lia|].
  exists (fupd Q n a). unfold fupd. split; intros v Hv; destruct (Nat.eqb_spec v n) as [E|N]; try (subst v; auto; fail); try lia.
  - apply H1. lia.
  - apply H2. lia.
Qed.

Lemma filter_flat_map : forall A B (g : A -> list B) (f : B -> bool) (h : A -> bool) l,
  (forall x y, In x l -> In y (g x) -> f y = h x) -> filter f (flat_map g l) = flat_map g (filter h l).
Proof.
  intros A B g f h l H. induction l as [|x l IH]; cbn [flat_map filter]; auto.
  rewrite filter_app, IH by (intros a b Ha Hb; apply H; auto; right; auto).
  assert (E : filter f (g x) = if h x then g x else []).
  { assert (H' : forall y, In y (g x) -> f y = h x) by (intros y Hy; apply H; auto; left; auto). clear -H'.
    induction (g x) as [|y r IHr]; cbn [filter]; [destruct (h x); auto|].
    rewrite (H' y (or_introl eq_refl)), IHr by (intros z Hz; apply H'; right; auto). destruct (h x); auto. }
  rewrite E. destruct (h x); reflexivity.
Qed.

Lemma prefix_concat : forall F (tail : F -> bool) (a b : list (list F)), prefix a b -> prefix (concat a) (concat b).
Proof. intros F tail a b (x & ->). exists (concat x). apply concat_app. Qed.

(** Tail-free leftovers contain no whole packet. *)
Lemma no_tail_no_packet : forall F (tail : F -> bool) l, Forall (packet tail) l -> (forall f, In f (concat l) -> tail f = false) -> l = [].
Proof.
  intros F tail [|p l] HF H; auto. exfalso. inversion HF as [|? ? Hp _]; subst.
  destruct (packet_last tail p Hp) as (a & g & -> & T & _). rewrite (H g) in T; [discriminate|].
  cbn [concat]. apply in_or_app. left. apply in_or_app. right. left. reflexivity.
Qed.

Lemma routed : forall F X (tail : F -> bool) (src : F -> Z) (pk : nat -> Z -> X -> list F) (E : Z -> nat -> list X)
  (arr : nat -> list F) n,
  (forall k v e, In e (E k v) -> packet tail (pk v k e) /\ forall f, In f (pk v k e) -> src f = k) ->
  (forall v, wormhole tail src (arr v)) -> (forall v, n <= v -> arr v = []) ->
  (forall k v, prefix (filter (from src k) (arr v)) (concat (map (pk v k) (E k v)))) ->
  exists Q : nat -> list (Z * X),
    (forall v, prefix (arr v) (concat (map (fun q => pk v (fst q) (snd q)) (Q v)))) /\
    (forall k v, prefix (map snd (filter (fun q => Z.eqb (fst q) k) (Q v))) (E k v)) /\
    (forall v, arr v = [] -> Q v = []) /\
    ((forall k v, filter (from src k) (arr v) = concat (map (pk v k) (E k v))) -> forall v,
      arr v = concat (map (fun q => pk v (fst q) (snd q)) (Q v)) /\
      forall k, map snd (filter (fun q => Z.eqb (fst q) k) (Q v)) = E k v).
Proof.
  intros F X tail src pk E arr n HP HW H0 HE.
  destruct (finite_choice (list (Z * X)) (fun v qs =>
    prefix (arr v) (concat (map (fun q => pk v (fst q) (snd q)) qs)) /\
    (forall k, prefix (map snd (filter (fun q => Z.eqb (fst q) k) qs)) (E k v)) /\
    ((forall k, filter (from src k) (arr v) = concat (map (pk v k) (E k v))) ->
      arr v = concat (map (fun q => pk v (fst q) (snd q)) qs) /\
      forall k, map snd (filter (fun q => Z.eqb (fst q) k) qs) = E k v)) n) with (d := @nil (Z * X)) as (Q & HQ & HN).
  - intros v _. apply (chunks tail src (pk v) (length (arr v)) (arr v) (fun k => E k v)); auto.
  - exists (fun v => match arr v with [] => [] | _ => Q v end).
    assert (LT : forall v x l, arr v = x :: l -> v < n).
    { intros v x l Hv. destruct (Nat.lt_ge_cases v n) as [L|G]; auto. rewrite (H0 v G) in Hv. discriminate. }
    split; [|split; [|split]].
    + intros v. destruct (arr v) as [|x l] eqn:Ev; [apply prefix_nil|]. rewrite <- Ev. apply HQ. eauto.
    + intros k v. destruct (arr v) as [|x l] eqn:Ev; [apply prefix_nil|]. apply HQ. eauto.
    + intros v ->. reflexivity.
    + intros HF v. destruct (arr v) as [|x l] eqn:Ev; [|rewrite <- Ev; apply HQ; eauto]. split; auto.
      intros k. specialize (HF k v). rewrite Ev in HF. cbn [filter map] in *.
      destruct (E k v) as [|e r] eqn:Ek; auto. exfalso. cbn [map concat] in HF.
      destruct (HP k v e) as [(P1 & _) _]; [rewrite Ek; left; reflexivity|]. destruct (pk v k e); [congruence|discriminate].
Qed.

(** A decision procedure, for the examples. *)
Fixpoint wormb {F} (tail : F -> bool) (src : F -> Z) (l : list F) : bool :=
  match l with
  | f :: l' => match l' with g :: _ => (tail f || Z.eqb (src g) (src f)) | [] => true end && wormb tail src l'
  | [] => true
  end.
Lemma wormb_ok : forall F (tail : F -> bool) src l, wormb tail src l = true -> wormhole tail src l.
Proof.
  intros F tail src l H a f g b E T. subst l. induction a as [|x a IH]; cbn [app wormb] in H; apply andb_prop in H; destruct H as [H1 H2].
  - rewrite T in H1. cbn [orb] in H1. apply Z.eqb_eq. exact H1.
  - apply IH. exact H2.
Qed.
