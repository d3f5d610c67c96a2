From Coq Require Import ZArith Arith Bool List Lia.
From Verif Require Import Fupd ArbiterModel ArbiterSpec ArbiterProofs AllocModel AllocSpec AllocProofs AllocProofs2.
Import ListNotations.

Section Sep.
Variables (a b : arbiter) (n m : nat) (Ia : ast a -> list req -> bool -> Prop) (Ib : ast b -> list req -> bool -> Prop).
Hypothesis HA : arb_inv m a Ia.
Hypothesis HB : arb_inv n b Ib.
Variables (pa pb : areq -> Z) (rq : rqm).

Lemma sep_adds_ok : forall x ys L s, Ia s L false -> NoDup (map r_in L ++ ys) -> (forall y, In y ys -> y < m /\ rq x y <> None) ->
  exists s' L', sep_adds a pa (rq x) ys s = Some s' /\ Ia s' (L ++ L') false /\
    (forall y id p, In (y, id, p) L' <-> In y ys /\ exists q, rq x y = Some q /\ id = q_label q /\ p = pa q).
Proof.
  intros x. induction ys as [|y ys IH]; intros L s HI HN HR.
  - exists s, []. rewrite app_nil_r. split; [auto|]. split; [auto|]. intros; cbn; tauto.
  - cbn [sep_adds]. destruct (HR y (or_introl eq_refl)) as [R1 R2]. destruct (rq x y) as [q|] eqn:E; [|congruence].
    destruct (ai_add _ _ _ HA s L false y (q_label q) (pa q) HI R1) as [s1 [E1 I1]].
    { apply NoDup_remove in HN. destruct HN as [_ HN]. intros C. apply HN. apply in_or_app. auto. }
    rewrite E1. destruct (IH _ s1 I1) as [s2 [L2 [E2 [I2 S2]]]].
    { rewrite map_app. cbn. rewrite <- app_assoc. exact HN. }
    { intros z Z. apply HR. right. auto. }
    exists s2, ((y, q_label q, pa q) :: L2). split; [auto|]. split; [rewrite <- app_assoc in I2; exact I2|].
    intros z id p. cbn [In]. rewrite S2. split.
    + intros [X|[X Y]]; [injection X as <- <- <-; split; [auto|exists q; auto]|auto].
    + intros [[<-|X] Y]; [left; destruct Y as [q' [Y [-> ->]]]; congruence|auto].
Qed.

Definition lb_spec (dn : list nat) (c : nat -> option nat) (Lb : nat -> list req) : Prop :=
  forall y x id p, In (x, id, p) (Lb y) <-> In x dn /\ c x = Some y /\ exists q, rq x y = Some q /\ id = q_label q /\ p = pb q.
Definition choice (dn : list nat) (c : nat -> option nat) : Prop :=
  forall x, match c x with
    | Some y => In x dn /\ exists q, rq x y = Some q /\ forall y' q', y' < m -> rq x y' = Some q' -> (pa q' <= pa q)%Z
    | None => ~ In x dn end.

Lemma sep_first_ok : forall xs dn c Lb s, NoDup (dn ++ xs) -> (forall x, In x xs -> x < n /\ outs_of m rq x <> []) ->
  (forall x, In x xs -> Ia (se_a s x) [] false) -> (forall x, exists L d, Ia (se_a s x) L d) -> (forall y, Ib (se_b s y) (Lb y) false) ->
  lb_spec dn c Lb -> choice dn c ->
  exists s' c' Lb', sep_first m pa pb rq xs s = Some s' /\ (forall x, exists L d, Ia (se_a s' x) L d) /\ (forall y, Ib (se_b s' y) (Lb' y) false) /\
    lb_spec (dn ++ xs) c' Lb' /\ choice (dn ++ xs) c'.
Proof.
  induction xs as [|x xs IH]; intros dn c Lb s HN HX H1 H2 H3 HL HC.
  - exists s, c, Lb. rewrite app_nil_r. cbn. auto 10.
  - cbn [sep_first]. destruct (HX x (or_introl eq_refl)) as [X1 X2].
    assert (Xd : ~ In x dn). { apply NoDup_remove in HN. destruct HN as [_ HN]. intros C. apply HN. apply in_or_app. auto. }
    assert (Xs : ~ In x xs). { apply NoDup_remove in HN. destruct HN as [_ HN]. intros C. apply HN. apply in_or_app. auto. }
    destruct (sep_adds_ok x (outs_of m rq x) [] (se_a s x) (H1 x (or_introl eq_refl))) as [s1 [L1 [E1 [I1 S1]]]].
    { apply NoDup_filter. apply seq_NoDup. }
    { intros y Y. apply in_outs in Y. auto. }
    rewrite E1. cbn [app] in I1. destruct (ai_arb _ _ _ HA s1 L1 I1) as [s2 [o [E2 [G2 [I2 _]]]]]. rewrite E2.
    destruct o as [[[y id] p]|]; cbn [good] in G2.
    2:{ exfalso. destruct (outs_of m rq x) as [|y ys] eqn:Eo; [congruence|].
        assert (Y : y < m /\ rq x y <> None) by (apply in_outs; rewrite Eo; left; auto). destruct (rq x y) as [q|] eqn:Eq; [|tauto].
        assert (In (y, q_label q, pa q) L1) by (apply S1; split; [left; auto|exists q; auto]). subst L1. auto. }
    destruct G2 as [G1 G2]. apply S1 in G1. destruct G1 as [Gy [q [Eq [-> ->]]]]. rewrite Eq, Z.eqb_refl.
    assert (F : ~ In x (map r_in (Lb y))). { intros C. apply in_inputs in C. destruct C as [i1 [p1 C]]. apply HL in C. tauto. }
    destruct (ai_add _ _ _ HB (se_b s y) (Lb y) false x (q_label q) (pb q) (H3 y) X1 F) as [t [E3 I3]]. rewrite E3.
    replace (dn ++ x :: xs) with ((dn ++ [x]) ++ xs) in * by (rewrite <- app_assoc; reflexivity).
    apply (IH (dn ++ [x]) (fupd c x (Some y)) (fupd Lb y (Lb y ++ [(x, q_label q, pb q)]))); cbn [se_a se_b].
    + exact HN.
    + intros z Z. apply HX. right. auto.
    + intros z Z. rewrite fupd_other; [apply H1; right; auto|]. intros ->. contradiction.
    + intros z. unfold fupd. destruct (Nat.eqb_spec z x) as [->|Ne]; [exists L1, true; auto|auto].
    + intros z. unfold fupd. destruct (Nat.eqb_spec z y) as [->|Ne]; auto.
    + intros z x' id' p'. rewrite in_app_iff. unfold fupd. destruct (Nat.eqb_spec z y) as [->|Ne].
      * rewrite in_app_iff, (HL y x' id' p'). cbn [In]. destruct (Nat.eqb_spec x' x) as [->|Nx].
        -- split; [intros [X|[X|[]]]; [tauto|]|].
           ++ injection X as <- <-. split; [auto|]. split; [auto|]. exists q. auto.
           ++ intros [_ [_ [q' [Y [-> ->]]]]]. right. left. congruence.
        -- split; [intros [X|[X|[]]]; [tauto|congruence]|]. intros [[X|[X|[]]] Y]; [tauto|congruence].
      * rewrite (HL z x' id' p'). cbn [In]. destruct (Nat.eqb_spec x' x) as [->|Nx].
        -- split; [tauto|]. intros [_ [X _]]. congruence.
        -- split; [tauto|]. intros [[X|[X|[]]] Y]; [tauto|congruence].
    + intros z. unfold fupd. destruct (Nat.eqb_spec z x) as [->|Ne].
      * split; [apply in_or_app; right; left; auto|]. exists q. split; [auto|]. intros y' q' Y1 Y2.
        assert (K : In (y', q_label q', pa q') L1). { apply S1. split; [apply in_outs; split; [auto|congruence]|exists q'; auto]. }
        apply G2 in K. exact K.
      * specialize (HC z). destruct (c z) as [w|].
        -- destruct HC as [C1 C2]. split; [apply in_or_app; auto|auto].
        -- intros C. apply in_app_iff in C. destruct C as [C|[C|[]]]; [auto|congruence].
Qed.

Variables (mx my : match_ -> nat -> option nat) (mate : nat -> nat -> match_ -> match_).
Hypothesis mate_x : forall x y mt, mx (mate x y mt) = fupd (mx mt) x (Some y).
Hypothesis mate_y : forall x y mt, my (mate x y mt) = fupd (my mt) y (Some x).
Variables (c : nat -> option nat) (xs : list nat) (Lb : nat -> list req).
Hypothesis HL : lb_spec xs c Lb.
Hypothesis HC : choice xs c.

Record sec_inv (dn : list nat) (s : sep a b) (mt : match_) : Prop := {
  sv_a : forall x, exists L d, Ia (se_a s x) L d;
  sv_b : forall y, exists L d, Ib (se_b s y) L d;
  sv_agree : forall x y, mx mt x = Some y <-> my mt y = Some x;
  sv_from : forall x y, mx mt x = Some y -> c x = Some y /\ In y dn;
  sv_top : forall x y q, In y dn -> c x = Some y -> rq x y = Some q -> exists x1 q1, mx mt x1 = Some y /\ c x1 = Some y /\ rq x1 y = Some q1 /\ (pb q <= pb q1)%Z }.

Lemma sep_second_ok : forall ys dn s mt, NoDup (dn ++ ys) -> sec_inv dn s mt -> (forall y, In y ys -> Ib (se_b s y) (Lb y) false) ->
  exists s' mt', sep_second mx my mate ys s mt = Some (s', mt') /\ sec_inv (dn ++ ys) s' mt'.
Proof.
  induction ys as [|y ys IH]; intros dn s mt HN HI HY.
  - exists s, mt. rewrite app_nil_r. auto.
  - cbn [sep_second]. destruct (ai_arb _ _ _ HB _ _ (HY y (or_introl eq_refl))) as [t [o [E [G [I2 _]]]]]. rewrite E.
    assert (Yd : ~ In y dn). { apply NoDup_remove in HN. destruct HN as [_ HN]. intros C. apply HN. apply in_or_app. auto. }
    assert (Ys : ~ In y ys). { apply NoDup_remove in HN. destruct HN as [_ HN]. intros C. apply HN. apply in_or_app. auto. }
    replace (dn ++ y :: ys) with ((dn ++ [y]) ++ ys) in * by (rewrite <- app_assoc; reflexivity).
    destruct HI as [A B Ag Fr Tp]. destruct o as [[[x id] p]|]; cbn [good] in G.
    + destruct G as [G1 G2]. pose proof G1 as G3. apply HL in G3. destruct G3 as [_ [Cx [q [Eq [-> ->]]]]].
      assert (Mx : mx mt x = None). { destruct (mx mt x) as [z|] eqn:Z; auto. apply Fr in Z. destruct Z as [Z1 Z2]. congruence. }
      assert (My : my mt y = None). { destruct (my mt y) as [z|] eqn:Z; auto. apply Ag in Z. apply Fr in Z. tauto. }
      rewrite Mx, My. cbn [is_none is_some negb andb].
      destruct (A x) as [L [d Ix]]. destruct (ai_upd _ _ _ HA _ _ _ Ix) as [u [E1 [Iu _]]]. rewrite E1.
      destruct (ai_upd _ _ _ HB _ _ _ I2) as [v [E2 [Iv _]]]. rewrite E2.
      apply IH.
      * exact HN.
      * constructor; cbn [se_a se_b].
        -- intros z. unfold fupd. destruct (Nat.eqb_spec z x) as [->|Ne]; [eauto|auto].
        -- intros z. unfold fupd. destruct (Nat.eqb_spec z y) as [->|Ne]; [eauto|auto].
        -- intros x' y'. rewrite mate_x, mate_y. unfold fupd. destruct (Nat.eqb_spec x' x) as [->|Nx], (Nat.eqb_spec y' y) as [->|Ny].
           ++ tauto.
           ++ split; [congruence|]. intros X. apply Ag in X. congruence.
           ++ split; [|congruence]. intros X. apply Ag in X. congruence.
           ++ apply Ag.
        -- intros x' y'. rewrite mate_x. unfold fupd. destruct (Nat.eqb_spec x' x) as [->|Nx].
           ++ intros X. injection X as <-. split; [auto|apply in_or_app; right; left; auto].
           ++ intros X. apply Fr in X. split; [tauto|apply in_or_app; tauto].
        -- intros x' y' q' X Cy Eq'. rewrite mate_x. apply in_app_iff in X. destruct X as [X|[<-|[]]].
           ++ destruct (Tp x' y' q' X Cy Eq') as [x1 [q1 [P1 P2]]]. exists x1, q1. unfold fupd. destruct (Nat.eqb_spec x1 x) as [->|Nx]; [congruence|auto].
           ++ exists x, q. rewrite fupd_same. split; [auto|]. split; [auto|]. split; [auto|].
              assert (K : In (x', q_label q', pb q') (Lb y)).
              { apply HL. split; [specialize (HC x'); rewrite Cy in HC; tauto|]. split; [auto|]. exists q'. auto. }
              apply G2 in K. exact K.
      * intros z Z. cbn [se_b]. rewrite fupd_other; [apply HY; right; auto|]. intros ->. contradiction.
    + apply IH.
      * exact HN.
      * constructor; cbn [se_a se_b]; auto.
        -- intros z. unfold fupd. destruct (Nat.eqb_spec z y) as [->|Ne]; [eauto|auto].
        -- intros x' y' X. apply Fr in X. split; [tauto|apply in_or_app; tauto].
        -- intros x' y' q' X Cy Eq'. apply in_app_iff in X. destruct X as [X|[<-|[]]]; [eauto|]. exfalso.
           assert (K : In (x', q_label q', pb q') (Lb y)).
           { apply HL. split; [specialize (HC x'); rewrite Cy in HC; tauto|]. split; [auto|]. exists q'. auto. }
           rewrite G in K. destruct K.
      * intros z Z. cbn [se_b]. rewrite fupd_other; [apply HY; right; auto|]. intros ->. contradiction.
Qed.
End Sep.

Definition sep_i {a b} (Ia : ast a -> list req -> bool -> Prop) (Ib : ast b -> list req -> bool -> Prop) (s : sep a b) : Prop :=
  (forall x, Ia (se_a s x) [] false) /\ (forall y, Ib (se_b s y) [] false).
Definition sep_j {a b} (Ia : ast a -> list req -> bool -> Prop) (Ib : ast b -> list req -> bool -> Prop) (s : sep a b) : Prop :=
  (forall x, exists L d, Ia (se_a s x) L d) /\ (forall y, exists L d, Ib (se_b s y) L d).

Lemma sep_clear1_ok : forall n a I s, arb_inv n a I -> (exists L d, I s L d) -> I (sep_clear1 a s) [] false.
Proof.
  intros n a I s H [L [d HI]]. unfold sep_clear1. destruct (Nat.eqb_spec (a_num a s) 0) as [E|E].
  - rewrite (ai_num _ _ _ H _ _ _ HI) in E. destruct L; [|discriminate]. apply (ai_empty _ _ _ H _ _ HI).
  - apply (ai_clear _ _ _ H _ _ _ HI).
Qed.

Lemma in_occupied : forall n m r x, In x (occupied n m r) <-> x < n /\ outs_of m r x <> [].
Proof.
  intros. unfold occupied. rewrite filter_In, in_seq. destruct (outs_of m r x); cbn; split; intros [A B]; split; try lia; congruence.
Qed.

Lemma outs_nonempty : forall m r x y, y < m -> r x y <> None -> outs_of m r x <> [].
Proof. intros m r x y A B C. assert (In y (outs_of m r x)) by (apply in_outs; auto). rewrite C in H. destruct H. Qed.

(** Both stages, for any side first. *)
Lemma sep_both : forall a b n m Ia Ib, arb_inv m a Ia -> arb_inv n b Ib -> forall pa pb rq mx my mate s mt,
  (forall x y mt, mx (mate x y mt) = fupd (mx mt) x (Some y)) -> (forall x y mt, my (mate x y mt) = fupd (my mt) y (Some x)) ->
  (forall x y, rq x y <> None -> x < n /\ y < m) -> sep_i Ia Ib s -> (forall x, mx mt x = None) -> (forall y, my mt y = None) ->
  exists s1 s2 mt' c, sep_first m pa pb rq (occupied n m rq) s = Some s1 /\ sep_second mx my mate (occupied m n (transpose rq)) s1 mt = Some (s2, mt') /\
    sep_j Ia Ib s2 /\ (forall x y, mx mt' x = Some y <-> my mt' y = Some x) /\ (forall x y, mx mt' x = Some y -> rq x y <> None) /\
    (forall x, match c x with Some y => exists q, rq x y = Some q /\ forall y' q', rq x y' = Some q' -> (pa q' <= pa q)%Z | None => forall y, rq x y = None end) /\
    (forall x y q, c x = Some y -> rq x y = Some q -> exists x1 q1, mx mt' x1 = Some y /\ c x1 = Some y /\ rq x1 y = Some q1 /\ (pb q <= pb q1)%Z).
Proof.
  intros a b n m Ia Ib HA HB pa pb rq mx my mate s mt Hx Hy HR [H1 H2] M1 M2.
  destruct (sep_first_ok a b n m Ia Ib HA HB pa pb rq (occupied n m rq) [] (fun _ => None) (fun _ => []) s) as [s1 [c [Lb [E1 [A1 [B1 [L1 C1]]]]]]].
  - apply NoDup_filter. apply seq_NoDup.
  - intros x X. apply in_occupied in X. auto.
  - auto.
  - eauto.
  - auto.
  - intros y x id p. cbn. tauto.
  - intros x. cbn. tauto.
  - cbn [app] in L1, C1.
    destruct (sep_second_ok a b n m Ia Ib HA HB pa pb rq mx my mate Hx Hy c (occupied n m rq) Lb L1 C1 (occupied m n (transpose rq)) [] s1 mt) as [s2 [mt' [E2 [S1 S2 S3 S4 S5]]]].
    + apply NoDup_filter. apply seq_NoDup.
    + constructor; [auto|eauto| | |].
      * intros x y. rewrite M1, M2. split; discriminate.
      * intros x y. rewrite M1. discriminate.
      * intros x y q [].
    + auto.
    + exists s1, s2, mt', c. split; [auto|]. split; [auto|]. split; [split; auto|]. split; [auto|].
      assert (Oc : forall x y, rq x y <> None -> In y (occupied m n (transpose rq))).
      { intros x y X. destruct (HR x y X) as [R1 R2]. apply in_occupied. split; [auto|]. apply (outs_nonempty n (transpose rq) y x); auto. }
      split; [|split].
      * intros x y X. apply S4 in X. destruct X as [X _]. specialize (C1 x). rewrite X in C1. destruct C1 as [_ [q [C1 _]]]. congruence.
      * intros x. specialize (C1 x). destruct (c x) as [y|].
        -- destruct C1 as [_ [q [C1 C2]]]. exists q. split; [auto|]. intros y' q' X. apply (C2 y' q'); auto. apply (HR x y'). congruence.
        -- intros y. destruct (rq x y) as [q|] eqn:Eq; auto. exfalso. apply C1. destruct (HR x y) as [R1 R2]; [congruence|].
           apply in_occupied. split; [auto|]. apply (outs_nonempty m rq x y); auto. congruence.
      * intros x y q X Y. apply (S5 x y q); auto. apply (Oc x y). congruence.
Qed.

Lemma sep_if_inv : forall k n m A, new_sep_input_first k n m = Some A -> exists I J, alloc_inv n m A I J input_choice /\ I (al_init A) [].
Proof.
  intros k n m A E. unfold new_sep_input_first in E. destruct (new_arbiter k m) as [a|] eqn:Ea; [|discriminate]. destruct (new_arbiter k n) as [b|] eqn:Eb; [|discriminate].
  injection E as <-. destruct (new_arbiter_ok _ _ _ Ea) as [Ia HA]. destruct (new_arbiter_ok _ _ _ Eb) as [Ib HB].
  exists (fun s _ => sep_i Ia Ib s), (fun s _ => sep_j Ia Ib s). split.
  2:{ split; intros; [apply (ai_init _ _ _ HA)|apply (ai_init _ _ _ HB)]. }
  constructor.
  - auto.
  - intros s l r mt HI HL HR [V1 V2].
    destruct (sep_both a b n m Ia Ib HA HB q_ipri q_opri r m_in m_out pair_up s mt) as [s1 [s2 [mt' [c [E1 [E2 [J [Ag [In [C1 C2]]]]]]]]]]; auto.
    { intros x y X. apply (rq_asked l r x y HR) in X. apply (asked_range _ _ _ _ _ HL X). }
    exists s2, mt'. cbn [al_alloc sep_input_first]. rewrite E1, E2. split; [auto|]. split; [auto|]. split.
    { split; [auto|]. intros i o X. apply (rq_asked l r i o HR). apply In. auto. }
    exists c. split.
    + intros i. specialize (C1 i). destruct (c i) as [o|].
      * destruct C1 as [q [D1 D2]]. exists q. split; [apply HR; auto|]. intros o' q' X. apply HR in X. eauto.
      * intros o X. apply (rq_asked l r i o HR) in X. apply X. auto.
    + intros i o q X Y. apply HR in Y. destruct (C2 i o q X Y) as [i1 [q1 [P1 [P2 [P3 P4]]]]]. exists i1, q1. split; [auto|]. split; [auto|]. split; [apply HR; auto|auto].
  - intros s l [J1 J2]. split; intros z; cbn [al_clear sep_input_first sep_clear se_a se_b]; [apply (sep_clear1_ok m a Ia); auto|apply (sep_clear1_ok n b Ib); auto].
  - intros l mt H. apply H.
Qed.

Lemma sep_of_inv : forall k n m A, new_sep_output_first k n m = Some A -> exists I J, alloc_inv n m A I J output_choice /\ I (al_init A) [].
Proof.
  intros k n m A E. unfold new_sep_output_first in E. destruct (new_arbiter k n) as [a|] eqn:Ea; [|discriminate]. destruct (new_arbiter k m) as [b|] eqn:Eb; [|discriminate].
  injection E as <-. destruct (new_arbiter_ok _ _ _ Ea) as [Ia HA]. destruct (new_arbiter_ok _ _ _ Eb) as [Ib HB].
  exists (fun s _ => sep_i Ia Ib s), (fun s _ => sep_j Ia Ib s). split.
  2:{ split; intros; [apply (ai_init _ _ _ HA)|apply (ai_init _ _ _ HB)]. }
  constructor.
  - auto.
  - intros s l r mt HI HL HR [V1 V2].
    destruct (sep_both a b m n Ia Ib HA HB q_opri q_ipri (transpose r) m_out m_in (fun o i => pair_up i o) s mt) as [s1 [s2 [mt' [c [E1 [E2 [J [Ag [In [C1 C2]]]]]]]]]]; auto.
    { intros y x X. apply (rq_asked l r x y HR) in X. destruct (asked_range _ _ _ _ _ HL X). auto. }
    exists s2, mt'. cbn [al_alloc sep_output_first]. rewrite E1. change (transpose (transpose r)) with r in E2. rewrite E2. split; [auto|]. split; [auto|]. split.
    { split; [intros i o; rewrite Ag; tauto|]. intros i o X. apply (rq_asked l r i o HR). apply In. apply Ag. auto. }
    exists c. split.
    + intros o. specialize (C1 o). destruct (c o) as [i|].
      * destruct C1 as [q [D1 D2]]. exists q. split; [apply HR; auto|]. intros i' q' X. apply HR in X. eauto.
      * intros i X. apply (rq_asked l r i o HR) in X. apply X. apply C1.
    + intros i o q X Y. apply HR in Y. destruct (C2 o i q X Y) as [o1 [q1 [P1 [P2 [P3 P4]]]]]. exists o1, q1. split; [auto|]. split; [auto|]. split; [apply HR; auto|auto].
  - intros s l [J1 J2]. split; intros z; cbn [al_clear sep_output_first sep_clear se_a se_b]; [apply (sep_clear1_ok n a Ia); auto|apply (sep_clear1_ok m b Ib); auto].
  - intros l mt H. apply H.
Qed.
