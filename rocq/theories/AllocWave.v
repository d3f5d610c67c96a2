From Coq Require Import ZArith Arith Bool List Lia.
From Verif Require Import Fupd ArbiterModel AllocModel AllocSpec AllocProofs AllocProofs2.
Import ListNotations.

(** The set of priorities. *)
Definition prq (q : areq) : Z * Z := (q_opri q, q_ipri q).
Inductive desc : list (Z * Z) -> Prop :=
| desc_nil : desc []
| desc_cons : forall x l, (forall y, In y l -> pri_gt x y = true) -> desc l -> desc (x :: l).

Lemma pri_gt_spec : forall a b, pri_gt a b = true <-> (fst b < fst a)%Z \/ (fst a = fst b /\ (snd b < snd a)%Z).
Proof. intros. unfold pri_gt. rewrite orb_true_iff, andb_true_iff, !Z.ltb_lt, Z.eqb_eq. tauto. Qed.

Lemma pri_insert_in : forall x l y, In y (pri_insert x l) <-> y = x \/ In y l.
Proof.
  intros x l y. induction l as [|z l IH]; cbn [pri_insert In]; [intuition congruence|].
  destruct (pri_gt x z) eqn:E1; [cbn [In]; intuition congruence|]. destruct (pri_gt z x) eqn:E2.
  - cbn [In]. rewrite IH. tauto.
  - assert (x = z).
    { destruct x as [a b], z as [c d]. assert (~ (c < a \/ (a = c /\ d < b))%Z) by (intro C; apply (pri_gt_spec (a, b) (c, d)) in C; congruence).
      assert (~ (a < c \/ (c = a /\ b < d))%Z) by (intro C; apply (pri_gt_spec (c, d) (a, b)) in C; congruence). f_equal; lia. }
    subst. cbn [In]. intuition congruence.
Qed.

Lemma pri_insert_desc : forall x l, desc l -> desc (pri_insert x l).
Proof.
  intros x l H. induction H as [|y l Hy Hl IH]; cbn [pri_insert]; [repeat constructor; intros y []|].
  destruct (pri_gt x y) eqn:E1.
  - constructor; [|constructor; auto]. intros z [<-|Z]; auto. apply Hy in Z. rewrite pri_gt_spec in *. lia.
  - destruct (pri_gt y x) eqn:E2; [|constructor; auto]. constructor; auto. intros z Z. apply pri_insert_in in Z. destruct Z as [->|Z]; auto.
Qed.

Definition wave_i (s : wave) (l : list ask) : Prop :=
  w_num s = length l /\ (forall i o q, l = [(i, o, q)] -> w_last s = Some (i, o)) /\ desc (w_pris s) /\
  (forall p, In p (w_pris s) <-> exists i o q, In (i, o, q) l /\ prq q = p).

(** Pairs of requests of processed priorities. *)
Definition wv (l : list ask) (pd : list (Z * Z)) (mt : match_) : Prop :=
  (forall i o, m_in mt i = Some o <-> m_out mt o = Some i) /\
  (forall i o, m_in mt i = Some o -> exists q, In (i, o, q) l /\ In (prq q) pd).
Definition grows (a b : match_) : Prop := forall i o, m_in a i = Some o -> m_in b i = Some o.

Lemma wave_cells_step : forall n m l r pr pd, rq_of l r -> In pr pd ->
  forall cs fd mt, wv l pd mt -> (fd = None -> vacant mt) ->
  let '(fd', mt') := fold_left (wave_cell n m r pr) cs (fd, mt) in
  wv l pd mt' /\ (fd' = None -> vacant mt') /\ grows mt mt' /\
  (forall i o q, In (i, o) cs -> i < n -> o < m -> In (i, o, q) l -> prq q = pr -> m_in mt' i <> None \/ m_out mt' o <> None).
Proof.
  intros n m l r pr pd HR HP. induction cs as [|[i o] cs IH]; intros fd mt HW HF.
  - cbn. split; [auto|]. split; [auto|]. split; [intros i o X; auto|intros i o q []].
  - cbn [fold_left]. unfold wave_cell at 2. 
    destruct (Nat.ltb i n && Nat.ltb o m && is_none (m_in mt i) && is_none (m_out mt o) &&
      match r i o with Some q => (q_ipri q =? snd pr)%Z && (q_opri q =? fst pr)%Z | None => false end) eqn:E.
    + rewrite !andb_true_iff, !is_none_true, !Nat.ltb_lt in E. destruct E as [[[[E1 E2] E3] E4] E5].
      destruct (r i o) as [q|] eqn:Er; [|discriminate]. rewrite andb_true_iff, !Z.eqb_eq in E5. destruct E5 as [E5 E6].
      assert (Ep : prq q = pr). { destruct pr as [a b]. unfold prq. cbn in *. congruence. }
      assert (W' : wv l pd (pair_up i o mt)).
      { destruct HW as [A B]. split; [apply pair_up_agree; auto|]. intros a b. cbn [m_in pair_up]. unfold fupd.
        destruct (Nat.eqb_spec a i) as [->|Ne]; [|apply B]. intros X. injection X as <-. exists q. split; [apply HR; auto|congruence]. }
      assert (G : grows mt (pair_up i o mt)).
      { intros a b X. cbn [m_in pair_up]. unfold fupd. destruct (Nat.eqb_spec a i) as [->|Ne]; [congruence|auto]. }
      specialize (IH (match fd with None => Some (i + o) | _ => fd end) (pair_up i o mt) W').
      destruct (fold_left _ cs _) as [fd' mt']. destruct IH as [I1 [I2 [I3 I4]]].
      { destruct fd; discriminate. }
      split; [auto|]. split; [auto|]. split; [intros a b X; apply I3; apply G; auto|].
      intros a b c [X|X] Ha Hb Y Z; [|eauto]. injection X as -> ->. left. rewrite (I3 a b); [discriminate|]. cbn [m_in pair_up]. apply fupd_same.
    + specialize (IH fd mt HW HF). destruct (fold_left _ cs _) as [fd' mt']. destruct IH as [I1 [I2 [I3 I4]]].
      split; [auto|]. split; [auto|]. split; [auto|]. intros a b c [X|X] Ha Hb Y Z; [|eauto]. injection X as -> ->.
      apply HR in Y. rewrite Y in E. rewrite (proj2 (Nat.ltb_lt a n) Ha), (proj2 (Nat.ltb_lt b m) Hb) in E. cbn [andb] in E.
      assert (Eq : (q_ipri c =? snd pr)%Z && (q_opri c =? fst pr)%Z = true). { rewrite <- Z. cbn. rewrite !Z.eqb_refl. auto. }
      rewrite Eq, andb_true_r in E. destruct (m_in mt a) as [x|] eqn:Ea.
      * left. rewrite (I3 _ _ Ea). discriminate.
      * destruct (m_out mt b) as [x|] eqn:Eb; [|discriminate]. right. apply (proj1 HW) in Eb. apply I3 in Eb. apply (proj1 I1) in Eb. congruence.
Qed.

Lemma wave_cells_all : forall sq pri i o, i < sq -> o < sq -> In (i, o) (wave_cells sq pri).
Proof.
  intros sq pri i o Hi Ho. unfold wave_cells. apply in_flat_map.
  pose proof (Nat.mod_upper_bound pri sq ltac:(lia)). pose proof (Nat.div_mod pri sq ltac:(lia)).
  exists ((i + o + (sq - pri mod sq)) mod sq). split.
  - apply in_seq. pose proof (Nat.mod_upper_bound (i + o + (sq - pri mod sq)) sq). lia.
  - apply in_map_iff. exists o. split; [|apply in_seq; lia]. f_equal.
    replace (pri + (i + o + (sq - pri mod sq)) mod sq + (sq - o)) with ((i + o + (sq - pri mod sq)) mod sq + (pri + (sq - o))) by lia.
    rewrite Nat.add_mod_idemp_l by lia.
    replace (i + o + (sq - pri mod sq) + (pri + (sq - o))) with (i + (2 + pri / sq) * sq) by nia.
    rewrite Nat.mod_add by lia. apply Nat.mod_small. auto.
Qed.

Definition blocked (l : list ask) (pd : list (Z * Z)) (mt : match_) : Prop :=
  forall i o q, In (i, o, q) l -> In (prq q) pd -> exists i1 o1 q1, In (i1, o1, q1) l /\ m_in mt i1 = Some o1 /\ (i1 = i \/ o1 = o) /\ pri_le q q1.

Lemma wave_loop : forall n m l r sq pri, legal_asks n m l -> rq_of l r -> sq = Nat.max n m ->
  forall ps pd fd mt, (forall a b, In a pd -> In b ps -> pri_gt a b = true) -> desc ps -> wv l pd mt -> blocked l pd mt -> (fd = None -> vacant mt) ->
  let '(fd', mt') := fold_left (fun st pr => fold_left (wave_cell n m r pr) (wave_cells sq pri) st) ps (fd, mt) in
  wv l (pd ++ ps) mt' /\ blocked l (pd ++ ps) mt' /\ (fd' = None -> vacant mt').
Proof.
  intros n m l r sq pri HL HR Hs. induction ps as [|p ps IH]; intros pd fd mt HO HD HW HB HF.
  - cbn [fold_left]. rewrite app_nil_r. auto.
  - cbn [fold_left]. assert (HW2 : wv l (pd ++ [p]) mt).
    { destruct HW as [A B]. split; auto. intros i o X. destruct (B i o X) as [q [Y Z]]. exists q. split; auto. apply in_or_app. auto. }
    pose proof (wave_cells_step n m l r p (pd ++ [p]) HR ltac:(apply in_or_app; right; left; auto) (wave_cells sq pri) fd mt HW2 HF) as K.
    destruct (fold_left (wave_cell n m r p) (wave_cells sq pri) (fd, mt)) as [fd1 mt1]. destruct K as [K1 [K2 [K3 K4]]].
    replace (pd ++ p :: ps) with ((pd ++ [p]) ++ ps) by (rewrite <- app_assoc; reflexivity).
    inversion HD as [|p' ps' D1 D2]; subst p' ps'.
    apply IH; auto.
    + intros a b Ha Hb. apply in_app_iff in Ha. destruct Ha as [Ha|[<-|[]]]; [apply HO; [auto|right; auto]|auto].
    + intros i o q X Y. apply in_app_iff in Y. destruct Y as [Y|[Y|[]]].
      * destruct (HB i o q X Y) as [i1 [o1 [q1 [Z1 [Z2 Z3]]]]]. exists i1, o1, q1. auto.
      * destruct (asked_range _ _ _ _ _ HL (ex_intro _ q X)) as [Hi Ho].
        assert (LE : forall q1, In (prq q1) (pd ++ [p]) -> pri_le q q1).
        { intros q1 Q. apply in_app_iff in Q. destruct Q as [Q|[Q|[]]].
          - pose proof (HO _ p Q (or_introl eq_refl)) as G. rewrite Y in G. apply pri_gt_spec in G. cbn in G. unfold pri_le. lia.
          - rewrite Y in Q. unfold prq in Q. injection Q as Q1 Q2. unfold pri_le. lia. }
        destruct (K4 i o q) as [Z|Z]; auto; [apply wave_cells_all; lia| |].
        -- destruct (m_in mt1 i) as [x|] eqn:E; [|congruence]. destruct (proj2 K1 _ _ E) as [q1 [Q1 Q2]]. exists i, x, q1. auto.
        -- destruct (m_out mt1 o) as [x|] eqn:E; [|congruence]. apply (proj1 K1) in E. destruct (proj2 K1 _ _ E) as [q1 [Q1 Q2]]. exists x, o, q1. auto.
Qed.

Lemma wave_inv : forall n m skip, alloc_inv n m (wavefront n m skip) wave_i (fun s _ => wave_i s []) stable.
Proof.
  intros n m skip. constructor.
  - intros s l i o q [A [B [C D]]] HL. cbn. unfold wave_i. cbn [wave_add w_num w_last w_pris].
    split; [rewrite app_length; cbn; lia|]. split.
    + intros i' o' q' E. destruct l as [|x l]; [|destruct l; discriminate]. cbn in E. injection E as -> -> ->. auto.
    + split; [apply pri_insert_desc; auto|]. intros p. rewrite pri_insert_in, D. split.
      * intros [->|[i1 [o1 [q1 [X Y]]]]]; [exists i, o, q|exists i1, o1, q1]; (split; [apply in_or_app; cbn; auto|auto]).
      * intros [i1 [o1 [q1 [X Y]]]]. apply in_app_iff in X. destruct X as [X|[X|[]]].
        -- right. exists i1, o1, q1. auto. -- injection X as <- <- <-. left. auto.
  - intros s l r mt [A [B [C D]]] HL HR HV. cbn. unfold wave_alloc. rewrite A.
    assert (Z0 : forall x, wave_i {| w_num := 0; w_last := None; w_pris := []; w_pri := x |} []).
    { intros x. split; [reflexivity|]. split; [discriminate|]. split; [constructor|]. cbn. intros p. split; [intros []|intros [i [o [q [[] _]]]]]. }
    destruct l as [|a l].
    { cbn. exists s, mt. split; [auto|]. split; [exact (conj A (conj B (conj C D)))|]. split; [apply vacant_matching; auto|intros i o q []]. }
    cbn [length Nat.eqb].
    destruct l as [|b l].
    + cbn [length Nat.eqb]. destruct a as [[i o] q]. rewrite (B i o q eq_refl). eexists _, _. split; [reflexivity|]. split; [apply Z0|].
      destruct HV as [V1 V2]. split.
      * split; [apply pair_up_agree; auto; intros a b; rewrite V1, V2; split; discriminate|]. intros a b. cbn [m_in pair_up]. unfold fupd.
        destruct (Nat.eqb_spec a i) as [->|Ne]; [|rewrite V1; discriminate]. intros X. injection X as <-. exists q. left. auto.
      * intros a b c [X|[]]. injection X as -> -> ->. exists a, b, c. split; [left; auto|]. split; [cbn [m_in pair_up]; apply fupd_same|]. split; [auto|].
        unfold pri_le. lia.
    + cbn [length Nat.eqb]. set (l0 := a :: b :: l) in *.
      pose proof (wave_loop n m l0 r (Nat.max n m) (w_pri s) HL HR eq_refl (w_pris s) [] None mt) as K.
      destruct (fold_left _ (w_pris s) (None, mt)) as [fd mt'].
      assert (K' : wv l0 ([] ++ w_pris s) mt' /\ blocked l0 ([] ++ w_pris s) mt' /\ (fd = None -> vacant mt')).
      { apply K; [intros x y []|auto| |intros i o q X []|auto]. destruct HV as [V1 V2]. split; [intros i o; rewrite V1, V2; split; discriminate|]. intros i o. rewrite V1. discriminate. }
      clear K. destruct K' as [[K1 K2] [K3 K4]]. cbn [app] in *.
      assert (Bl : forall i o q, In (i, o, q) l0 -> exists i1 o1 q1, In (i1, o1, q1) l0 /\ m_in mt' i1 = Some o1 /\ (i1 = i \/ o1 = o) /\ pri_le q q1).
      { intros i o q X. apply K3; auto. apply D. exists i, o, q. auto. }
      destruct fd as [fd|].
      * eexists _, _. split; [reflexivity|]. split; [apply Z0|]. split; [|exact Bl]. split; [auto|]. intros i o X. destruct (K2 i o X) as [q [Y _]]. exists q. auto.
      * exfalso. destruct a as [[i o] q]. destruct (Bl i o q (or_introl eq_refl)) as [i1 [o1 [q1 [_ [X _]]]]]. destruct (K4 eq_refl) as [V _]. rewrite V in X. discriminate.
  - auto.
  - intros l mt H. apply H.
Qed.

Lemma stable_maximal : forall l mt, stable l mt -> maximal l mt.
Proof.
  intros l mt [M H] i o [q X]. destruct (H i o q X) as [i1 [o1 [q1 [_ [Y [[->| ->] _]]]]]]; [left; congruence|right].
  apply (proj1 M) in Y. congruence.
Qed.
