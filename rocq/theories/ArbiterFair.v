(** Starvation freedom of every arbiter kind, by a rank that shrinks with each grant to another input. *)
From Coq Require Import ZArith Arith Bool List Lia.
From Verif Require Import Fupd ArbiterModel ArbiterSpec ArbiterProofs.
Import ListNotations.

Inductive phase := Adding | Arbed (o : option req) | Done.

Record fair_inv (n : nat) (a : arbiter) (I : ast a -> list req -> phase -> Prop) (rank : ast a -> nat -> nat) : Prop := {
  fi_init : I (a_init a) [] Adding;
  fi_add : forall s L i id pri, I s L Adding -> i < n -> ~ In i (map r_in L) ->
    exists s', a_add a i id pri s = Some s' /\ I s' (L ++ [(i, id, pri)]) Adding /\ (forall k, rank s' k = rank s k);
  fi_arb : forall s L, I s L Adding -> exists s' o, a_arb a s = Some (s', o) /\ good L o /\ I s' L (Arbed o) /\
    a_last a s' = option_map r_in o /\ (forall k, rank s' k = rank s k);
  fi_upd : forall s L o, I s L (Arbed o) -> exists s', a_upd a s = Some s' /\ I s' L Done /\
    (o = None -> forall k, rank s' k = rank s k) /\
    (forall w q, o = Some w -> In q L -> (forall j, In j L -> (r_pri j <= r_pri q)%Z) -> r_in q <> r_in w -> rank s' (r_in q) < rank s (r_in q));
  fi_clear : forall s L p, I s L p -> I (a_clear a s) [] Adding /\ (forall k, rank (a_clear a s) k = rank s k);
  fi_bound : forall s L p k, I s L p -> k < n -> rank s k < n }.

Definition fair (n : nat) (a : arbiter) : Prop := exists I rank, fair_inv n a I rank.

(** Runs of rounds. *)
Lemma fair_adds : forall n a I rank, fair_inv n a I rank -> forall A L s, I s L Adding -> NoDup (map r_in (L ++ A)) -> Forall (fun q => r_in q < n) A ->
  exists s', arun a (map add_op A) s = Some (s', []) /\ I s' (L ++ A) Adding /\ (forall k, rank s' k = rank s k).
Proof.
  intros n a I rank H. induction A as [|[[i id] pri] A IH]; intros L s HI D F.
  - rewrite app_nil_r. exists s. auto.
  - apply Forall_cons_iff in F. destruct F as [F1 F2].
    assert (Hn : ~ In i (map r_in L)).
    { rewrite map_app in D. apply NoDup_remove_2 in D. intro C. apply D. apply in_app_iff. auto. }
    destruct (fi_add _ _ _ _ H s L i id pri HI F1 Hn) as [s1 [E1 [H1 R1]]].
    destruct (IH (L ++ [(i, id, pri)]) s1 H1) as [s2 [E2 [H2 R2]]]; [rewrite <- app_assoc; auto|auto|].
    exists s2. cbn [map arun astep add_op fst snd]. rewrite E1, E2. rewrite <- app_assoc in H2. split; [auto|]. split; [auto|]. intros k. rewrite R2. auto.
Qed.

Lemma fair_round : forall n a I rank, fair_inv n a I rank -> forall r s, I s [] Adding -> round_ok n r ->
  exists s' o, arun a (round_ops r) s = Some (s', [o]) /\ good (rq r) o /\ I s' [] Adding /\
    (forall i, wants i r -> not_granted i o -> rank s' i + (if used r then 1 else 0) <= rank s i).
Proof.
  intros n a I rank H r s HI [D F]. unfold round_ops. rewrite arun_app.
  destruct (fair_adds n a I rank H (rq r) [] s HI D F) as [s1 [E1 [H1 R1]]]. cbn [app] in H1.
  change (map (fun q : nat * Z * Z => Add (fst (fst q)) (snd (fst q)) (snd q)) (rq r)) with (map add_op (rq r)). rewrite E1.
  destruct (fi_arb _ _ _ _ H s1 (rq r) H1) as [s2 [o [E2 [G [I2 [_ R2]]]]]]. cbn [app arun astep]. rewrite E2. destruct (used r).
  - destruct (fi_upd _ _ _ _ H s2 _ o I2) as [s3 [E3 [I3 [_ R3]]]]. cbn [app arun astep]. rewrite E3.
    destruct (fi_clear _ _ _ _ H s3 _ _ I3) as [I4 R4]. eexists _, o. split; [reflexivity|]. split; [auto|]. split; [auto|].
    intros i [q [Q1 [Q2 Q3]]] N. rewrite R4. destruct o as [w|]; [|cbn in G; rewrite G in Q1; inversion Q1].
    specialize (R3 w q eq_refl Q1 Q3). rewrite Q2 in R3. rewrite R2, R1 in R3. cut (rank s3 i < rank s i); [lia|]. apply R3. intro C. apply N. cbn. congruence.
  - cbn [app arun astep]. destruct (fi_clear _ _ _ _ H s2 _ _ I2) as [I4 R4]. eexists _, o. split; [reflexivity|]. split; [auto|]. split; [auto|].
    intros i _ _. rewrite R4, R2, R1. lia.
Qed.

Lemma fair_rounds : forall n a I rank, fair_inv n a I rank -> forall l s, I s [] Adding -> Forall (round_ok n) l ->
  exists s' outs, arun a (rounds_ops l) s = Some (s', outs) /\ Forall2 (fun r o => good (rq r) o) l outs /\ I s' [] Adding /\
    (forall i, Forall (wants i) l -> Forall (not_granted i) outs -> rank s' i + length (filter used l) <= rank s i).
Proof.
  intros n a I rank H. induction l as [|r l IH]; intros s HI F.
  - exists s, []. cbn. split; [auto|]. split; [constructor|]. split; [auto|]. intros. lia.
  - apply Forall_cons_iff in F. destruct F as [F1 F2]. destruct (fair_round n a I rank H r s HI F1) as [s1 [o [E1 [G [I1 R1]]]]].
    destruct (IH s1 I1 F2) as [s2 [outs [E2 [G2 [I2 R2]]]]].
    unfold rounds_ops in *. cbn [flat_map]. rewrite arun_app, E1, E2. exists s2, (o :: outs). split; [auto|]. split; [constructor; auto|]. split; [auto|].
    intros i W N. apply Forall_cons_iff in W, N. destruct W as [W1 W2], N as [N1 N2]. specialize (R1 i W1 N1). specialize (R2 i W2 N2).
    cbn [filter]. destruct (used r); cbn [length]; lia.
Qed.

Lemma fair_starve : forall n a, fair n a -> forall pre l i, i < n -> Forall (round_ok n) (pre ++ l) -> Forall (wants i) l ->
  exists s0 outs0 s outs, arun a (rounds_ops pre) (a_init a) = Some (s0, outs0) /\ arun a (rounds_ops l) s0 = Some (s, outs) /\
    (Forall (not_granted i) outs -> length (filter used l) < n).
Proof.
  intros n a [I [rank H]] pre l i Hi F W. apply Forall_app in F. destruct F as [F1 F2].
  destruct (fair_rounds n a I rank H pre (a_init a) (fi_init _ _ _ _ H) F1) as [s0 [o0 [E0 [_ [I0 _]]]]].
  destruct (fair_rounds n a I rank H l s0 I0 F2) as [s [o [E [_ [_ R]]]]].
  exists s0, o0, s, o. split; [auto|]. split; [auto|]. intros N. specialize (R i W N). pose proof (fi_bound _ _ _ _ H s0 _ _ i I0 Hi). lia.
Qed.

(** Round robin. *)
Definition rr_finv (n : nat) (s : rr) (L : list req) (p : phase) : Prop :=
  r_ptr s < Nat.max n 1 /\ rr_inv n s L /\
  match p with
  | Adding => n > 0 -> rr_turn n (r_ptr s) s L
  | Arbed o => b_sel (r_base s) = option_map r_in o /\ match o with Some w => rr_wins n (r_ptr s) L w | None => True end
  | Done => True
  end.

Lemma rr_fair : forall n, fair n (round_robin n).
Proof.
  intros n. exists (rr_finv n), (fun s k => ring_dist n (r_ptr s) k). constructor.
  - split; [cbn; lia|]. split; [split; [apply base0_inv|reflexivity]|]. intros _. apply rr0_turn.
  - intros s L i id pri [P [H T]] Hi Hn. destruct (rr_add_turn n (r_ptr s) s L i id pri) as [s' [E T']]; auto; [lia|apply T; lia|].
    exists s'. split; [auto|]. pose proof (rt_ptr _ _ _ _ T') as X. split; [|intros; rewrite X; auto].
    split; [rewrite X; auto|]. split; [apply (rt_inv _ _ _ _ T')|]. intros _. rewrite X. auto.
  - intros s L [P [H T]]. destruct (rr_arb_inv n s L H) as [s' [o [E [G [I' [S [X Y]]]]]]]. exists s', o. split; [auto|]. split; [auto|].
    split; [|split; [auto|intros; rewrite X; auto]]. split; [rewrite X; auto|]. split; [auto|]. split; [auto|].
    destruct o as [w|]; [|auto]. rewrite X. apply T; [|auto|apply G].
    destruct G as [G _]. pose proof (proj1 (Forall_forall _ _) (bi_range _ _ _ (ri_base _ _ _ H)) _ G). cbn in *. lia.
  - intros s L o [P [H [S T]]]. cbn [a_upd round_robin]. unfold rr_upd. rewrite S. destruct o as [w|]; cbn [option_map].
    + assert (Hw : r_in w < n) by (apply (proj1 (Forall_forall _ _) (bi_range _ _ _ (ri_base _ _ _ H)) _ (proj1 T))).
      eexists. split; [reflexivity|]. rewrite (bi_size _ _ _ (ri_base _ _ _ H)). split; [|split; [discriminate|]].
      * split; [cbn; pose proof (Nat.mod_upper_bound (r_in w + 1) n); lia|]. split; [|auto]. destruct H. split; auto.
      * intros w' q E Q M N. injection E as <-. cbn [r_ptr]. destruct T as [T1 T2].
        assert (Hq : r_in q < n) by (apply (proj1 (Forall_forall _ _) (bi_range _ _ _ (ri_base _ _ _ H)) _ Q)).
        apply ring_step; auto; [lia|]. destruct (T2 q Q) as [C|[_ C]]; [|auto]. apply M in T1. lia.
    + exists s. split; [auto|]. split; [split; auto|]. split; [auto|]. discriminate.
  - intros s L p [P [H _]]. split; [|auto]. split; [auto|]. split; [eapply rr_clear_inv; eauto|]. intros _.
    split; [eapply rr_clear_inv; eauto|reflexivity|]. intros w X. discriminate.
  - intros s L p k _ Hk. apply ring_dist_lt. lia.
Qed.

(** Matrix. *)
Definition mat_rank (n : nat) (s : mat) (k : nat) : nat := length (filter (fun j => m_mat s j k) (seq 0 n)).

Definition mat_finv (n : nat) (s : mat) (L : list req) (p : phase) : Prop :=
  exists h, mat_inv n h s L /\
  match p with
  | Arbed o => b_sel (m_base s) = option_map r_in o /\ match o with Some w => mat_wins h L w | None => L = [] end
  | _ => True
  end.

Lemma filter_lt : forall A (f g : A -> bool) l x, (forall y, f y = true -> g y = true) -> In x l -> f x = false -> g x = true ->
  length (filter f l) < length (filter g l).
Proof.
  intros A f g l x H. induction l as [|y l IH]; intros Hi Fx Gx; [inversion Hi|].
  assert (W : length (filter f l) <= length (filter g l)).
  { clear - H. induction l as [|z l IH]; cbn; [lia|]. pose proof (H z). destruct (f z), (g z); cbn; try lia; exfalso; assert (false = true) by auto; discriminate. }
  cbn [filter]. destruct Hi as [->|Hi].
  - rewrite Fx, Gx. cbn. lia.
  - specialize (IH Hi Fx Gx). pose proof (H y). destruct (f y), (g y); cbn; try lia; exfalso; assert (false = true) by auto; discriminate.
Qed.

Lemma mat_fair : forall n, fair n (matrix n).
Proof.
  intros n. exists (mat_finv n), (mat_rank n). constructor.
  - exists []. split; [apply mat0_inv|auto].
  - intros s L i id pri [h [H _]] Hi Hn. destruct (mat_add_inv n h s L i id pri H Hi Hn) as [s' [X Y]]. exists s'. split; [auto|]. split; [exists h; auto|].
    intros k. cbn [a_add matrix] in X. unfold mat_add in X. destruct (base_add i id pri (m_base s)); [|discriminate]. injection X as <-. reflexivity.
  - intros s L [h [H _]]. destruct (mat_arb_inv n h s L H) as [s' [o [X [Y [Z U]]]]]. exists s', o. split; [auto|]. split; [|split; [exists h; auto|split; [auto|]]].
    + destruct o; [eapply mat_wins_good; eauto|auto].
    + intros k. unfold mat_arb in X. destruct (base_result _); [|discriminate]. injection X as <- _. reflexivity.
  - intros s L o [h [H [S T]]]. destruct (mat_upd_inv n h s L H) as [s' [X [Y _]]]. exists s'. split; [auto|]. split; [eexists; eauto|].
    unfold mat_upd in X. rewrite S in X. destruct o as [w|]; cbn [option_map] in X.
    + split; [discriminate|]. intros w' q E Q M N. injection E as <-. unfold mat_rank. destruct T as [T1 T2].
      assert (Hw : r_in w < n) by (apply (proj1 (Forall_forall _ _) (bi_range _ _ _ (mi_base _ _ _ _ H)) _ T1)).
      injection X as <-. cbn [m_mat]. apply filter_lt with (x := r_in w).
      * intros y. destruct (Nat.eqb y (r_in q)); [auto|]. destruct (Nat.eqb y (r_in w)); [discriminate|].
        destruct (Nat.eqb_spec (r_in q) (r_in w)); [congruence|auto].
      * apply in_seq. lia.
      * destruct (Nat.eqb_spec (r_in w) (r_in q)); [congruence|]. rewrite Nat.eqb_refl. auto.
      * apply (mi_ord _ _ _ _ H). destruct (T2 q Q) as [C|[_ C]]; [intros ->; auto| |auto]. apply M in T1. lia.
    + split; [|discriminate]. intros _ k. injection X as <-. auto.
  - intros s L p [h [H _]]. split; [|auto]. exists h. split; [eapply mat_clear_inv; eauto|auto].
  - intros s L p k [h [H _]] Hk. unfold mat_rank.
    assert (F : length (filter (fun j => m_mat s j k) (seq 0 n)) < length (filter (fun _ => true) (seq 0 n))).
    { apply filter_lt with (x := k); auto; [apply in_seq; lia|]. destruct (m_mat s k k) eqn:E; auto. apply (mi_ord _ _ _ _ H) in E. exfalso. eapply before_irrefl; eauto. }
    assert (X : forall l : list nat, length (filter (fun _ => true) l) = length l) by (induction l; cbn; auto). rewrite X, seq_length in F. auto.
Qed.

(** Tree. *)
Section Tree.
Variables (n groups gs : nat) (sub glob : arbiter).
Variables (I : ast sub -> list req -> phase -> Prop) (J : ast glob -> list req -> phase -> Prop).
Variables (ri : ast sub -> nat -> nat) (rj : ast glob -> nat -> nat).
Hypothesis HI : fair_inv gs sub I ri.
Hypothesis HJ : fair_inv groups glob J rj.
Hypothesis Hn : n = groups * gs.

Lemma positive : forall i, i < n -> 0 < gs /\ i / gs < groups /\ i mod gs < gs.
Proof.
  intros i H. assert (0 < gs) by (destruct gs; lia). split; [auto|]. split; [apply Nat.div_lt_upper_bound; lia|apply Nat.mod_upper_bound; lia].
Qed.

Definition strong (s : tree sub glob) (L : list req) : Prop :=
  (forall g, g < groups -> I (t_group s g) (sub_reqs gs g L) Adding) /\ J (t_global s) [] Adding.
Definition weak (s : tree sub glob) (L : list req) : Prop :=
  (forall g, g < groups -> exists p, I (t_group s g) (sub_reqs gs g L) p) /\ exists Lg p, J (t_global s) Lg p.
Definition chosen (s : tree sub glob) (L : list req) (w : req) : Prop :=
  exists Lg wg ws, J (t_global s) Lg (Arbed (Some wg)) /\ a_last glob (t_global s) = Some (r_in wg) /\
    I (t_group s (r_in wg)) (sub_reqs gs (r_in wg) L) (Arbed (Some ws)) /\
    r_in wg < groups /\ In w L /\ r_in w / gs = r_in wg /\ r_in w mod gs = r_in ws /\
    (forall q, In q L -> exists e, In e Lg /\ r_in e = r_in q / gs /\ (r_pri q <= r_pri e)%Z) /\
    (forall e, In e Lg -> exists q, In q L /\ r_pri q = r_pri e).

Definition tree_finv (s : tree sub glob) (L : list req) (p : phase) : Prop :=
  base_inv n (t_base s) L /\ t_gsize s = gs /\ t_groups s = groups /\ (forall g, t_reqs s g = length (sub_reqs gs g L)) /\
  weak s L /\ (L = [] -> strong s L) /\
  match p with
  | Adding => strong s L
  | Arbed None => L = []
  | Arbed (Some w) => b_sel (t_base s) = Some (r_in w) /\ chosen s L w
  | Done => True
  end.
Definition tree_rank (s : tree sub glob) (i : nat) : nat := ri (t_group s (i / gs)) (i mod gs) * groups + rj (t_global s) (i / gs).

Lemma strong_weak : forall s L, strong s L -> weak s L.
Proof. intros s L [A B]. split; [intros g Hg; eauto|eauto]. Qed.

Lemma tree_fadd : forall s L i id pri, tree_finv s L Adding -> i < n -> ~ In i (map r_in L) ->
  exists s', tree_add i id pri s = Some s' /\ tree_finv s' (L ++ [(i, id, pri)]) Adding /\ (forall k, tree_rank s' k = tree_rank s k).
Proof.
  intros s L i id pri [B [GS [GN [R [_ [_ [G K]]]]]]] Hi Hf. unfold tree_add. destruct (positive i Hi) as [P1 [P2 P3]].
  destruct (base_add_inv n _ L i id pri B Hi Hf) as [b [E [B' Sb]]]. rewrite E, GS.
  destruct (fi_add _ _ _ _ HI _ _ (i mod gs) id pri (G _ P2) P3 (sub_reqs_fresh gs L i P1 Hf)) as [x [E2 [G3 R3]]]. rewrite E2.
  eexists. split; [reflexivity|].
  assert (St : strong {| t_base := b; t_gsize := gs; t_groups := t_groups s; t_group := fupd (t_group s) (i / gs) x; t_global := t_global s;
    t_reqs := fupd (t_reqs s) (i / gs) (S (t_reqs s (i / gs))) |} (L ++ [(i, id, pri)])).
  { split; [|exact K]. cbn. intros g Hg. unfold fupd. rewrite sub_reqs_snoc. rewrite (Nat.eqb_sym (i / gs) g). destruct (Nat.eqb_spec g (i / gs)) as [->|N]; auto. }
  split.
  - split; [exact B'|]. split; [reflexivity|]. split; [exact GN|]. split; [|split; [apply strong_weak; auto|auto]].
    intros g. cbn. unfold fupd. rewrite sub_reqs_snoc. rewrite (Nat.eqb_sym (i / gs) g). destruct (Nat.eqb_spec g (i / gs)) as [->|N]; [rewrite app_length, R; cbn; lia|auto].
  - intros k. unfold tree_rank. cbn. unfold fupd. destruct (Nat.eqb_spec (k / gs) (i / gs)) as [Ek|Nk]; [rewrite R3, Ek; auto|auto].
Qed.

Lemma collect_finv : forall L reqs gl group global Lg, NoDup gl -> (forall g, In g gl -> g < groups) ->
  (forall g, reqs g = length (sub_reqs gs g L)) ->
  (forall g, In g gl -> I (group g) (sub_reqs gs g L) Adding) -> J global Lg Adding -> (forall g, In g gl -> ~ In g (map r_in Lg)) ->
  exists group' global' Lw, tree_collect gl reqs group global = Some (group', global') /\ J global' (Lg ++ Lw) Adding /\
    (forall g, ~ In g gl -> group' g = group g) /\
    (forall q, In q Lw -> In (r_in q) gl /\ exists w, good (sub_reqs gs (r_in q) L) (Some w) /\ I (group' (r_in q)) (sub_reqs gs (r_in q) L) (Arbed (Some w)) /\
        a_last sub (group' (r_in q)) = Some (r_in w) /\ snd (fst q) = snd (fst w) /\ snd q = snd w) /\
    (forall g, In g gl -> (sub_reqs gs g L = [] /\ group' g = group g) \/
       exists w, good (sub_reqs gs g L) (Some w) /\ I (group' g) (sub_reqs gs g L) (Arbed (Some w)) /\ a_last sub (group' g) = Some (r_in w) /\
         In (g, snd (fst w), snd w) Lw) /\
    (forall g k, ri (group' g) k = ri (group g) k) /\ (forall k, rj global' k = rj global k).
Proof.
  intros L reqs. induction gl as [|g gl IH]; intros group global Lg D Hr Rq HG HJ0 HF.
  - exists group, global, []. cbn. rewrite app_nil_r. repeat split; auto; contradiction.
  - apply NoDup_cons_iff in D. destruct D as [D1 D2]. cbn [tree_collect].
    destruct (sub_reqs gs g L) as [|q0 Ls] eqn:Es.
    + rewrite Rq, Es. cbn [length Nat.eqb].
      destruct (IH group global Lg D2 (fun x X => Hr x (or_intror X)) Rq (fun x X => HG x (or_intror X)) HJ0 (fun x X => HF x (or_intror X))) as [gr [gl' [Lw [A [B [C [E [F RR]]]]]]]].
      exists gr, gl', Lw. split; [auto|]. split; [auto|]. split; [intros x X; apply C; intro Y; apply X; right; auto|]. split; [intros q X; destruct (E q X) as [X1 X2]; split; [right; auto|auto]|].
      split; [|auto]. intros x [<-|X]; [|auto]. left. rewrite C by auto. auto.
    + rewrite Rq, Es. cbn [length Nat.eqb].
      destruct (fi_arb _ _ _ _ HI (group g) (sub_reqs gs g L) (HG g (or_introl eq_refl))) as [x [o [E1 [G1 [I1 [L1 RA]]]]]]. rewrite E1.
      destruct o as [w|]; [|cbn in G1; congruence]. destruct w as [[j id] p].
      destruct (fi_add _ _ _ _ HJ global Lg g id p HJ0 (Hr g (or_introl eq_refl)) (HF g (or_introl eq_refl))) as [y [E2 [J2 RB]]]. rewrite E2.
      destruct (IH (fupd group g x) y (Lg ++ [(g, id, p)]) D2 (fun x X => Hr x (or_intror X)) Rq) as [gr [gl' [Lw [A [B [C [E [F [R1 R2]]]]]]]]].
      * intros k K. rewrite fupd_other; [apply HG; right; auto|]. intros ->. auto.
      * auto.
      * intros k K X. rewrite map_app in X. apply in_app_iff in X. destruct X as [X|[X|[]]]; [eapply HF; [right; eauto|auto]|]. cbn in X. subst. auto.
      * exists gr, gl', ((g, id, p) :: Lw). split; [auto|]. split; [rewrite <- app_assoc in B; auto|]. split.
        { intros k K. rewrite C; [|intro X; apply K; right; auto]. apply fupd_other. intros ->. apply K. left. auto. }
        split.
        { intros q [<-|X]; [|destruct (E q X) as [X1 X2]; split; [right; auto|auto]]. split; [left; auto|]. exists (j, id, p).
          cbn [r_in fst snd]. rewrite C by auto. rewrite fupd_same. auto. }
        split.
        { intros k [<-|K].
          -- right. exists (j, id, p). split; [auto|]. rewrite C by auto. rewrite fupd_same. split; [auto|]. split; [auto|]. left. auto.
          -- destruct (F k K) as [[F1 F2]|[w [F1 [F2 [F3 F4]]]]].
             ++ left. split; auto. rewrite F2. apply fupd_other. intros ->. auto.
             ++ right. exists w. split; [auto|]. split; [auto|]. split; [auto|right; auto]. }
        split; [|intros k; rewrite R2; auto]. intros k m. rewrite R1. unfold fupd. destruct (Nat.eqb_spec k g) as [->|]; auto.
Qed.

Lemma tree_farb : forall s L, tree_finv s L Adding -> exists s' o, tree_arb s = Some (s', o) /\ good L o /\ tree_finv s' L (Arbed o) /\
  b_sel (t_base s') = option_map r_in o /\ (forall k, tree_rank s' k = tree_rank s k).
Proof.
  intros s L H. pose proof H as [B [GS [GN [R [WK [SE [G K]]]]]]]. unfold tree_arb. rewrite (bi_num _ _ _ B). destruct L as [|q0 L0].
  - cbn [length Nat.eqb]. exists s, None. split; [auto|]. split; [reflexivity|]. split; [|split; [cbn; apply (bi_sel _ _ _ B); auto|auto]].
    split; [auto|]. split; [auto|]. split; [auto|]. split; [auto|]. auto.
  - set (L := q0 :: L0) in *. cbn [length Nat.eqb L]. rewrite GN.
    assert (HG : forall g, In g (seq 0 groups) -> I (t_group s g) (sub_reqs gs g L) Adding).
    { intros g Hg. apply in_seq in Hg. apply G. lia. }
    destruct (collect_finv L (t_reqs s) (seq 0 groups) (t_group s) (t_global s) [] (seq_NoDup _ _)) as [gr [gl [Lw [E [Jw [C [Ew [F [R1 R2]]]]]]]]]; auto.
    { intros g X. apply in_seq in X. lia. }
    rewrite E. cbn [app] in Jw. destruct (fi_arb _ _ _ _ HJ gl Lw Jw) as [gl' [o [E1 [Go [J1 [L1 R3]]]]]]. rewrite E1.
    assert (FL : forall q, In q L -> exists w, In (r_in q / gs, snd (fst w), snd w) Lw /\ (r_pri q <= r_pri w)%Z).
    { intros [[i id] p] Q. assert (Hi : i < n) by (apply (proj1 (Forall_forall _ _) (bi_range _ _ _ B) _ Q)). destruct (positive i Hi) as [P1 [P2 P3]].
      assert (Q' : In (i mod gs, id, p) (sub_reqs gs (i / gs) L)) by (apply sub_reqs_in; eauto).
      change (r_in (i, id, p)) with i. destruct (F (i / gs)) as [[F1 _]|[w [F1 [F2 [F3 F4]]]]]; [apply in_seq; lia|rewrite F1 in Q'; inversion Q'|].
      exists w. split; [auto|]. destruct F1 as [_ F1]. apply F1 in Q'. exact Q'. }
    destruct o as [[[g id] p]|].
    2:{ exfalso. cbn in Go. destruct (FL q0) as [w [X _]]; [left; auto|]. rewrite Go in X. inversion X. }
    destruct Go as [Go1 Go2]. destruct (Ew _ Go1) as [Hg [w [Gw [Iw [Lw1 [Q1 Q2]]]]]]. cbn [r_in fst snd] in *. apply in_seq in Hg.
    rewrite (proj2 (Nat.ltb_lt g groups)) by lia. rewrite Lw1.
    destruct w as [[j idw] pw]. cbn [r_in fst snd] in *. subst idw pw. destruct Gw as [Gw1 Gw2].
    apply sub_reqs_in in Gw1. destruct Gw1 as [i [Iq [D1 D2]]].
    assert (Hi : i < n) by (apply (proj1 (Forall_forall _ _) (bi_range _ _ _ B) _ Iq)). destruct (positive i Hi) as [P1 [P2 P3]].
    assert (Ei : g * gs + j = i) by (rewrite <- D1, <- D2; rewrite (Nat.div_mod i gs) at 3 by lia; lia).
    rewrite GS, Ei, (bi_size _ _ _ B). rewrite (proj2 (Nat.ltb_lt j gs)) by (rewrite <- D2; auto). rewrite (proj2 (Nat.ltb_lt i n)) by auto. cbn [andb].
    destruct (base_result_inv n _ L (i, id, p) B Iq) as [X Y]. change (r_in (i, id, p)) with i in X, Y. rewrite Y.
    eexists _, _. split; [reflexivity|]. split.
    { split; [auto|]. intros q Q. destruct (FL q Q) as [w [W1 W2]]. apply Go2 in W1. unfold r_pri in *. cbn [snd] in *. lia. }
    split; [|split; [reflexivity|]].
    + split; [exact X|]. split; [reflexivity|]. split; [reflexivity|]. split; [auto|]. split; [|split; [discriminate|]].
      * split; cbn; [|eauto]. intros k Hk. destruct (F k) as [[F1 F2]|[w [F1 [F2 [F3 F4]]]]]; [apply in_seq; lia| |eauto].
        exists Adding. rewrite F2. apply HG. apply in_seq. lia.
      * split; [reflexivity|]. exists Lw, (g, id, p), (j, id, p). cbn. split; [auto|]. split; [auto|]. split; [auto|]. split; [lia|]. split; [auto|]. split; [auto|]. split; [auto|].
        split.
        -- intros q Q. destruct (FL q Q) as [w [W1 W2]]. eexists. split; [exact W1|]. split; [reflexivity|exact W2].
        -- intros e He. destruct (Ew e He) as [_ [w [[W1 _] [_ [_ [W3 W4]]]]]]. destruct w as [[x y] z]. apply sub_reqs_in in W1. destruct W1 as [i' [W1 _]].
           exists (i', y, z). split; [auto|]. cbn in *. unfold r_pri. cbn. auto.
    + intros k. unfold tree_rank. cbn. rewrite R1, R3, R2. auto.
Qed.

Lemma tree_fupd_ : forall s L o, tree_finv s L (Arbed o) -> exists s', tree_upd s = Some s' /\ tree_finv s' L Done /\
    (o = None -> forall k, tree_rank s' k = tree_rank s k) /\
    (forall w q, o = Some w -> In q L -> (forall j, In j L -> (r_pri j <= r_pri q)%Z) -> r_in q <> r_in w -> tree_rank s' (r_in q) < tree_rank s (r_in q)).
Proof.
  intros s L o [B [GS [GN [R [WK [SE P]]]]]]. unfold tree_upd. destruct o as [w|].
  - destruct P as [S [Lg [wg [ws [K1 [K2 [K3 [K4 [K5 [K6 [K7 [K8 K9]]]]]]]]]]]]. rewrite S, K2, GN, (proj2 (Nat.ltb_lt _ groups) K4).
    destruct (fi_upd _ _ _ _ HI _ _ _ K3) as [x [E1 [I1 [_ RX]]]]. destruct (fi_upd _ _ _ _ HJ _ _ _ K1) as [y [E2 [J1 [_ RY]]]].
    rewrite E1, E2. eexists. split; [reflexivity|]. split; [|split; [discriminate|]].
    + split; [exact B|]. split; [exact GS|]. split; [reflexivity|]. split; [exact R|]. split; [|split; [|auto]].
      * split; cbn; [|eauto]. intros k Hk. unfold fupd. destruct (Nat.eqb_spec k (r_in wg)) as [->|N]; [eauto|]. destruct WK as [WK _]. auto.
      * intros ->. inversion K5.
    + intros w' q E Q M N. injection E as <-. unfold tree_rank. cbn [t_group t_global].
      assert (Hq : r_in q < n) by (apply (proj1 (Forall_forall _ _) (bi_range _ _ _ B) _ Q)). destruct (positive _ Hq) as [P1 [P2 P3]].
      unfold fupd. destruct (Nat.eqb_spec (r_in q / gs) (r_in wg)) as [Eg|Ng].
      * assert (A : ri x (r_in q mod gs) < ri (t_group s (r_in wg)) (r_in q mod gs)).
        { destruct q as [[i id] p]. cbn [r_in fst] in *. apply (RX ws (i mod gs, id, p) eq_refl).
          - apply sub_reqs_in. eauto.
          - intros [[j jd] jp] Hj. apply sub_reqs_in in Hj. destruct Hj as [j' [Hj _]]. apply M in Hj. exact Hj.
          - cbn. rewrite <- K7. intro C. apply N. rewrite (Nat.div_mod i gs), (Nat.div_mod (r_in w) gs) by lia. rewrite Eg, K6, C. auto. }
        pose proof (fi_bound _ _ _ _ HJ y _ _ (r_in q / gs) J1 P2). rewrite Eg in *. nia.
      * destruct (K8 q Q) as [e [E3 [E4 E5]]].
        assert (A : rj y (r_in q / gs) < rj (t_global s) (r_in q / gs)).
        { rewrite <- E4. apply (RY wg e eq_refl); auto; [|congruence]. intros e' He'. destruct (K9 e' He') as [q' [Q1 Q2]]. apply M in Q1. lia. }
        lia.
  - subst L. exists s. rewrite (bi_sel _ _ _ B eq_refl). split; [auto|]. split; [|split; [auto|discriminate]].
    split; [auto|]. split; [auto|]. split; [auto|]. split; [auto|]. auto.
Qed.

Lemma tree_fclear : forall s L p, tree_finv s L p -> tree_finv (tree_clear s) [] Adding /\ (forall k, k < n -> tree_rank (tree_clear s) k = tree_rank s k).
Proof.
  intros s L p [B [GS [GN [R [[WK1 [Lg [pg WK2]]] [SE _]]]]]]. unfold tree_clear. rewrite (bi_num _ _ _ B). destruct L as [|q0 L0].
  - cbn [length Nat.eqb]. split; [|auto]. split; [auto|]. split; [auto|]. split; [auto|]. split; [auto|]. split; [apply strong_weak; auto|auto].
  - cbn [length Nat.eqb]. destruct (base_clear_inv n _ _ B) as [B1 B2].
    assert (St : strong {| t_base := base_clear (t_base s); t_gsize := t_gsize s; t_groups := t_groups s; t_group := fun g => a_clear sub (t_group s g);
       t_global := a_clear glob (t_global s); t_reqs := fun _ => 0 |} []).
    { split; cbn; [|apply (fi_clear _ _ _ _ HJ _ _ _ WK2)]. intros g Hg. destruct (WK1 g Hg) as [p1 X]. apply (fi_clear _ _ _ _ HI _ _ _ X). }
    split.
    + split; [exact B1|]. split; [exact GS|]. split; [exact GN|]. split; [reflexivity|]. split; [apply strong_weak; auto|auto].
    + intros k Hk. unfold tree_rank. cbn. rewrite (proj2 (fi_clear _ _ _ _ HJ _ _ _ WK2)). destruct (positive k Hk) as [P1 [P2 P3]].
      destruct (WK1 _ P2) as [p1 X]. rewrite (proj2 (fi_clear _ _ _ _ HI _ _ _ X)). auto.
Qed.

Lemma tree_fair_sec : 0 < groups -> fair n (tree_arbiter sub glob n groups).
Proof.
  intros Pg. exists tree_finv, (fun s k => if Nat.ltb k n then tree_rank s k else 0). constructor.
  - assert (St : strong (tree0 sub glob n groups) []).
    { split; cbn; [|apply (fi_init _ _ _ _ HJ)]. intros g Hg. apply (fi_init _ _ _ _ HI). }
    split; [apply base0_inv|]. split; [cbn; rewrite Hn, Nat.mul_comm; apply Nat.div_mul; lia|]. split; [reflexivity|]. split; [reflexivity|]. split; [apply strong_weak; auto|auto].
  - intros s L i id pri H Hi Hf. destruct (tree_fadd s L i id pri H Hi Hf) as [s' [A [B C]]]. exists s'. split; [auto|]. split; [auto|]. intros k. rewrite C. auto.
  - intros s L H. destruct (tree_farb s L H) as [s' [o [A [B [C [D E]]]]]]. exists s', o. split; [auto|]. split; [auto|]. split; [auto|]. split; [auto|]. intros k. rewrite E. auto.
  - intros s L o H. pose proof H as [B _]. destruct (tree_fupd_ s L o H) as [s' [A [C [D E]]]]. exists s'. split; [auto|]. split; [auto|].
    split; [intros X k; rewrite (D X); auto|]. intros w q X Q M N. assert (Hq : r_in q < n) by (apply (proj1 (Forall_forall _ _) (bi_range _ _ _ B) _ Q)).
    rewrite (proj2 (Nat.ltb_lt _ _) Hq). eapply E; eauto.
  - intros s L p H. destruct (tree_fclear s L p H) as [A B]. split; [auto|]. intros k. cbn [a_clear tree_arbiter]. destruct (Nat.ltb_spec k n); auto.
  - intros s L p k [_ [_ [_ [_ [[W1 [Lg [pg W2]]] _]]]]] Hk. rewrite (proj2 (Nat.ltb_lt _ _) Hk). unfold tree_rank. destruct (positive k Hk) as [P1 [P2 P3]].
    destruct (W1 _ P2) as [p1 X]. pose proof (fi_bound _ _ _ _ HI _ _ _ _ X P3). pose proof (fi_bound _ _ _ _ HJ _ _ _ _ W2 P2). nia.
Qed.
End Tree.

Lemma new_arbiter_fair : forall k n a, new_arbiter k n = Some a -> fair n a.
Proof.
  induction k as [| |g k IH]; intros n a E; cbn [new_arbiter] in E.
  - injection E as <-. apply rr_fair.
  - injection E as <-. apply mat_fair.
  - destruct (Nat.eqb_spec g 0); [discriminate|]. destruct (Nat.eqb_spec (n mod g) 0) as [Hm|]; [|discriminate].
    destruct (new_arbiter k (n / g)) as [x|] eqn:E1; [|discriminate]. destruct (new_arbiter k g) as [y|] eqn:E2; [|discriminate].
    injection E as <-. destruct (IH _ _ E1) as [I [ri HI]]. destruct (IH _ _ E2) as [J [rj HJ]].
    eapply tree_fair_sec; eauto; [|lia]. rewrite (Nat.div_mod n g) at 1 by lia. lia.
Qed.
