From Coq Require Import ZArith Bool List String Lia FinFun.
From Verif Require Import Fupd ZMap PlacementModel PlacementSpec.
Import ListNotations.

Lemma sfupd_same : forall A (f : string -> A) k x, sfupd f k x k = x.
Proof. intros. unfold sfupd. rewrite String.eqb_refl. reflexivity. Qed.

Lemma sfupd_other : forall A (f : string -> A) k x j, j <> k -> sfupd f k x j = f j.
Proof. intros. unfold sfupd. apply String.eqb_neq in H. rewrite H. reflexivity. Qed.

Lemma seqf_app : forall A S (f : A -> S -> option S) l1 l2 s,
  seqf f (l1 ++ l2) s = match seqf f l1 s with Some s' => seqf f l2 s' | None => None end.
Proof. induction l1; intros; cbn; auto. destruct (f a s); auto. Qed.

Definition at_node (s : pst) (c : nat) (d : Z) := mfind d (ports s c).
Definition mm_node (s : pst) (c : nat) (d : Z) := mfind d (ismm s c).
Definition olist (o : option (list string)) : list string := match o with Some l => l | None => [] end.

Definition same_elsewhere (s s' : pst) (c : nat) (d : Z) : Prop :=
  forall c' d', ~ (c' = c /\ d' = d) -> at_node s' c' d' = at_node s c' d' /\ mm_node s' c' d' = mm_node s c' d'.
Definition sorted_st (s : pst) : Prop := forall c, msorted (ports s c).
Definition placed_as (s s' : pst) (c : nat) (d : Z) (L : list string) : Prop :=
  forall p, (In p L -> placement s' p = Some (c, d, 0%nat)) /\ (~ In p L -> placement s' p = placement s p).

Lemma at_upd : forall s pl mm c d v, sorted_st s ->
  let s' := {| placement := pl; ports := fupd (ports s) c (mset d v (ports s c)); ismm := mm |} in
  at_node s' c d = Some v /\ (forall c' d', ~ (c' = c /\ d' = d) -> at_node s' c' d' = at_node s c' d') /\ sorted_st s'.
Proof.
  intros s pl mm c d v S s'. unfold at_node, s'. cbn [ports]. split; [rewrite fupd_same; apply mfind_set_same|]. split.
  - intros c' d' N. destruct (Nat.eq_dec c' c) as [->|E].
    + rewrite fupd_same. apply mfind_set_other. intros ->. auto.
    + rewrite fupd_other by auto. auto.
  - intros c'. cbn [ports]. destruct (Nat.eq_dec c' c) as [->|E].
    + rewrite fupd_same. apply mset_sorted. apply S.
    + rewrite fupd_other by auto. apply S.
Qed.

Lemma mm_mark : forall s c d b,
  mm_node (mark c d b s) c d = Some b /\
  (forall c' d', ~ (c' = c /\ d' = d) -> mm_node (mark c d b s) c' d' = mm_node s c' d') /\
  ports (mark c d b s) = ports s /\ placement (mark c d b s) = placement s.
Proof.
  intros. unfold mm_node, mark. cbn [ismm ports placement]. split; [rewrite fupd_same; apply mfind_set_same|]. split; auto.
  intros c' d' N. destruct (Nat.eq_dec c' c) as [->|E].
  - rewrite fupd_same. apply mfind_set_other. intros ->. auto.
  - rewrite fupd_other by auto. auto.
Qed.

Lemma axis_run : forall c d l s s', seqf (place_axis c d) l s = Some s' -> sorted_st s ->
  sorted_st s' /\ ismm s' = ismm s /\ placed_as s s' c d l /\ same_elsewhere s s' c d /\
  (l <> [] -> mm_node s c d <> Some true /\ at_node s' c d = Some (olist (at_node s c d) ++ l)) /\
  (l = [] -> s' = s).
Proof.
  induction l as [|p l IH]; intros s s' H S.
  - cbn in H. inversion H; subst. split; auto. split; auto. split; [intros p; split; [intros []|auto]|].
    split; [intros c' d' _; auto|]. split; [congruence|auto].
  - cbn in H. unfold place_axis in H at 1.
    set (v := match mfind d (ports s c) with Some l0 => l0 ++ [p] | None => [p] end) in H.
    set (s1 := {| placement := sfupd (placement s) p (Some (c, d, 0%nat)); ports := fupd (ports s) c (mset d v (ports s c)); ismm := ismm s |}) in H.
    assert (M : mm_node s c d <> Some true /\ seqf (place_axis c d) l s1 = Some s').
    { unfold mm_node. destruct (mfind d (ismm s c)) as [[]|]; try discriminate H; split; auto; discriminate. }
    clear H. destruct M as [M H].
    destruct (at_upd s (sfupd (placement s) p (Some (c, d, 0%nat))) (ismm s) c d v S) as (A1 & A2 & A3).
    fold s1 in A1, A2, A3.
    destruct (IH s1 s' H A3) as (B1 & B2 & B3 & B4 & B5 & B6).
    split; auto. split; [rewrite B2; reflexivity|]. split; [|split; [|split]].
    + intros q. destruct (B3 q) as [Q1 Q2]. split.
      * intros [->|Hq].
        -- destruct (in_dec string_dec q l); auto. rewrite Q2 by auto. unfold s1. cbn. apply sfupd_same.
        -- auto.
      * intros N. rewrite Q2 by (intros X; apply N; right; auto). unfold s1. cbn. apply sfupd_other. intros ->. apply N. left; auto.
    + intros c' d' N. destruct (B4 c' d' N) as [X Y]. rewrite X, Y, A2 by auto. auto.
    + intros _. split; auto.
      assert (V : v = olist (at_node s c d) ++ [p]) by (unfold v, at_node; destruct (mfind d (ports s c)); auto).
      destruct l as [|q l].
      * rewrite (B6 eq_refl). rewrite A1, V. auto.
      * destruct B5 as [_ B5]; [discriminate|]. rewrite B5, A1. cbn [olist]. rewrite V, <- app_assoc. auto.
    + discriminate.
Qed.

Lemma axis_line : forall c d l s s1 s', seqf (place_axis c d) l s = Some s1 -> s' = mark c d false s1 -> sorted_st s -> l <> [] ->
  sorted_st s' /\ placed_as s s' c d l /\ same_elsewhere s s' c d /\ mm_node s c d <> Some true /\
  mm_node s' c d = Some false /\ at_node s' c d = Some (olist (at_node s c d) ++ l).
Proof.
  intros c d l s s1 s' H -> S N. destruct (axis_run c d l s s1 H S) as (B1 & B2 & B3 & B4 & B5 & B6).
  destruct (mm_mark s1 c d false) as (M1 & M2 & M3 & M4). destruct (B5 N) as [B7 B8].
  split; [intros x; rewrite M3; apply B1|]. split; [intros p; rewrite M4; apply B3|]. split.
  - intros c' d' X. rewrite M2 by auto. unfold at_node at 1. rewrite M3. apply B4; auto.
  - split; [exact B7|]. split; [exact M1|]. unfold at_node at 1. rewrite M3. exact B8.
Qed.

Lemma mm_single : forall c d p s s', sorted_st s -> mm_node s c d = None ->
  s' = mark c d true {| placement := sfupd (placement s) p (Some (c, d, 0%nat)); ports := fupd (ports s) c (mset d [p] (ports s c)); ismm := ismm s |} ->
  sorted_st s' /\ placed_as s s' c d [p] /\ same_elsewhere s s' c d /\
  mm_node s' c d = Some true /\ at_node s' c d = Some [p].
Proof.
  intros c d p s s' S N ->.
  set (s1 := {| placement := sfupd (placement s) p (Some (c, d, 0%nat)); ports := fupd (ports s) c (mset d [p] (ports s c)); ismm := ismm s |}).
  destruct (at_upd s (sfupd (placement s) p (Some (c, d, 0%nat))) (ismm s) c d [p] S) as (A1 & A2 & A3). fold s1 in A1, A2, A3.
  destruct (mm_mark s1 c d true) as (M1 & M2 & M3 & M4).
  split; [intros x; rewrite M3; apply A3|]. split; [|split; [|split]]; auto.
  - intros q. rewrite M4. cbn [placement s1]. split.
    + intros [->|[]]. apply sfupd_same.
    + intros X. apply sfupd_other. intros ->. apply X. left; auto.
  - intros c' d' X. rewrite M2 by auto. unfold at_node at 1. rewrite M3. split; auto. apply A2; auto.
Qed.

(** Marks exist for every node with ports. *)
Definition marked (s : pst) : Prop := forall c d, at_node s c d <> None -> mm_node s c d <> None.

Lemma mm_mod_run : forall c d l s s', seqf (place_mm_mod c d) l s = Some s' -> sorted_st s -> marked s ->
  (l = [] /\ s' = s) \/
  (exists p, l = [p] /\ mm_node s c d = None /\
     s' = mark c d true {| placement := sfupd (placement s) p (Some (c, d, 0%nat)); ports := fupd (ports s) c (mset d [p] (ports s c)); ismm := ismm s |}).
Proof.
  intros c d l s s' H S K. destruct l as [|p l]; cbn in H; [left; inversion H; auto|]. right.
  unfold place_mm_mod in H at 1. destruct (mfind d (ismm s c)) eqn:E; [discriminate|].
  destruct (mfind d (ports s c)) eqn:F.
  { exfalso. apply (K c d); [unfold at_node; rewrite F; discriminate|exact E]. }
  cbn [placement] in H.
  set (s1 := mark c d true _) in H. destruct l as [|q l].
  - cbn in H. inversion H. exists p. split; auto.
  - cbn in H. unfold place_mm_mod in H at 1.
    assert (X : mm_node s1 c d = Some true) by apply mm_mark. unfold mm_node in X. rewrite X in H. discriminate.
Qed.

Lemma line_sem : forall nn mods ln s s', parse_line nn mods ln s = Some s' -> sorted_st s -> marked s ->
  (line_axis ln = true -> line_ports mods ln <> []) ->
  let c := line_noc ln in let d := line_node ln in let L := line_ports mods ln in
  (c < nn)%nat /\ sorted_st s' /\ placed_as s s' c d L /\ same_elsewhere s s' c d /\
  (if line_axis ln then mm_node s c d <> Some true /\ mm_node s' c d = Some false /\ at_node s' c d = Some (olist (at_node s c d) ++ L)
   else (L = [] /\ s' = s) \/ (exists p, L = [p] /\ mm_node s c d = None /\ mm_node s' c d = Some true /\ at_node s' c d = Some [p])).
Proof.
  intros nn mods ln s s' H S K NE c d L. destruct ln as [p noc node axis|m noc node axis];
    cbn [parse_line line_noc line_node line_axis] in *.
  - destruct (Nat.ltb_spec noc nn); [|discriminate]. split; auto. unfold L; cbn [line_ports]. destruct axis.
    + destruct (place_axis noc node p s) as [s1|] eqn:E; [|discriminate]. cbn in H. inversion H; subst; clear H.
      destruct (axis_line noc node [p] s s1 (mark noc node false s1)) as (B1 & B2 & B3 & B4 & B5 & B6);
        [cbn; rewrite E; auto|auto|auto|discriminate|]. split; [exact B1|]. split; [exact B2|]. split; [exact B3|]. auto.
    + unfold place_mm in H. destruct (mfind node (ismm s noc)) eqn:E; [discriminate|]. inversion H; subst; clear H.
      destruct (mm_single noc node p s _ S E eq_refl) as (B1 & B2 & B3 & B4 & B5).
      split; auto. split; auto. split; auto. right. exists p. auto.
  - destruct (Nat.ltb_spec noc nn); [|discriminate]. split; auto. unfold L; cbn [line_ports] in *.
    destruct (mods m) as [x|] eqn:Em; [|discriminate]. destruct axis.
    + destruct (seqf (place_axis noc node) (m_axs x) s) as [s1|] eqn:E1; [|discriminate].
      destruct (seqf (place_axis noc node) (m_axm x) s1) as [s2|] eqn:E2; [|discriminate]. cbn in H. inversion H; subst; clear H.
      destruct (axis_line noc node (m_axs x ++ m_axm x) s s2 (mark noc node false s2)) as (B1 & B2 & B3 & B4 & B5 & B6);
        [rewrite seqf_app, E1; auto|auto|auto|auto|]. split; [exact B1|]. split; [exact B2|]. split; [exact B3|]. auto.
    + assert (G : seqf (place_mm_mod noc node) (zeroth (m_mms x) ++ zeroth (m_mmm x)) s = Some s').
      { rewrite seqf_app. destruct (seqf _ (zeroth (m_mms x)) s); [exact H|discriminate H]. }
      destruct (mm_mod_run _ _ _ _ _ G S K) as [[A ->]|(p & A & B & ->)].
      * apply app_eq_nil in A. destruct A as [A1 A2]. unfold zeroth in A1, A2.
        apply map_eq_nil in A1. apply map_eq_nil in A2. rewrite A1, A2. cbn.
        split; auto. split; [intros q; split; [intros []|auto]|]. split; [intros ? ? _; auto|]. left. auto.
      * assert (Z1 : m_mms x ++ m_mmm x = [p]).
        { unfold zeroth in A. destruct (m_mms x) as [|a [|b l]], (m_mmm x) as [|a' [|b' l']]; cbn in *; inversion A; auto. }
        rewrite Z1. destruct (mm_single noc node p s _ S B eq_refl) as (B1 & B2 & B3 & B4 & B5).
        split; auto. split; auto. split; auto. right. exists p. auto.
Qed.

Record pinv (mods : string -> option mdesc) (f : list line) (s : pst) : Prop := {
  i_sorted : sorted_st s;
  i_marked : marked s;
  i_puts : forall p c d a, puts mods f p c d a -> mm_node s c d = Some (negb a) /\ In p (olist (at_node s c d));
  i_back : forall p c d, In p (olist (at_node s c d)) -> exists a, puts mods f p c d a;
  i_one : forall c d, mm_node s c d = Some true -> exists p, at_node s c d = Some [p];
  i_ne : forall c d, at_node s c d <> Some [];
  i_place : forall p c d i, placement s p = Some (c, d, i) -> In p (olist (at_node s c d));
  i_dup : NoDup (all_ports mods f) ->
     (forall c d, NoDup (olist (at_node s c d))) /\
     (forall p c d, In p (olist (at_node s c d)) -> placement s p = Some (c, d, 0%nat)) }.

Lemma puts_app : forall mods f l p c d a, puts mods (f ++ [l]) p c d a <->
  puts mods f p c d a \/ (In p (line_ports mods l) /\ line_noc l = c /\ line_node l = d /\ line_axis l = a).
Proof.
  intros. unfold puts. split.
  - intros (x & A & B). apply in_app_iff in A. destruct A as [A|[<-|[]]]; [left; exists x; auto|right; auto].
  - intros [(x & A & B)|B]; [exists x|exists l]; rewrite in_app_iff; cbn; auto.
Qed.

Lemma puts_ports : forall mods f p c d a, puts mods f p c d a -> In p (all_ports mods f).
Proof. intros mods f p c d a (l & A & B & _). apply in_flat_map. eauto. Qed.

Lemma pinv_init : forall mods, pinv mods [] pst0.
Proof.
  intros. constructor; unfold at_node, mm_node; cbn; try congruence; try tauto.
  - intros c. constructor.
  - intros c d H. exfalso; apply H; reflexivity.
  - intros p c d a (l & [] & _).
Qed.

Lemma nd_dec : forall (c c' : nat) (d d' : Z), (c' = c /\ d' = d) \/ ~ (c' = c /\ d' = d).
Proof. intros. destruct (Nat.eq_dec c' c), (Z.eq_dec d' d); tauto. Qed.

Lemma NoDup_app_iff : forall A (l1 l2 : list A), NoDup (l1 ++ l2) <-> NoDup l1 /\ NoDup l2 /\ (forall x, In x l1 -> ~ In x l2).
Proof.
  induction l1 as [|a l1 IH]; cbn; intros l2.
  - split; [intros H; split; [constructor|split; auto]|tauto].
  - split.
    + intros H. inversion H; subst. apply IH in H3. destruct H3 as (A1 & A2 & A3). rewrite in_app_iff in H2.
      split; [constructor; tauto|]. split; auto. intros x [<-|Hx]; [tauto|auto].
    + intros (H1 & H2 & H3). inversion H1; subst. constructor.
      * rewrite in_app_iff. intros [X|X]; [tauto|]. apply (H3 a); auto.
      * apply IH. auto.
Qed.

Lemma pinv_step : forall nn mods f l s s', pinv mods f s -> parse_line nn mods l s = Some s' ->
  (line_axis l = true -> line_ports mods l <> []) -> pinv mods (f ++ [l]) s'.
Proof.
  intros nn mods f l s s' I H NE.
  destruct (line_sem nn mods l s s' H (i_sorted _ _ _ I) (i_marked _ _ _ I) NE) as (C & S' & P & E & M).
  set (c := line_noc l) in *. set (d := line_node l) in *. set (L := line_ports mods l) in *.
  assert (AT : at_node s' c d = at_node s c d /\ L = [] \/ at_node s' c d = Some (olist (at_node s c d) ++ L) /\ L <> []).
  { destruct (line_axis l) eqn:A; [right; split; [tauto|auto]|].
    destruct M as [[-> ->]|(p & X1 & X2 & X3 & X4)]; [auto|]. right.
    assert (Y : at_node s c d = None).
    { destruct (at_node s c d) eqn:Y; auto. exfalso. apply (i_marked _ _ _ I c d); congruence. }
    rewrite X4, Y, X1. split; auto; discriminate. }
  assert (OL : olist (at_node s' c d) = olist (at_node s c d) ++ L).
  { destruct AT as [[-> ->]|[-> _]]; [rewrite app_nil_r|]; auto. }
  assert (MM : L <> [] -> mm_node s' c d = Some (negb (line_axis l))).
  { intros N. destruct (line_axis l); [apply M|]. destruct M as [[? _]|(p & X1 & X2 & X3 & X4)]; [congruence|auto]. }
  assert (MO : mm_node s c d <> None -> L <> [] -> mm_node s' c d = mm_node s c d /\ line_axis l = true).
  { intros N1 N2. destruct (line_axis l).
    - destruct M as (M1 & M2 & _). rewrite M2. destruct (mm_node s c d) as [[]|]; split; congruence.
    - destruct M as [[? _]|(p & X1 & X2 & X3 & X4)]; congruence. }
  assert (ME : L = [] -> s' = s).
  { intros N. destruct (line_axis l); [exfalso; apply NE; auto|]. destruct M as [[_ ?]|(p & X1 & _)]; congruence. }
  destruct (list_eq_dec string_dec L []) as [Le|Ln].
  { rewrite (ME Le) in *. destruct I. constructor; auto.
    - intros p c0 d0 a Hp. apply puts_app in Hp. destruct Hp as [Hp|(Hp & _)]; auto. fold L in Hp. rewrite Le in Hp. destruct Hp.
    - intros p c0 d0 Hp. destruct (i_back0 p c0 d0 Hp) as [a Ha]. exists a. apply puts_app. auto.
    - intros N. apply i_dup0. unfold all_ports in *. rewrite flat_map_app in N. apply NoDup_app_iff in N. tauto. }
  specialize (MM Ln). destruct AT as [[_ ?]|[AT _]]; [congruence|].
  constructor; auto.
  - intros c0 d0 N. destruct (nd_dec c c0 d d0) as [[-> ->]|X].
    + rewrite MM. discriminate.
    + destruct (E c0 d0 X) as [E1 E2]. rewrite E1 in N. rewrite E2. apply (i_marked _ _ _ I); auto.
  - intros p c0 d0 a Hp. apply puts_app in Hp. fold c d L in Hp. destruct (nd_dec c c0 d d0) as [[-> ->]|X].
    + destruct Hp as [Hp|(Hp & _ & _ & <-)].
      * destruct (i_puts _ _ _ I _ _ _ _ Hp) as [Y1 Y2]. split.
        -- destruct MO as [Z1 Z2]; auto; [congruence|]. congruence.
        -- rewrite OL. apply in_app_iff. auto.
      * split; auto. rewrite OL. apply in_app_iff. auto.
    + destruct (E c0 d0 X) as [E1 E2]. rewrite E1, E2. destruct Hp as [Hp|(_ & H1 & H2 & _)]; [|exfalso; auto].
      apply (i_puts _ _ _ I); auto.
  - intros p c0 d0 Hp. destruct (nd_dec c c0 d d0) as [[-> ->]|X].
    + rewrite OL in Hp. apply in_app_iff in Hp. destruct Hp as [Hp|Hp].
      * destruct (i_back _ _ _ I _ _ _ Hp) as [a Ha]. exists a. apply puts_app. auto.
      * exists (line_axis l). apply puts_app. auto.
    + destruct (E c0 d0 X) as [E1 E2]. rewrite E1 in Hp. destruct (i_back _ _ _ I _ _ _ Hp) as [a Ha]. exists a. apply puts_app. auto.
  - intros c0 d0 Hm. destruct (nd_dec c c0 d d0) as [[-> ->]|X].
    + destruct (line_axis l); cbn [negb] in MM; [congruence|]. destruct M as [[? _]|(p & X1 & X2 & X3 & X4)]; [congruence|eauto].
    + destruct (E c0 d0 X) as [E1 E2]. rewrite E1. rewrite E2 in Hm. apply (i_one _ _ _ I); auto.
  - intros c0 d0. destruct (nd_dec c c0 d d0) as [[-> ->]|X].
    + rewrite AT. intros Y. inversion Y. apply app_eq_nil in H1. tauto.
    + destruct (E c0 d0 X) as [E1 E2]. rewrite E1. apply (i_ne _ _ _ I).
  - intros p c0 d0 i Hp. destruct (P p) as [P1 P2]. destruct (in_dec string_dec p L) as [Y|Y].
    + rewrite P1 in Hp by auto. inversion Hp; subst c0 d0 i. rewrite OL. apply in_app_iff. auto.
    + rewrite P2 in Hp by auto. pose proof (i_place _ _ _ I _ _ _ _ Hp) as Z.
      destruct (nd_dec c c0 d d0) as [[-> ->]|X].
      * rewrite OL. apply in_app_iff. auto.
      * destruct (E c0 d0 X) as [E1 E2]. rewrite E1. auto.
  - intros N. unfold all_ports in N. rewrite flat_map_app in N. apply NoDup_app_iff in N. cbn in N. rewrite app_nil_r in N.
    fold L in N. fold (all_ports mods f) in N. destruct N as (N1 & N2 & N3).
    destruct (i_dup _ _ _ I N1) as [D1 D2].
    assert (F : forall p c0 d0, In p (olist (at_node s c0 d0)) -> ~ In p L).
    { intros p c0 d0 Hp. apply N3. destruct (i_back _ _ _ I _ _ _ Hp) as [a Ha]. eapply puts_ports; eauto. }
    split.
    + intros c0 d0. destruct (nd_dec c c0 d d0) as [[-> ->]|X].
      * rewrite OL. apply NoDup_app_iff. split; auto. split; auto. intros p Hp. eapply F; eauto.
      * destruct (E c0 d0 X) as [E1 E2]. rewrite E1. auto.
    + intros p c0 d0 Hp. destruct (P p) as [P1 P2]. destruct (nd_dec c c0 d d0) as [[-> ->]|X].
      * rewrite OL in Hp. apply in_app_iff in Hp. destruct Hp as [Hp|Hp]; [|auto]. rewrite P2 by (eapply F; eauto). auto.
      * destruct (E c0 d0 X) as [E1 E2]. rewrite E1 in Hp. rewrite P2 by (eapply F; eauto). auto.
Qed.

Lemma parse_inv : forall nn mods f s, parse nn mods f = Some s ->
  (forall l, In l f -> line_axis l = true -> line_ports mods l <> []) -> pinv mods f s.
Proof.
  intros nn mods f. unfold parse. induction f as [|l f IH] using rev_ind; intros s H NE.
  - cbn in H. inversion H; subst. apply pinv_init.
  - rewrite seqf_app in H. destruct (seqf (parse_line nn mods) f pst0) as [s1|] eqn:E; [|discriminate].
    cbn in H. destruct (parse_line nn mods l s1) as [s2|] eqn:E2; [|discriminate]. inversion H; subst.
    eapply pinv_step; eauto.
    + apply IH; auto. intros; apply NE; auto. apply in_app_iff; auto.
    + apply NE. apply in_app_iff. cbn. auto.
Qed.

Lemma parse_order : forall nn mods f s, parse nn mods f = Some s ->
  (forall l, In l f -> line_axis l = true -> line_ports mods l <> []) ->
  forall c d, olist (at_node s c d) = node_ports mods f c d.
Proof.
  intros nn mods f. unfold parse. induction f as [|l f IH] using rev_ind; intros s H NE c d.
  - cbn in H. inversion H; subst. reflexivity.
  - rewrite seqf_app in H. destruct (seqf (parse_line nn mods) f pst0) as [s1|] eqn:E; [|discriminate].
    cbn in H. destruct (parse_line nn mods l s1) as [s2|] eqn:E2; [|discriminate]. inversion H; subst; clear H.
    assert (NE1 : forall l, In l f -> line_axis l = true -> line_ports mods l <> []) by (intros; apply NE; auto; apply in_app_iff; auto).
    pose proof (parse_inv nn mods f s1 E NE1) as I. specialize (IH s1 eq_refl NE1).
    destruct (line_sem nn mods l s1 s E2 (i_sorted _ _ _ I) (i_marked _ _ _ I)) as (C & S' & P & EL & M).
    { apply NE. apply in_app_iff. right. left. reflexivity. }
    unfold node_ports. rewrite flat_map_app. fold (node_ports mods f c d). cbn [flat_map]. rewrite app_nil_r.
    destruct (nd_dec (line_noc l) c (line_node l) d) as [[Ec Ed]|X].
    + subst c d. rewrite Nat.eqb_refl, Z.eqb_refl. cbn [andb]. rewrite <- IH.
      destruct (line_axis l).
      * destruct M as (_ & _ & ->). reflexivity.
      * destruct M as [[-> ->]|(p & X1 & X2 & X3 & X4)]; [rewrite app_nil_r; reflexivity|].
        assert (Y : at_node s1 (line_noc l) (line_node l) = None).
        { destruct (at_node s1 (line_noc l) (line_node l)) eqn:Y; auto. exfalso. apply (i_marked _ _ _ I (line_noc l) (line_node l)); congruence. }
        rewrite X4, Y, X1. reflexivity.
    + destruct (EL c d X) as [E1 _]. rewrite E1, IH.
      destruct (Nat.eqb_spec (line_noc l) c) as [Q1|Q1]; [|rewrite app_nil_r; reflexivity].
      destruct (Z.eqb_spec (line_node l) d) as [Q2|Q2]; [|rewrite app_nil_r; reflexivity].
      exfalso. apply X. split; congruence.
Qed.

(** Only NoCs below the count are used. *)
Lemma parse_noc : forall nn mods f s p c d a, parse nn mods f = Some s -> puts mods f p c d a -> (c < nn)%nat.
Proof.
  intros nn mods f s p c d a H (l & A & _ & <- & _).
  unfold parse in H. revert s H A. induction f as [|x f IH] using rev_ind; intros s H A; [destruct A|].
  rewrite seqf_app in H. destruct (seqf (parse_line nn mods) f pst0) as [s1|] eqn:E; [|discriminate].
  apply in_app_iff in A. destruct A as [A|[<-|[]]]; [eauto|]. cbn [seqf] in H. clear -H.
  destruct x as [p noc node axis|m noc node axis]; cbn [parse_line line_noc] in *; destruct (Nat.ltb_spec noc nn); try discriminate; auto.
Qed.

(** Interface ids. *)
Definition pick (isl : string -> option bool) (dir : bool) (p : string) : bool :=
  match isl p with Some b => Bool.eqb b dir | None => false end.

Lemma some_eq : forall A (x y : A), Some x = Some y -> x = y.
Proof. intros. congruence. Qed.

Lemma port_loop_sem : forall isl l pl sn mn pl' sn' mn', port_loop isl l pl sn mn = Some (pl', sn', mn') ->
  sn' = sn ++ filter (pick isl false) l /\ mn' = mn ++ filter (pick isl true) l /\
  (forall p, ~ In p l -> pl' p = pl p) /\
  (forall p, In p l -> isl p <> None) /\
  (NoDup l -> (forall p, In p l -> pl p <> None) -> forall p c d i, In p l -> pl p = Some (c, d, i) ->
     exists j, pl' p = Some (c, d, j) /\
       (isl p = Some false -> nth_error sn' j = Some p) /\ (isl p = Some true -> nth_error mn' j = Some p)).
Proof.
  induction l as [|q l IH]; intros pl sn mn pl' sn' mn' H; cbn in H.
  - inversion H; subst. cbn. rewrite !app_nil_r. repeat split; auto; intros; contradiction.
  - destruct (isl q) as [sl|] eqn:Q; [|discriminate].
    set (pl1 := sfupd pl q _) in H.
    assert (G : exists sn1 mn1, port_loop isl l pl1 sn1 mn1 = Some (pl', sn', mn') /\
              sn1 = sn ++ (if sl then [] else [q]) /\ mn1 = mn ++ (if sl then [q] else [])).
    { destruct sl; do 2 eexists; (split; [exact H|]); rewrite ?app_nil_r; auto. }
    destruct G as (sn1 & mn1 & H1 & -> & ->).
    destruct (IH _ _ _ _ _ _ H1) as (A & B & C & D & E).
    assert (X1 : pick isl false q = negb sl) by (unfold pick; rewrite Q; destruct sl; auto).
    assert (X2 : pick isl true q = sl) by (unfold pick; rewrite Q; destruct sl; auto).
    split; [|split; [|split; [|split]]].
    + rewrite A, <- app_assoc. cbn [filter]. rewrite X1. destruct sl; auto.
    + rewrite B, <- app_assoc. cbn [filter]. rewrite X2. destruct sl; auto.
    + intros p N. rewrite C by (intros X; apply N; right; auto). unfold pl1. apply sfupd_other. intros ->. apply N. left; auto.
    + intros p [<-|Hp]; [congruence|auto].
    + intros ND NN p c d i Hp Hpl. apply NoDup_cons_iff in ND. destruct ND as [ND1 ND2]. destruct Hp as [->|Hp].
      * rewrite C by auto. unfold pl1. rewrite sfupd_same, Hpl.
        destruct sl; eexists; (split; [reflexivity|]); split; intros Y; rewrite Q in Y; apply some_eq in Y; try discriminate.
        -- rewrite B, <- app_assoc, nth_error_app2, Nat.sub_diag by auto. reflexivity.
        -- rewrite A, <- app_assoc, nth_error_app2, Nat.sub_diag by auto. reflexivity.
      * assert (p <> q) by (intros ->; auto). apply (E ND2) with (i := i); auto.
        -- intros r Hr. unfold pl1. rewrite sfupd_other; [apply NN; right; auto|intros ->; auto].
        -- unfold pl1. rewrite sfupd_other; auto.
Qed.

Lemma nth_filter_pick : forall isl dir l i p, nth_error (filter (pick isl dir) l) i = Some p -> In p l /\ isl p = Some dir.
Proof.
  intros isl dir l i p H. apply nth_error_In in H. apply filter_In in H. destruct H as [A B]. split; auto.
  unfold pick in B. destruct (isl p) as [b|]; [|discriminate]. apply Bool.eqb_prop in B. congruence.
Qed.

Lemma seqf_ext : forall A S (f g : A -> S -> option S) l s, (forall x s, f x s = g x s) -> seqf f l s = seqf g l s.
Proof. induction l; intros; cbn; auto. rewrite H. destruct (g a s); auto. Qed.

Lemma seqf_flat : forall A B S (f : A -> B -> S -> option S) (g : A -> list B) l s,
  seqf (fun a s' => seqf (f a) (g a) s') l s = seqf (fun ab s' => f (fst ab) (snd ab) s') (flat_map (fun a => map (pair a) (g a)) l) s.
Proof.
  assert (M : forall A B S (f : A -> B -> S -> option S) a l s, seqf (f a) l s = seqf (fun ab s' => f (fst ab) (snd ab) s') (map (pair a) l) s).
  { induction l; intros; cbn; auto. destruct (f a a0 s); auto. }
  induction l as [|a l IH]; intros s; cbn; auto. rewrite seqf_app, <- M. destruct (seqf (f a) (g a) s); auto.
Qed.

Definition adapters_of (mmp : string -> bool) (clk : string -> Z * Z) (isl : string -> option bool) (x : nat * (Z * list string)) (dir : bool) : list ainfo :=
  match filter (pick isl dir) (snd (snd x)) with
  | [] => []
  | p :: r => [{| a_slave := negb dir; a_noc := fst x; a_node := fst (snd x);
                  a_clks := clk (module_name (hd EmptyString (snd (snd x)))); a_names := p :: r; a_mm := mmp p |}]
  end.

Lemma mk_adapter_sem : forall mmp clk isl x dir b a,
  mk_adapter mmp (negb dir) (fst x) (fst (snd x)) (clk (module_name (hd EmptyString (snd (snd x))))) (filter (pick isl dir) (snd (snd x))) = Some a ->
  b = dir -> a = adapters_of mmp clk isl x dir.
Proof.
  intros mmp clk isl x dir b a H _. unfold mk_adapter in H. unfold adapters_of.
  destruct (filter (pick isl dir) (snd (snd x))); [inversion H; auto|].
  destruct (mmp s && _); [discriminate|]. inversion H; auto.
Qed.

Lemma build_run : forall isl mmp clk xs pl0 ads0 pl ads,
  seqf (fun ab s' => build_node isl mmp clk (fst ab) (snd ab) s') xs (pl0, ads0) = Some (pl, ads) ->
  (NoDup (flat_map (fun x => snd (snd x)) xs)) ->
  (forall x p, In x xs -> In p (snd (snd x)) -> pl0 p = Some (fst x, fst (snd x), 0%nat)) ->
  (forall p, ~ In p (flat_map (fun x => snd (snd x)) xs) -> pl p = pl0 p) /\
  (forall x p, In x xs -> In p (snd (snd x)) ->
     isl p <> None /\ exists j dir, isl p = Some dir /\ pl p = Some (fst x, fst (snd x), j) /\ nth_error (filter (pick isl dir) (snd (snd x))) j = Some p) /\
  ads = ads0 ++ flat_map (fun x => adapters_of mmp clk isl x false ++ adapters_of mmp clk isl x true) xs.
Proof.
  induction xs as [|x xs IH]; intros pl0 ads0 pl ads H ND PL; cbn in H.
  - inversion H; subst. cbn. rewrite app_nil_r. split; auto. split; auto. intros ? ? [].
  - destruct (build_node isl mmp clk (fst x) (snd x) (pl0, ads0)) as [[pl1 ads1]|] eqn:B; [|discriminate].
    unfold build_node in B. cbn [fst snd] in B.
    destruct (port_loop isl (snd (snd x)) pl0 [] []) as [[[pl2 sn] mn]|] eqn:P; [|discriminate].
    destruct (port_loop_sem _ _ _ _ _ _ _ _ P) as (A1 & A2 & A3 & A4 & A5). cbn [app] in A1, A2. subst sn mn.
    destruct (mk_adapter mmp true _ _ _ _) as [a|] eqn:Ea; [|discriminate].
    destruct (mk_adapter mmp false _ _ _ _) as [b|] eqn:Eb; [|discriminate].
    inversion B; subst pl2 ads1; clear B.
    apply (mk_adapter_sem mmp clk isl x false false) in Ea; auto. apply (mk_adapter_sem mmp clk isl x true true) in Eb; auto. subst a b.
    cbn in ND. apply NoDup_app_iff in ND. destruct ND as (N1 & N2 & N3).
    destruct (IH _ _ _ _ H N2) as (I1 & I2 & I3).
    { intros y p Hy Hp. rewrite A3.
      - apply PL; auto. right; auto.
      - intros X. apply (N3 p X). apply in_flat_map. eauto. }
    split; [|split].
    + intros p N. cbn in N. rewrite in_app_iff in N. rewrite I1, A3; tauto.
    + intros y p [<-|Hy] Hp; [|auto]. rewrite I1 by (apply N3; auto).
      split; [apply A4; auto|].
      destruct (A5 N1) with (p := p) (c := fst x) (d := fst (snd x)) (i := 0%nat) as (j & J1 & J2 & J3); auto.
      * intros q Hq. rewrite (PL x q); auto; [discriminate|left; auto].
      * apply PL; auto. left; auto.
      * destruct (isl p) as [dir|] eqn:D; [|exfalso; apply (A4 p); auto]. exists j, dir. split; auto. split; auto. destruct dir; auto.
    + rewrite I3. cbn. rewrite <- !app_assoc. reflexivity.
Qed.

Definition nodes_of (nn : nat) (s : pst) : list (nat * (Z * list string)) := flat_map (fun c => map (pair c) (ports s c)) (seq 0 nn).

Lemma nodes_of_In : forall nn s c d l, sorted_st s -> (In (c, (d, l)) (nodes_of nn s) <-> (c < nn)%nat /\ at_node s c d = Some l).
Proof.
  intros nn s c d l S. unfold nodes_of, at_node. rewrite in_flat_map. split.
  - intros (x & A & B). apply in_seq in A. apply in_map_iff in B. destruct B as (y & B1 & B2). inversion B1; subst. split; [lia|].
    apply mIn_find; auto.
  - intros (A & B). exists c. split; [apply in_seq; lia|]. apply in_map. apply mfind_In; auto.
Qed.

Lemma NoDup_flat_map : forall A B (f : A -> list B) l, NoDup l -> (forall x, In x l -> NoDup (f x)) ->
  (forall x y b, In x l -> In y l -> In b (f x) -> In b (f y) -> x = y) -> NoDup (flat_map f l).
Proof.
  induction l as [|a l IH]; intros N1 N2 N3; cbn; [constructor|].
  apply NoDup_cons_iff in N1. destruct N1 as [N0 N1]. apply NoDup_app_iff. split; [apply N2; left; auto|]. split.
  - apply IH; auto.
    + intros; apply N2; right; auto.
    + intros x y b H1 H2. apply N3; right; auto.
  - intros b Hb H. apply in_flat_map in H. destruct H as (y & Hy & H). apply N0.
    rewrite (N3 a y b); auto; [left|right]; auto.
Qed.

Lemma sorted_NoDup : forall A (m : list (Z * A)), msorted m -> NoDup m.
Proof.
  unfold msorted. induction m as [|[k v] m IH]; intros S; [constructor|]. cbn in S. inversion S as [|? ? S1 S2]; subst.
  constructor; auto. intros H. rewrite Forall_forall in S2. specialize (S2 k (in_map fst _ _ H)). lia.
Qed.

Lemma nodes_NoDup : forall nn s, sorted_st s -> NoDup (nodes_of nn s).
Proof.
  intros nn s S. unfold nodes_of. apply NoDup_flat_map.
  - apply seq_NoDup.
  - intros c _. apply FinFun.Injective_map_NoDup; [|apply sorted_NoDup; apply S]. intros x y H. congruence.
  - intros x y b _ _ H1 H2. apply in_map_iff in H1. apply in_map_iff in H2. destruct H1 as (? & <- & _), H2 as (? & H2 & _). congruence.
Qed.

Section Final.
Variables (nn : nat) (mods : string -> option mdesc) (isl : string -> option bool) (mmp : string -> bool) (clk : string -> Z * Z).
Variables (f : list line) (s : pst) (pl : string -> option (nat * Z * nat)) (ads : list ainfo).
Hypothesis HP : parse nn mods f = Some s.
Hypothesis HB : build nn isl mmp clk s = Some (pl, ads).
Hypothesis HD : NoDup (all_ports mods f).
Hypothesis HN : forall l, In l f -> line_axis l = true -> line_ports mods l <> [].

Lemma final_inv : pinv mods f s.
Proof. eapply parse_inv; eauto. Qed.

Lemma build_flat :
  (forall p, ~ In p (flat_map (fun x => snd (snd x)) (nodes_of nn s)) -> pl p = placement s p) /\
  (forall x p, In x (nodes_of nn s) -> In p (snd (snd x)) ->
     isl p <> None /\ exists j dir, isl p = Some dir /\ pl p = Some (fst x, fst (snd x), j) /\ nth_error (filter (pick isl dir) (snd (snd x))) j = Some p) /\
  ads = flat_map (fun x => adapters_of mmp clk isl x false ++ adapters_of mmp clk isl x true) (nodes_of nn s).
Proof.
  pose proof final_inv as I. destruct (i_dup _ _ _ I HD) as [D1 D2].
  unfold build in HB. rewrite seqf_flat in HB. fold (nodes_of nn s) in HB.
  destruct (build_run _ _ _ _ _ _ _ _ HB) as (A & B & C).
  - apply NoDup_flat_map.
    + apply nodes_NoDup. apply I.
    + intros [c [d l]] H. apply nodes_of_In in H; [|apply I]. cbn. destruct H as [_ H]. specialize (D1 c d). rewrite H in D1. exact D1.
    + intros [c [d l]] [c2 [d2 l2]] p H1 H2 P1 P2. cbn in P1, P2.
      apply nodes_of_In in H1; [|apply I]. apply nodes_of_In in H2; [|apply I].
      assert (X1 : placement s p = Some (c, d, 0%nat)) by (apply D2; rewrite (proj2 H1); auto).
      assert (X2 : placement s p = Some (c2, d2, 0%nat)) by (apply D2; rewrite (proj2 H2); auto).
      rewrite X1 in X2. inversion X2; subst. destruct H1, H2. congruence.
  - intros [c [d l]] p H1 P1. cbn in *. apply nodes_of_In in H1; [|apply I]. apply D2. rewrite (proj2 H1). auto.
  - auto.
Qed.

Lemma final_ids : forall c d dir, exists names, NoDup names /\
  forall p i, (pl p = Some (c, d, i) /\ isl p = Some dir) <-> nth_error names i = Some p.
Proof.
  intros c d dir. pose proof final_inv as I. destruct (i_dup _ _ _ I HD) as [D1 D2]. destruct build_flat as (A & B & _).
  assert (PL : forall p c i d, pl p = Some (c, d, i) -> (c < nn)%nat /\ In p (olist (at_node s c d))).
  { intros p c' i d' H. destruct (in_dec string_dec p (flat_map (fun x => snd (snd x)) (nodes_of nn s))) as [X|X].
    - apply in_flat_map in X. destruct X as ([c2 [d2 l]] & X1 & X2). cbn in X2.
      destruct (B _ _ X1 X2) as (_ & j & dr & _ & Y & _). cbn in Y. rewrite Y in H. inversion H; subst.
      apply nodes_of_In in X1; [|apply I]. destruct X1 as [X0 X1]. rewrite X1. auto.
    - rewrite (A p X) in H. pose proof (i_place _ _ _ I _ _ _ _ H) as Y. split; auto.
      destruct (i_back _ _ _ I _ _ _ Y) as [a Ha]. eapply parse_noc; eauto. }
  exists (filter (pick isl dir) (olist (at_node s c d))). split; [apply NoDup_filter; auto|].
  intros p i. split.
  - intros [H1 H2]. destruct (PL _ _ _ _ H1) as [X0 X1].
    destruct (at_node s c d) as [l|] eqn:E; [|destruct X1]. cbn in X1.
    destruct (B (c, (d, l)) p) as (_ & j & dr & Y1 & Y2 & Y3); auto; [apply nodes_of_In; auto; apply I|].
    cbn in Y2, Y3. rewrite H1 in Y2. inversion Y2; subst. rewrite H2 in Y1. inversion Y1; subst. auto.
  - intros H. destruct (nth_filter_pick _ _ _ _ _ H) as [H1 H2]. split; auto.
    destruct (at_node s c d) as [l|] eqn:E; [|destruct H1]. cbn in H, H1.
    assert (C : (c < nn)%nat).
    { destruct (i_back _ _ _ I p c d) as [a Ha]; [rewrite E; auto|]. eapply parse_noc; eauto. }
    destruct (B (c, (d, l)) p) as (_ & j & dr & Y1 & Y2 & Y3); auto; [apply nodes_of_In; auto; apply I|].
    cbn in Y2, Y3. rewrite H2 in Y1. inversion Y1; subst dr. rewrite Y2. repeat f_equal.
    specialize (D1 c d). rewrite E in D1. cbn in D1. pose proof (NoDup_filter (pick isl dir) D1) as ND.
    rewrite NoDup_nth_error in ND. apply ND; [|congruence]. apply nth_error_Some. congruence.
Qed.

Lemma final_all : forall p, In p (all_ports mods f) -> exists c d a i, puts mods f p c d a /\ pl p = Some (c, d, i).
Proof.
  intros p H. pose proof final_inv as I. destruct build_flat as (_ & B & _).
  apply in_flat_map in H. destruct H as (ln & H1 & H2).
  assert (P : puts mods f p (line_noc ln) (line_node ln) (line_axis ln)) by (exists ln; auto).
  destruct (i_puts _ _ _ I _ _ _ _ P) as [_ X]. destruct (at_node s (line_noc ln) (line_node ln)) as [l|] eqn:E; [|destruct X].
  destruct (B (line_noc ln, (line_node ln, l)) p) as (_ & j & dr & Y1 & Y2 & Y3); auto.
  - apply nodes_of_In; [apply I|]. split; auto. eapply parse_noc; eauto.
  - cbn in Y2. eauto 6.
Qed.

Lemma final_adapter : forall p c d i dir, pl p = Some (c, d, i) -> isl p = Some dir ->
  exists a, In a ads /\ a_noc a = c /\ a_node a = d /\ a_slave a = negb dir /\ nth_error (a_names a) i = Some p.
Proof.
  intros p c d i dir H1 H2. pose proof final_inv as I. destruct build_flat as (A & B & C).
  destruct (in_dec string_dec p (flat_map (fun x => snd (snd x)) (nodes_of nn s))) as [X|X].
  - apply in_flat_map in X. destruct X as (x & X1 & X2). destruct (B _ _ X1 X2) as (_ & j & dr & Y1 & Y2 & Y3).
    rewrite H2 in Y1. inversion Y1; subst dr. rewrite H1 in Y2. inversion Y2; subst c d j.
    assert (G : exists a, In a (adapters_of mmp clk isl x dir) /\ a_noc a = fst x /\ a_node a = fst (snd x) /\
               a_slave a = negb dir /\ nth_error (a_names a) i = Some p).
    { unfold adapters_of. destruct (filter (pick isl dir) (snd (snd x))) as [|q r] eqn:E; [destruct i; discriminate|].
      eexists. split; [left; reflexivity|]. cbn. auto. }
    destruct G as (a & G1 & G2). exists a. split; auto. rewrite C. apply in_flat_map. exists x. split; auto.
    apply in_app_iff. destruct dir; auto.
  - exfalso. rewrite (A p X) in H1. pose proof (i_place _ _ _ I _ _ _ _ H1) as Y. apply X. apply in_flat_map.
    destruct (at_node s c d) as [l|] eqn:E; [|destruct Y]. exists (c, (d, l)). split; auto. apply nodes_of_In; [apply I|].
    split; auto. destruct (i_back _ _ _ I p c d) as [a Ha]; [rewrite E; auto|]. eapply parse_noc; eauto.
Qed.

Lemma final_clock : forall a, In a ads -> exists p r, node_ports mods f (a_noc a) (a_node a) = p :: r /\ a_clks a = clk (module_name p).
Proof.
  intros a HA. pose proof final_inv as I. destruct build_flat as (_ & _ & C). rewrite C in HA.
  apply in_flat_map in HA. destruct HA as ([c [d l]] & X & Y). apply nodes_of_In in X; [|apply I]. destruct X as [_ X].
  assert (G : a_clks a = clk (module_name (hd EmptyString l)) /\ a_noc a = c /\ a_node a = d).
  { apply in_app_iff in Y. unfold adapters_of in Y. cbn [fst snd] in Y.
    destruct Y as [Y|Y]; (destruct (filter _ l); [destruct Y|destruct Y as [<-|[]]]); auto. }
  destruct G as (G1 & G2 & G3). rewrite G1, G2, G3 in *.
  rewrite <- (parse_order nn mods f s HP HN c d), X.
  destruct l as [|p l]; [exfalso; eapply (i_ne _ _ _ I); eauto|]. exists p, l. split; reflexivity.
Qed.

End Final.

Lemma no_mix : forall nn mods f s p q c d a1 a2, parse nn mods f = Some s ->
  (forall l, In l f -> line_axis l = true -> line_ports mods l <> []) ->
  puts mods f p c d a1 -> puts mods f q c d a2 -> a1 = a2 /\ (a1 = false -> p = q).
Proof.
  intros nn mods f s p q c d a1 a2 HP HN P1 P2. pose proof (parse_inv _ _ _ _ HP HN) as I.
  destruct (i_puts _ _ _ I _ _ _ _ P1) as [X1 X2]. destruct (i_puts _ _ _ I _ _ _ _ P2) as [Y1 Y2].
  split; [destruct a1, a2; cbn in *; congruence|]. intros ->. cbn in X1.
  destruct (i_one _ _ _ I _ _ X1) as [r Hr]. rewrite Hr in *. cbn in *. destruct X2, Y2; subst; tauto || congruence.
Qed.
