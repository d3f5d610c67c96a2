From Coq Require Import ZArith Bool List Lia.
From Verif Require Import Fupd CreditModel CreditSpec AxisFormatModel AxisSlaveModel AxisMasterModel AxisMasterSpec AxisMasterProofs.
Import ListNotations.

Lemma credited_app : forall n a b, credited n (a ++ b) = credited n a ++ credited n b.
Proof. intros. unfold credited. rewrite filter_app, map_app. reflexivity. Qed.

Lemma credited_tick : forall m n l, NoDup l ->
  credited n (ej_credits m l) = if in_dec Nat.eq_dec n l then match m n with Some v => [v] | None => [] end else [].
Proof.
  intros m n l. induction l as [|k l IH]; intros ND; [reflexivity|]. inversion ND; subst.
  cbn [ej_credits]. specialize (IH H2).
  destruct (m k) as [v|] eqn:Mk.
  - change ((k, v) :: ej_credits m l) with ([(k, v)] ++ ej_credits m l). rewrite credited_app, IH.
    unfold credited. cbn [filter map fst]. destruct (Nat.eqb_spec k n) as [->|N].
    + destruct (in_dec Nat.eq_dec n l); [contradiction|].
      destruct (in_dec Nat.eq_dec n (n :: l)) as [|X]; [|exfalso; apply X; left; reflexivity].
      rewrite Mk. reflexivity.
    + destruct (in_dec Nat.eq_dec n l), (in_dec Nat.eq_dec n (k :: l)) as [[|]|]; cbn in *; auto; try congruence; tauto.
  - rewrite IH. destruct (Nat.eq_dec k n) as [->|N].
    + rewrite Mk. destruct (in_dec Nat.eq_dec n l), (in_dec Nat.eq_dec n (n :: l)); reflexivity.
    + destruct (in_dec Nat.eq_dec n l), (in_dec Nat.eq_dec n (k :: l)) as [[|]|]; cbn in *; auto; try congruence; tauto.
Qed.

Lemma credited_tick_in : forall m n nn, n < nn ->
  credited n (ej_credits m (seq 0 nn)) = match m n with Some v => [v] | None => [] end.
Proof.
  intros m n nn H. rewrite credited_tick by apply seq_NoDup.
  destruct (in_dec Nat.eq_dec n (seq 0 nn)) as [|N]; auto. exfalso. apply N, in_seq. lia.
Qed.

Definition pnd (m : ejmap) (n : nat) : list nat := match m n with Some v => [v] | None => [] end.
Definition isS (m : ejmap) (n : nat) : bool := match m n with Some _ => true | None => false end.

Lemma run_conserved : forall nn n, n < nn -> forall evs m m' o,
  one_per_tick n (isS m n) evs -> c_run nn m evs = (m', o) ->
  pnd m n ++ consumed n evs = credited n o ++ pnd m' n.
Proof.
  intros nn n Hn evs. induction evs as [|e evs IH]; intros m m' o H E; cbn [c_run] in E.
  - inversion E; subst. cbn. rewrite app_nil_r. reflexivity.
  - destruct (c_step nn m e) as [m1 o1] eqn:E1. destruct (c_run nn m1 evs) as [m2 o2] eqn:E2.
    inversion E; subst. destruct e as [k v|]; cbn [c_step] in E1; inversion E1; subst; clear E1 E.
    + cbn [app]. cbn [one_per_tick] in H. cbn [consumed flat_map]. destruct (Nat.eqb_spec k n) as [->|N].
      * destruct H as (H0 & H). unfold isS in H0. destruct (m n) eqn:Mn; [discriminate|].
        assert (A : isS (ej_insert m n v) n = true) by (unfold isS, ej_insert; rewrite Mn, fupd_same; reflexivity).
        rewrite <- A in H. specialize (IH _ _ _ H E2). rewrite <- IH.
        unfold pnd, ej_insert. rewrite Mn, fupd_same. reflexivity.
      * assert (A : ej_insert m k v n = m n).
        { unfold ej_insert. destruct (m k); auto. apply fupd_other; auto. }
        assert (B : isS (ej_insert m k v) n = isS m n) by (unfold isS; rewrite A; reflexivity).
        rewrite <- B in H. specialize (IH _ _ _ H E2). rewrite <- IH. unfold pnd. rewrite A. reflexivity.
    + cbn [one_per_tick] in H. rewrite credited_app, credited_tick_in by auto.
      specialize (IH (fun _ => None) _ _ H E2). cbn in IH. rewrite <- app_assoc, <- IH. reflexivity.
Qed.

Lemma sublist_refl : forall a, sublist a a.
Proof. induction a; constructor; auto. Qed.
Lemma sublist_app : forall a b c d, sublist a b -> sublist c d -> sublist (a ++ c) (b ++ d).
Proof.
  intros a b c d H. induction H; intros H2; cbn.
  - induction b; cbn; auto. constructor; auto.
  - constructor; auto.
  - constructor; auto.
Qed.
Lemma sublist_length : forall a b, sublist a b -> length a <= length b.
Proof. intros a b H. induction H; cbn; lia. Qed.

Lemma consumed_app : forall n a b, consumed n (a ++ b) = consumed n a ++ consumed n b.
Proof. intros. unfold consumed. apply flat_map_app. Qed.

Lemma run_app : forall nn a b m, c_run nn m (a ++ b) =
  let '(m1, o1) := c_run nn m a in let '(m2, o2) := c_run nn m1 b in (m2, o1 ++ o2).
Proof.
  intros nn a. induction a as [|e a IH]; intros b m; cbn.
  - destruct (c_run nn m b); reflexivity.
  - destruct (c_step nn m e) as [m1 o1]. rewrite IH. destruct (c_run nn m1 a) as [m2 o2].
    destruct (c_run nn m2 b) as [m3 o3]. rewrite app_assoc. reflexivity.
Qed.

Lemma credited_out : forall m n nn, nn <= n -> credited n (ej_credits m (seq 0 nn)) = [].
Proof.
  intros m n nn H. rewrite credited_tick by apply seq_NoDup.
  destruct (in_dec Nat.eq_dec n (seq 0 nn)) as [X|]; auto. apply in_seq in X. lia.
Qed.

Lemma run_sub : forall nn n evs m m' o, c_run nn m evs = (m', o) ->
  sublist (credited n o ++ pnd m' n) (pnd m n ++ consumed n evs).
Proof.
  intros nn n evs. induction evs as [|e evs IH]; intros m m' o E; cbn [c_run] in E.
  - inversion E; subst. cbn. rewrite app_nil_r. apply sublist_refl.
  - destruct (c_step nn m e) as [m1 o1] eqn:E1. destruct (c_run nn m1 evs) as [m2 o2] eqn:E2.
    inversion E; subst. specialize (IH _ _ _ E2).
    destruct e as [k v|]; cbn [c_step] in E1; inversion E1; subst; clear E1 E.
    + cbn [app]. cbn [consumed flat_map]. change (flat_map _ evs) with (consumed n evs).
      unfold pnd at 2 in IH. unfold ej_insert in IH. destruct (Nat.eqb_spec k n) as [->|N].
      * unfold pnd at 2. destruct (m n) eqn:Mn.
        -- rewrite Mn in IH. cbn [app] in *. inversion IH; subst.
           ++ constructor.
           ++ constructor. constructor. auto.
           ++ constructor. constructor. auto.
        -- rewrite fupd_same in IH. exact IH.
      * assert (A : match (match m k with Some _ => m | None => fupd m k (Some v) end) n with Some v0 => [v0] | None => [] end = pnd m n).
        { unfold pnd. destruct (m k); auto. rewrite fupd_other; auto. }
        rewrite A in IH. exact IH.
    + rewrite credited_app, <- app_assoc. cbn [consumed flat_map]. change (flat_map _ evs) with (consumed n evs).
      cbn in IH. destruct (Nat.lt_ge_cases n nn).
      * rewrite credited_tick_in by auto. apply sublist_app; [apply sublist_refl|exact IH].
      * rewrite credited_out by auto. change (credited n o2 ++ pnd m' n) with ([] ++ (credited n o2 ++ pnd m' n)).
        apply sublist_app; [constructor|exact IH].
Qed.

Lemma pending_stays : forall nn n mid m, ~ In NocTick mid -> isS m n = true ->
  m n = fst (c_run nn m mid) n /\ credited n (snd (c_run nn m mid)) = [].
Proof.
  intros nn n mid. induction mid as [|e mid IH]; intros m H S; cbn [c_run]; [auto|].
  destruct e as [k v|]; [|exfalso; apply H; left; reflexivity]. cbn [c_step].
  assert (A : ej_insert m k v n = m n).
  { unfold ej_insert. destruct (m k) eqn:Mk; auto. apply fupd_other. intros ->. unfold isS in S. rewrite Mk in S. discriminate. }
  destruct (IH (ej_insert m k v)) as (B & C).
  - intros X. apply H. right; auto.
  - unfold isS in *. rewrite A. exact S.
  - destruct (c_run nn (ej_insert m k v) mid) as [m2 o2]. cbn [fst snd] in *. cbn [app]. split; congruence.
Qed.

Lemma extra_lost : forall nn n v1 v2 a mid b m' o, ~ In NocTick mid ->
  c_run nn (fun _ => None) (a ++ Consume n v1 :: mid ++ Consume n v2 :: b) = (m', o) ->
  length (credited n o) + 1 <= length (consumed n (a ++ Consume n v1 :: mid ++ Consume n v2 :: b)).
Proof.
  intros nn n v1 v2 a mid b m' o H E.
  rewrite run_app in E. destruct (c_run nn (fun _ => None) a) as [m1 o1] eqn:E1.
  cbn [c_run c_step] in E. destruct (c_run nn (ej_insert m1 n v1) (mid ++ Consume n v2 :: b)) as [m2 o2] eqn:E2.
  rewrite run_app in E2.
  assert (S : isS (ej_insert m1 n v1) n = true).
  { unfold isS, ej_insert. destruct (m1 n) eqn:M1; [rewrite M1; reflexivity|]. rewrite fupd_same. reflexivity. }
  destruct (pending_stays nn n mid _ H S) as (P & C).
  destruct (c_run nn (ej_insert m1 n v1) mid) as [m3 o3] eqn:E3. cbn [fst snd] in P, C.
  cbn [c_run c_step] in E2. destruct (c_run nn (ej_insert m3 n v2) b) as [m4 o4] eqn:E4.
  inversion E2; subst; clear E2. inversion E; subst; clear E.
  cbn [app]. rewrite !credited_app, !app_length, C.
  assert (I3 : ej_insert m3 n v2 = m3).
  { unfold ej_insert. rewrite <- P. unfold isS in S. destruct (ej_insert m1 n v1 n); [reflexivity|discriminate]. }
  rewrite I3 in E4.
  pose proof (sublist_length _ _ (run_sub nn n _ _ _ _ E1)) as L1.
  pose proof (sublist_length _ _ (run_sub nn n _ _ _ _ E4)) as L4.
  rewrite !app_length in L1, L4. cbn in L1.
  assert (P3 : length (pnd m3 n) <= 1) by (unfold pnd; destruct (m3 n); cbn; lia).
  rewrite consumed_app, app_length. cbn [consumed flat_map]. rewrite Nat.eqb_refl. cbn [app].
  change (flat_map _ (mid ++ Consume n v2 :: b)) with (consumed n (mid ++ Consume n v2 :: b)).
  cbn [length]. rewrite consumed_app, app_length. cbn [consumed flat_map]. rewrite Nat.eqb_refl. cbn [app length].
  change (flat_map _ b) with (consumed n b). cbn [length]. lia.
Qed.

(** ** The adapter side *)

Definition infl (s : mst) (v : nat) : nat :=
  length (ejf s v) + (match pendfl s with Some f => if on_vc v f then 1 else 0 | None => 0 end).

Lemma frees_app : forall v a b, frees v (a ++ b) = frees v a + frees v b.
Proof. intros. unfold frees. rewrite filter_app, app_length. reflexivity. Qed.
Lemma arrivals_app : forall v a b, arrivals v (a ++ b) = arrivals v a + arrivals v b.
Proof. intros. unfold arrivals. rewrite filter_app, app_length. reflexivity. Qed.

Lemma out_loop_frame : forall c rdy l s s' o, out_loop c rdy l s = Some (s', o) ->
  ejf s' = ejf s /\ pendfl s' = pendfl s /\ forall v, frees v o = 0 /\ arrivals v o = 0.
Proof.
  intros c rdy l. induction l as [|i l IH]; intros s s' o E; cbn in E.
  - inversion E; subst. auto.
  - destruct (out_one c rdy i s) as [[s1 o1]|] eqn:E1; [|discriminate].
    destruct (out_loop c rdy l s1) as [[s2 o2]|] eqn:E2; [|discriminate]. inversion E; subst.
    destruct (IH _ _ _ E2) as (A & B & C). unfold out_one in E1.
    assert (X : ejf s1 = ejf s /\ pendfl s1 = pendfl s /\ forall v, frees v o1 = 0 /\ arrivals v o1 = 0).
    { destruct (port s i); [destruct (rdy i); [destruct (outq s i); [discriminate|destruct (Nat.eqb _ _)]|]|];
        inversion E1; subst; auto. }
    destruct X as (X1 & X2 & X3). split; [congruence|]. split; [congruence|].
    intros v. rewrite frees_app, arrivals_app. destruct (C v), (X3 v). lia.
Qed.

Lemma thread_slots : forall c ev t s s' o, m_thread c ev t s = Some (s', o) ->
  (forall v, arrivals v o + infl s v = frees v o + infl s' v) /\
  ((forall v, length (ejf s v) <= m_ejdepth c) -> forall v, length (ejf s' v) <= m_ejdepth c) /\
  length (filter (fun x => match x with Free _ => true | _ => false end) o) <= match t with TDepk => 1 | _ => 0 end.
Proof.
  intros c ev t s s' o E. destruct t; cbn [m_thread] in E.
  - unfold run_eject in E. unfold infl.
    assert (K : forall f q x, let v := Z.to_nat (b_vc f) in
      (if ((0 <=? b_vc f)%Z && Nat.ltb v (m_nvc c))%bool then
      if Nat.ltb (length (ejf s v)) (m_ejdepth c) then
        Some ({| inq := q; pendfl := None; ejf := fupd (ejf s) v (ejf s v ++ [to_sflit c f]);
                 pushc := pushc s;
                 pushn := if b_tail f then fupd (pushn s) v (S (pushc s v)) else pushn s;
                 popc := popc s; prioq := prioq s; depk := depk s; constr := constr s;
                 outq := outq s; chunk := chunk s; port := port s |}, x)
      else
        Some ({| inq := q; pendfl := Some f; ejf := ejf s; pushc := pushc s; pushn := pushn s;
                 popc := popc s; prioq := prioq s; depk := depk s; constr := constr s;
                 outq := outq s; chunk := chunk s; port := port s |}, x)
      else None) = Some (s', o) ->
      x = o /\ (forall u, infl s' u = length (ejf s u) + if on_vc u f then 1 else 0) /\
      ((forall v, length (ejf s v) <= m_ejdepth c) -> forall v, length (ejf s' v) <= m_ejdepth c)).
    { intros f q x v X. destruct (_ && _)%bool; [|discriminate].
      destruct (Nat.ltb_spec (length (ejf s v)) (m_ejdepth c)); inversion X; subst; unfold infl; cbn [ejf pendfl]; repeat split; auto.
      - intros u. unfold fupd, on_vc, vcn. fold v. destruct (Nat.eqb_spec u v), (Nat.eqb_spec v u); try congruence; subst; rewrite ?app_length; cbn; lia.
      - intros L u. unfold fupd. destruct (Nat.eqb_spec u v); auto. rewrite app_length. cbn. lia. }
    destruct (pendfl s) as [f|] eqn:P.
    + destruct (K f (inq s) [] E) as (<- & K2 & K3). split; [|split; [auto|cbn; lia]].
      intros v. fold (infl s' v). rewrite K2. reflexivity.
    + destruct (mavail ev) eqn:Av; [destruct (inq s) as [|f r] eqn:Q|].
      * inversion E; subst. rewrite P. split; [auto|split; [auto|cbn; lia]].
      * destruct (K f r [Arrive f] E) as (<- & K2 & K3). split; [|split; [auto|cbn; lia]].
        intros v. fold (infl s' v). rewrite K2. unfold arrivals, frees. cbn. destruct (on_vc v f); cbn; lia.
      * inversion E; subst. rewrite P. split; [auto|split; [auto|cbn; lia]].
  - unfold run_depk in E. destruct (prioq s) as [|v0 q0]; [discriminate|].
    destruct (check _ _ _ _) as [ok0|]; [|discriminate].
    destruct (if depk s then _ else _) as [[[q ok] d]|]; [|discriminate].
    destruct (Nat.ltb d _); [|discriminate].
    destruct (_ && _)%bool.
    + destruct q as [|v q]; [discriminate|]. destruct (ejf s v) as [|f rest] eqn:Q; [discriminate|].
      assert (X : ejf s' = fupd (ejf s) v rest /\ pendfl s' = pendfl s /\ o = [Free v]).
      { destruct (f_tail f); [destruct (Nat.leb _ _); [|discriminate]|]; inversion E; subst; auto. }
      destruct X as (X1 & X2 & ->). split; [|split].
      * intros u. unfold infl, arrivals, frees. rewrite X1, X2. cbn. unfold fupd.
        destruct (Nat.eqb_spec u v) as [->|N].
        -- rewrite Nat.eqb_refl, Q. cbn. lia.
        -- destruct (Nat.eqb_spec v u); [congruence|]. cbn. lia.
      * intros L u. rewrite X1. unfold fupd. destruct (Nat.eqb_spec u v) as [->|N]; auto.
        specialize (L v). rewrite Q in L. cbn in L. lia.
      * cbn. lia.
    + inversion E; subst. split; [reflexivity|]. split; [auto|cbn; lia].
  - destruct (out_loop_frame _ _ _ _ _ _ E) as (A & B & C). split; [|split].
    + intros v. unfold infl. rewrite A, B. destruct (C v). lia.
    + rewrite A. auto.
    + clear A B. assert (Z : forall u, filter (fun x => match x with Free w => Nat.eqb w u | _ => false end) o = []).
      { intros u. destruct (C u) as (C1 & _). unfold frees in C1. destruct (filter _ o); [reflexivity|discriminate]. }
      destruct (filter (fun x => match x with Free _ => true | _ => false end) o) as [|x l] eqn:F; [cbn; lia|].
      exfalso. assert (In x (filter (fun x => match x with Free _ => true | _ => false end) o)) by (rewrite F; left; reflexivity).
      apply filter_In in H. destruct H as (H1 & H2). destruct x as [|w|]; try discriminate.
      assert (In (Free w) (filter (fun x => match x with Free u => Nat.eqb u w | _ => false end) o)).
      { apply filter_In. split; auto. apply Nat.eqb_refl. }
      rewrite Z in H. contradiction.
Qed.

Lemma threads_slots : forall c ev l s s' o, m_threads c ev l s = Some (s', o) ->
  (forall v, arrivals v o + infl s v = frees v o + infl s' v) /\
  ((forall v, length (ejf s v) <= m_ejdepth c) -> forall v, length (ejf s' v) <= m_ejdepth c).
Proof.
  intros c ev l. induction l as [|t l IH]; intros s s' o E; cbn in E.
  - inversion E; subst. split; auto.
  - destruct (m_thread c ev t s) as [[s1 o1]|] eqn:E1; [|discriminate].
    destruct (m_threads c ev l s1) as [[s2 o2]|] eqn:E2; [|discriminate]. inversion E; subst.
    destruct (thread_slots _ _ _ _ _ _ E1) as (A1 & A2 & _). destruct (IH _ _ _ E2) as (B1 & B2). split; auto.
    intros v. rewrite arrivals_app, frees_app. specialize (A1 v). specialize (B1 v). lia.
Qed.

Lemma run_slots : forall c evs s s' o, m_run c evs s = Some (s', o) ->
  (forall v, arrivals v o + infl s v = frees v o + infl s' v) /\
  ((forall v, length (ejf s v) <= m_ejdepth c) -> forall v, length (ejf s' v) <= m_ejdepth c).
Proof.
  intros c evs. induction evs as [|ev evs IH]; intros s s' o E; cbn in E.
  - inversion E; subst. split; auto.
  - destruct (m_step c ev s) as [[s1 o1]|] eqn:E1; [|discriminate].
    destruct (m_run c evs s1) as [[s2 o2]|] eqn:E2; [|discriminate]. inversion E; subst.
    unfold m_step in E1. destruct (m_threads c ev (mths ev) s) as [[s0 o0]|] eqn:E0; [|discriminate].
    inversion E1; subst.
    destruct (threads_slots _ _ _ _ _ _ E0) as (A1 & A2). destruct (IH _ _ _ E2) as (B1 & B2). split; [|intros H; apply B2; exact (A2 H)].
    intros v. rewrite arrivals_app, frees_app. specialize (A1 v). specialize (B1 v).
    change (infl (commit s0) v) with (infl s0 v) in B1. lia.
Qed.
