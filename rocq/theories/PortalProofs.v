From Coq Require Import ZArith Bool List Lia.
From Verif Require Import InterRadModel PortalModel PortalSpec.
Import ListNotations.

Definition pok (s : pdir) : Prop := p_valid s = true -> exists q, p_q s = p_out s :: q.

Lemma tick_ok : forall i s, pok (pdir_tick i s).
Proof.
  intros i s. unfold pdir_tick, pok. destruct (if p_valid s && pi_mready i then _ else _); cbn; [discriminate|]. eauto.
Qed.

Lemma tick_q : forall i s, pok s -> p_q s ++ took i = gave i s ++ p_q (pdir_tick i s).
Proof.
  intros i s P. unfold took, gave, pdir_tick.
  assert (X : forall q2 o, p_q (match q2 with t :: _ => {| p_q := q2; p_valid := true; p_out := t |} | [] => {| p_q := []; p_valid := false; p_out := o |} end) = q2).
  { intros q2 o. destruct q2; auto. }
  rewrite X. destruct (p_valid s) eqn:V; cbn [andb].
  - destruct (P V) as [q ->]. destruct (pi_valid i && pi_ready i), (pi_mready i); cbn; rewrite ?app_nil_r; auto.
  - destruct (pi_valid i && pi_ready i); cbn; rewrite ?app_nil_r; auto.
Qed.

Lemma pdir_queue : forall l s s' ins outs, pdir_run l s = (s', ins, outs) -> pok s -> p_q s ++ ins = outs ++ p_q s' /\ pok s'.
Proof.
  induction l as [|i l IH]; intros s s' ins outs H P; cbn in H.
  - inversion H; subst. rewrite app_nil_r. auto.
  - destruct (pdir_run l (pdir_tick i s)) as [[s1 a] b] eqn:R. inversion H; subst; clear H.
    destruct (IH _ _ _ _ R (tick_ok i s)) as [A B]. split; auto.
    rewrite app_assoc, (tick_q i s P), <- app_assoc, A, app_assoc. auto.
Qed.

Lemma tick_stable : forall i s, pok s -> p_valid s = true -> pi_mready i = false ->
  p_valid (pdir_tick i s) = true /\ p_out (pdir_tick i s) = p_out s.
Proof.
  intros i s P V M. destruct (P V) as [q Q]. unfold pdir_tick. rewrite V, M, Q. cbn.
  destruct (pi_valid i && pi_ready i); cbn; auto.
Qed.

(** Progress: with a ready receiver everything is handed over. *)
Lemma pdir_drain : forall l s s' ins outs, pdir_run l s = (s', ins, outs) -> pok s ->
  Forall (fun i => pi_mready i = true) l ->
  (length (p_q s) + (if p_valid s then 0 else 1) <= length l)%nat -> (length (p_q s) <= length outs)%nat.
Proof.
  induction l as [|i l IH]; intros s s' ins outs H P F L; cbn in H.
  - cbn in L. lia.
  - destruct (pdir_run l (pdir_tick i s)) as [[s1 a] b] eqn:R. inversion H; subst; clear H.
    inversion F as [|? ? F1 F2]; subst. cbn in L. rewrite app_length.
    pose proof (tick_q i s P) as T. apply (f_equal (@length txn)) in T. rewrite !app_length in T.
    assert (B : (length (p_q (pdir_tick i s)) <= length (p_q s))%nat \/ True) by auto. clear B.
    destruct (Nat.le_gt_cases (length (p_q s)) (length (gave i s))) as [|GT]; [lia|].
    assert (V : (length (p_q (pdir_tick i s)) > 0)%nat) by lia.
    assert (VT : p_valid (pdir_tick i s) = true).
    { revert V. unfold pdir_tick. destruct (if p_valid s && pi_mready i then _ else _); cbn; [lia|auto]. }
    (* the front is handed over later; newer entries only sit behind it *)
    assert (G : length (gave i s) = if p_valid s then 1%nat else 0%nat) by (unfold gave; rewrite F1; destruct (p_valid s); auto).
    assert (M : forall l s s' ins outs n, pdir_run l s = (s', ins, outs) -> pok s -> Forall (fun i => pi_mready i = true) l ->
       p_valid s = true -> (n <= length (p_q s))%nat -> (n <= length l)%nat -> (n <= length outs)%nat).
    { clear. induction l as [|i l IH]; intros s s' ins outs n H P F V N L; cbn in *; [lia|].
      destruct (pdir_run l (pdir_tick i s)) as [[s1 a] b] eqn:R. inversion H; subst; clear H.
      inversion F as [|? ? F1 F2]; subst. unfold gave. rewrite V, F1. cbn.
      destruct n; [lia|]. destruct n; [lia|].
      pose proof (tick_q i s P) as T. apply (f_equal (@length txn)) in T. rewrite !app_length in T. unfold gave in T. rewrite V, F1 in T. cbn in T.
      assert (VT : p_valid (pdir_tick i s) = true).
      { assert (X : (length (p_q (pdir_tick i s)) > 0)%nat) by lia. revert X.
        unfold pdir_tick. destruct (if p_valid s && pi_mready i then _ else _); cbn; [lia|auto]. }
      assert (S n <= length b)%nat; [apply (IH _ _ _ _ (S n) R (tick_ok i s) F2 VT); lia|lia]. }
    specialize (M l (pdir_tick i s) s' a b (length (p_q s) - length (gave i s))%nat R (tick_ok i s) F2 VT).
    assert (length (p_q s) - length (gave i s) <= length b)%nat; [apply M; destruct (p_valid s); lia|lia].
Qed.

(** Without reset the portal is its two directions. *)
Lemma portal_split : forall l s, Forall (fun e => fst (fst e) = false) l ->
  portal_run l s =
    (let '(s1, ia, oa) := pdir_run (map (fun e => snd (fst e)) l) (to_net s) in
     let '(s2, ib, ob) := pdir_run (map (fun e => snd e) l) (to_noc s) in
     ({| to_net := s1; to_noc := s2 |}, (ia, oa), (ib, ob))).
Proof.
  induction l as [|[[rst a] b] l IH]; intros s F; cbn; [destruct s; auto|].
  inversion F as [|? ? F1 F2]; subst. cbn in F1. subst rst. rewrite IH by auto. cbn.
  destruct (pdir_run (map (fun e => snd (fst e)) l) (pdir_tick a (to_net s))) as [[? ?] ?].
  destruct (pdir_run (map (fun e => snd e) l) (pdir_tick b (to_noc s))) as [[? ?] ?]. auto.
Qed.

(** With resets. *)
Section Reset.
Variables (sel : portal -> pdir) (inp : pevent -> pin).
Hypothesis SEL : forall (e : pevent) s, sel (portal_tick (fst (fst e)) (snd (fst e)) (snd e) s) =
  (if fst (fst e) then {| p_q := p_q (sel s); p_valid := p_valid (sel (portal_tick true (snd (fst e)) (snd e) s)); p_out := p_out (sel s) |}
   else pdir_tick (inp e) (sel s)).
Hypothesis VAL : forall a b s, p_valid (sel (portal_tick true a b s)) = true -> p_valid (sel s) = true.

Lemma reset_queue : forall l s, pok (sel s) ->
  p_q (sel s) ++ flat_map (fun e : pevent => if fst (fst e) then [] else took (inp e)) l =
    map snd (filter (fun x => negb (fst x)) (handed sel inp l s)) ++ p_q (sel (after l s)) /\
  forall h1 t h2, handed sel inp l s = h1 ++ (true, t) :: h2 ->
    nth_error (p_q (sel s) ++ flat_map (fun e : pevent => if fst (fst e) then [] else took (inp e)) l)
      (length (filter (fun x => negb (fst x)) h1)) = Some t.
Proof.
  induction l as [|e l IH]; intros s P.
  - cbn. split; [rewrite app_nil_r; reflexivity|]. intros h1 t h2 X. destruct h1; discriminate.
  - cbn [handed after flat_map]. pose proof (SEL e s) as SE. set (s1 := portal_tick _ _ _ s) in *.
    assert (P1 : pok (sel s1)).
    { rewrite SE. destruct (fst (fst e)); [|apply tick_ok]. intros V. cbn [p_valid p_q p_out] in *. apply P. eapply VAL; eauto. }
    destruct (IH s1 P1) as (A & B). clear IH. rewrite filter_app, map_app.
    destruct (fst (fst e)) eqn:R.
    + assert (Q : p_q (sel s1) = p_q (sel s)) by (rewrite SE; reflexivity). rewrite Q in *. cbn [app].
      assert (F : filter (fun x : bool * txn => negb (fst x)) (map (pair true) (gave (inp e) (sel s))) = []).
      { clear. induction (gave (inp e) (sel s)) as [|g gs IHg]; [reflexivity|exact IHg]. }
      rewrite F. cbn [map app]. split; [exact A|]. intros h1 t h2 X.
      unfold gave in X. destruct (p_valid (sel s) && pi_mready (inp e)) eqn:V.
      * cbn [map app] in X. destruct h1 as [|y h1]; cbn [app] in X; inversion X; subst; clear X.
        -- cbn. apply andb_true_iff in V. destruct (P (proj1 V)) as (q & ->). reflexivity.
        -- cbn [filter fst negb]. eapply B; eauto.
      * cbn [map app] in X. eapply B; eauto.
    + pose proof (tick_q (inp e) (sel s) P) as T. rewrite <- SE in T.
      assert (F : map snd (filter (fun x : bool * txn => negb (fst x)) (map (pair false) (gave (inp e) (sel s)))) = gave (inp e) (sel s)).
      { clear. induction (gave (inp e) (sel s)) as [|g gs IHg]; [reflexivity|]. cbn. f_equal. exact IHg. }
      rewrite F. rewrite app_assoc, T, <- !app_assoc, A. split; [reflexivity|].
      intros h1 t h2 X. rewrite <- A. unfold gave in *. destruct (p_valid (sel s) && pi_mready (inp e)) eqn:V.
      * cbn [map app] in X. destruct h1 as [|y h1]; cbn [app] in X; inversion X; subst; clear X.
        cbn. eapply B; eauto.
      * cbn [map app] in X |- *. eapply B; eauto.
Qed.
End Reset.

Lemma portal_run_handed : forall l s s' ia oa ib ob, portal_run l s = (s', (ia, oa), (ib, ob)) ->
  s' = after l s /\ oa = map snd (handed to_net net_in l s) /\ ob = map snd (handed to_noc noc_in l s) /\
  ia = flat_map (fun e : pevent => if fst (fst e) then [] else took (net_in e)) l /\
  ib = flat_map (fun e : pevent => if fst (fst e) then [] else took (noc_in e)) l.
Proof.
  induction l as [|[[rst a] b] l IH]; intros s s' ia oa ib ob H; cbn [portal_run] in H.
  - inversion H; subst. repeat split; reflexivity.
  - destruct (portal_run l (portal_tick rst a b s)) as [[s2 [ia2 oa2]] [ib2 ob2]] eqn:R. inversion H; subst; clear H.
    destruct (IH _ _ _ _ _ _ R) as (-> & -> & -> & -> & ->). cbn [handed after flat_map fst snd net_in noc_in].
    rewrite !map_app. unfold net_in, noc_in. cbn [fst snd].
    assert (M : forall (r : bool) (g : list txn), map (@snd bool txn) (map (pair r) g) = g).
    { intros r g. induction g as [|x g IHg]; [reflexivity|]. cbn. f_equal. exact IHg. }
    rewrite !M. repeat split; reflexivity.
Qed.
