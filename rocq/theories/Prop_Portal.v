(** C20, C60 : the portal. *)
From Coq Require Import ZArith Bool List Lia.
From Verif Require Import InterRadModel PortalModel PortalSpec PortalProofs.
Import ListNotations.

(** C20. In both directions the transactions handed over, followed by those still inside, are
    exactly the transactions taken in, in order. *)
Theorem C20_lossless_queue : forall l t1 t2 s ia oa ib ob, Forall (fun e => fst (fst e) = false) l ->
  portal_run l {| to_net := pdir0 t1; to_noc := pdir0 t2 |} = (s, (ia, oa), (ib, ob)) ->
  ia = oa ++ p_q (to_net s) /\ ib = ob ++ p_q (to_noc s).
Proof.
  intros l t1 t2 s ia oa ib ob F H. rewrite portal_split in H by auto. cbn [to_net to_noc] in H.
  destruct (pdir_run (map (fun e => snd (fst e)) l) (pdir0 t1)) as [[s1 a1] b1] eqn:R1.
  destruct (pdir_run (map (fun e => snd e) l) (pdir0 t2)) as [[s2 a2] b2] eqn:R2. inversion H; subst; clear H.
  destruct (pdir_queue _ _ _ _ _ R1) as [A _]; [intros X; discriminate X|].
  destruct (pdir_queue _ _ _ _ _ R2) as [B _]; [intros X; discriminate X|]. cbn in *. auto.
Qed.
Print Assumptions C20_lossless_queue.

Definition tx (n : Z) : txn := {| x_data := n; x_user := n + 1; x_last := false; x_dest := n + 2 |}.
Definition pi (v : bool) (n : Z) (m : bool) : pin := {| pi_valid := v; pi_ready := true; pi_txn := tx n; pi_mready := m |}.
Definition ex_events : list pevent :=
  [(false, pi true 1 true, pi false 0 true); (false, pi true 2 false, pi true 7 false); (false, pi true 3 true, pi true 8 true); (false, pi false 0 true, pi false 0 true)].
Example C20_lossless_queue_ex : exists s, portal_run ex_events {| to_net := pdir0 (tx 0); to_noc := pdir0 (tx 0) |} = (s, ([tx 1; tx 2; tx 3], [tx 1; tx 2]), ([tx 7; tx 8], [tx 7; tx 8])).
Proof. eexists. reflexivity. Qed.

(** C20. A transaction on offer that is not accepted stays on offer, unchanged. *)
Theorem C20_payload_stable : forall l t1 s ia oa i, pdir_run l (pdir0 t1) = (s, ia, oa) ->
  p_valid s = true -> pi_mready i = false -> p_valid (pdir_tick i s) = true /\ p_out (pdir_tick i s) = p_out s.
Proof.
  intros l t1 s ia oa i H V M. destruct (pdir_queue _ _ _ _ _ H) as [_ P]; [intros X; discriminate X|]. apply tick_stable; auto.
Qed.
Print Assumptions C20_payload_stable.

Example C20_payload_stable_ex : let s := fst (fst (pdir_run [pi true 1 false; pi true 2 false] (pdir0 (tx 0)))) in p_valid s = true /\ p_out s = tx 1.
Proof. split; reflexivity. Qed.

(** C20. With a ready receiver everything inside is handed over within size + 1 edges, whatever
    else arrives. *)
Theorem C20_drains : forall l0 l t1 s0 i0 o0 s ia oa, pdir_run l0 (pdir0 t1) = (s0, i0, o0) ->
  pdir_run l s0 = (s, ia, oa) -> Forall (fun i => pi_mready i = true) l -> (length (p_q s0) + 1 <= length l)%nat ->
  exists rest, oa = p_q s0 ++ rest.
Proof.
  intros l0 l t1 s0 i0 o0 s ia oa H0 H F L. destruct (pdir_queue _ _ _ _ _ H0) as [_ P]; [intros X; discriminate X|].
  destruct (pdir_queue _ _ _ _ _ H P) as [A _].
  assert (K : (length (p_q s0) <= length oa)%nat) by (eapply pdir_drain; eauto; destruct (p_valid s0); lia).
  exists (skipn (length (p_q s0)) oa).
  assert (E : firstn (length (p_q s0)) oa = p_q s0).
  { apply (f_equal (firstn (length (p_q s0)))) in A. rewrite firstn_app, Nat.sub_diag, firstn_all in A. cbn in A. rewrite app_nil_r in A.
    rewrite firstn_app in A. replace (length (p_q s0) - length oa)%nat with 0%nat in A by lia. cbn in A. rewrite app_nil_r in A. auto. }
  rewrite <- E at 1. symmetry. apply firstn_skipn.
Qed.
Print Assumptions C20_drains.

Example C20_drains_ex : exists s0 i0 o0 s ia oa, pdir_run [pi true 1 false; pi true 2 false] (pdir0 (tx 0)) = (s0, i0, o0) /\
  pdir_run [pi true 3 true; pi false 0 true; pi false 0 true] s0 = (s, ia, oa) /\ oa = [tx 1; tx 2; tx 3].
Proof. repeat eexists. Qed.

(** C60 is false: a reset while the network takes a transaction makes the portal send it again. *)
Theorem C60_reset_no_duplicate_refuted :
  ~ (forall l t1 t2 s ia oa ib ob, portal_run l {| to_net := pdir0 t1; to_noc := pdir0 t2 |} = (s, (ia, oa), (ib, ob)) ->
       exists rest, ia = oa ++ rest).
Proof.
  intros H.
  destruct (H [(false, pi true 1 true, pi false 0 true); (true, pi false 0 true, pi false 0 true);
               (false, pi false 0 true, pi false 0 true); (false, pi false 0 true, pi false 0 true)] (tx 0) (tx 0) _ _ _ _ _ eq_refl) as [rest E].
  discriminate E.
Qed.
Print Assumptions C60_reset_no_duplicate_refuted.

Example C60_reset_no_duplicate_refuted_ex : exists s, portal_run [(false, pi true 1 true, pi false 0 true); (true, pi false 0 true, pi false 0 true);
   (false, pi false 0 true, pi false 0 true); (false, pi false 0 true, pi false 0 true)] {| to_net := pdir0 (tx 0); to_noc := pdir0 (tx 0) |}
   = (s, ([tx 1], [tx 1; tx 1]), ([], [])).
Proof. eexists. reflexivity. Qed.

(** C60. What holds with any reset pulses: what is taken over while reset is inactive, followed by
    what is inside, is exactly what came in, in order.  A transaction that the receiver takes while
    reset is active is the next one to be handed over, and is not removed: so it is sent again. *)
Theorem C60_reset_exact : forall l t1 t2 s ia oa ib ob,
  let s0 := {| to_net := pdir0 t1; to_noc := pdir0 t2 |} in
  portal_run l s0 = (s, (ia, oa), (ib, ob)) ->
  (oa = map snd (handed to_net net_in l s0) /\
   ia = map snd (filter (fun x => negb (fst x)) (handed to_net net_in l s0)) ++ p_q (to_net s) /\
   forall h1 t h2, handed to_net net_in l s0 = h1 ++ (true, t) :: h2 ->
     nth_error ia (length (filter (fun x => negb (fst x)) h1)) = Some t) /\
  (ob = map snd (handed to_noc noc_in l s0) /\
   ib = map snd (filter (fun x => negb (fst x)) (handed to_noc noc_in l s0)) ++ p_q (to_noc s) /\
   forall h1 t h2, handed to_noc noc_in l s0 = h1 ++ (true, t) :: h2 ->
     nth_error ib (length (filter (fun x => negb (fst x)) h1)) = Some t).
Proof.
  intros l t1 t2 s ia oa ib ob s0 H. destruct (portal_run_handed _ _ _ _ _ _ _ H) as (-> & -> & -> & -> & ->).
  split; (split; [reflexivity|]).
  - apply (fun A B => reset_queue to_net net_in A B l s0).
    + intros [[rst a] b] [sa sb]. destruct rst; reflexivity.
    + intros a b sa X. discriminate X.
    + intros X. discriminate X.
  - apply (fun A B => reset_queue to_noc noc_in A B l s0).
    + intros [[rst a] b] [sa [q v o]]. destruct rst; reflexivity.
    + intros a b sa X. exact X.
    + intros X. discriminate X.
Qed.
Print Assumptions C60_reset_exact.

Example C60_reset_exact_ex : handed to_net net_in [(false, pi true 1 true, pi false 0 true); (true, pi false 0 true, pi false 0 true);
   (false, pi true 2 true, pi false 0 true); (false, pi false 0 true, pi false 0 true); (false, pi false 0 true, pi false 0 true)]
   {| to_net := pdir0 (tx 0); to_noc := pdir0 (tx 0) |} = [(true, tx 1); (false, tx 1); (false, tx 2)].
Proof. reflexivity. Qed.
