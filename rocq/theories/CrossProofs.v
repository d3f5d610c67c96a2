From Coq Require Import ZArith Bool List Lia.
From Verif Require Import Bits BitsProofs AxisFormatModel AxisFormatProofs Fupd InterRadModel InterRadSpec InterRadProofs PortalModel PortalProofs CrossModel CrossSpec.
Import ListNotations.

Lemma swap_fields : forall w d, (0 < destfw w)%Z ->
  dest_rad w (swap_dest w d) = dest_rad w d /\ dest_local w (swap_dest w d) = dest_remote w d.
Proof.
  intros w d H. unfold swap_dest, dest_rad, dest_local. split.
  - rewrite !get_set_other by lia. auto.
  - rewrite get_set_other by lia. rewrite get_set_same by lia. unfold dest_remote.
    pose proof (get_range (2 * destfw w - 1) (destfw w) d ltac:(lia) ltac:(lia)) as R.
    replace (2 * destfw w - 1 - destfw w + 1)%Z with (destfw w) in R by lia.
    replace (destfw w - 1 - 0 + 1)%Z with (destfw w) by lia. apply trunc_small; lia.
Qed.

Lemma stored_arrives : forall w t, (0 < destfw w)%Z -> arrives_as w t (stored w t).
Proof. intros w t H. unfold arrives_as, stored. cbn. destruct (swap_fields w (x_dest t) H). auto. Qed.

Lemma cross_address : forall w my r n portal portal' d,
  (0 < destfw w)%Z -> (0 <= my < 2 ^ destfw w)%Z -> (0 <= portal < 2 ^ destfw w)%Z -> dest_rad w d = r -> dest_remote w d = n -> r <> my ->
  let b1 := to_booksim_dest w my portal d in
  let d2 := swap_dest w (from_booksim_dest w b1) in
  bs_node b1 = portal /\ dest_rad w d2 = r /\ bs_node (to_booksim_dest w r portal' d2) = n.
Proof.
  intros w my r n portal portal' d H M P Hr Hn N b1 d2.
  destruct (from_to_booksim_dest_fields w H my portal d P) as (A & B & C). fold b1 in A, B, C.
  destruct (swap_fields w (from_booksim_dest w b1) H) as (X & Y). fold d2 in X, Y.
  assert (R : (0 <= r < 2 ^ destfw w)%Z).
  { rewrite <- Hr. unfold dest_rad. pose proof (get_range (3 * destfw w - 1) (2 * destfw w) d ltac:(lia) ltac:(lia)) as R.
    replace (3 * destfw w - 1 - 2 * destfw w + 1)%Z with (destfw w) in R by lia. auto. }
  split; [|split].
  - unfold b1, to_booksim_dest. cbn [bs_node]. rewrite Hr, trunc_small by lia. destruct (Z.eqb_spec r my); [contradiction|].
    apply trunc_small; [lia|]. assert (2 ^ destfw w <= 2 ^ (3 * destfw w))%Z by (apply Z.pow_le_mono_r; lia). lia.
  - congruence.
  - unfold to_booksim_dest. cbn [bs_node]. rewrite X, A, Hr. rewrite trunc_small by lia. rewrite Z.eqb_refl. congruence.
Qed.

Definition opt {A} (o : option A) : list A := match o with Some x => [x] | None => [] end.

Lemma of_source_filter : forall i ev, of_source i ev = map evt (filter (fun x => Nat.eqb (src x) i) ev).
Proof.
  intros i ev. induction ev as [|[[j t] b] ev IH]; auto.
  change (of_source i ((j, t, b) :: ev)) with ((if Nat.eqb j i then [t] else []) ++ of_source i ev). rewrite IH.
  cbn [filter]. unfold src at 2. cbn [fst]. destruct (Nat.eqb j i); auto.
Qed.

Lemma of_source_app : forall i a b, of_source i (a ++ b) = of_source i a ++ of_source i b.
Proof. intros. unfold of_source. apply flat_map_app. Qed.
Lemma kept_for_app : forall w i a b, kept_for w i (a ++ b) = kept_for w i a ++ kept_for w i b.
Proof. intros. unfold kept_for. apply flat_map_app. Qed.

Definition rdy_ok (s : irst) : Prop := i_started s = false -> forall i, i_ready s i = false.

Lemma crun_parts : forall c l s s' os, crun c l s = Some (s', os) -> quiet c (cs_net s) -> rdy_ok (cs_net s) ->
  (forall i, pok (cs_out s i)) -> (forall i, pok (cs_in s i)) ->
  exists li nos, ir_run c li (cs_net s) = Some (cs_net s', nos) /\ map fst nos = map co_ev os /\ length li = length l /\
    (forall i, (i < ir_rads c)%nat -> exists g, p_q (cs_out s i) ++ sent_by i os = g ++ p_q (cs_out s' i) /\ of_source i (serial os) = map (stored (ir_w c)) g) /\
    (forall d k, p_q (cs_in s d) ++ opt (i_out (cs_net s) d) ++ map snd (shown d k nos) = got_by d os ++ p_q (cs_in s' d) ++ opt (i_out (cs_net s') d)) /\
    (forall i, pok (cs_out s' i)) /\ (forall i, pok (cs_in s' i)).
Proof.
  induction l as [|n l IH]; intros s s' os H Q RO PO PI; cbn in H.
  - inversion H; subst. exists [], []. cbn. split; [auto|]. split; [auto|]. split; [auto|]. split.
    + intros i _. exists []. cbn. rewrite app_nil_r. auto.
    + split; [|auto]. intros. rewrite app_nil_r. auto.
  - destruct (cstep c n s) as [[s1 e]|] eqn:C; [|discriminate].
    destruct (crun c l s1) as [[s2 os2]|] eqn:R; [|discriminate]. inversion H; subst; clear H.
    unfold cstep in C. destruct (edge c (ci_w n) (net_in s) (cs_net s)) as [[net' e']|] eqn:E; [|discriminate].
    injection C as C1 C2. subst s1 e'.
    destruct (edge_sem _ _ _ _ _ _ E Q) as (Q1 & _ & St & _ & _ & EF & E0).
    destruct (edge_src _ _ _ _ _ _ E Q) as (S1 & _).
    specialize (IH _ _ _ R). cbn [cs_net cs_out cs_in] in IH.
    destruct IH as (li & nos & I1 & I2 & I2' & I3 & I4 & I5 & I6); auto.
    { intros X. congruence. }
    { intros i. apply tick_ok. }
    { intros i. apply tick_ok. }
    exists ((ci_w n, net_in s) :: li), ((e, i_out net') :: nos). cbn [ir_run map fst]. rewrite E, I1.
    split; [auto|]. split; [cbn [co_ev]; f_equal; auto|]. split; [cbn; auto|]. split.
    + intros i Hi. destruct (I3 i Hi) as (g & G1 & G2).
      set (pn := pin_of txn0 (ci_tx n i) (i_ready (cs_net s) i)) in *.
      exists (gave pn (cs_out s i) ++ g). cbn [sent_by flat_map co_tk]. fold (sent_by i os2). fold pn. split.
      * rewrite app_assoc, (tick_q pn _ (PO i)), <- !app_assoc, G1. auto.
      * match goal with |- of_source i (serial (?z :: os2)) = _ => change (serial (z :: os2)) with (e ++ serial os2) end.
        rewrite of_source_app, map_app, G2. f_equal. rewrite of_source_filter. destruct (i_started (cs_net s)) eqn:SS.
        -- rewrite (S1 i Hi eq_refl). unfold offered, net_in, gave, pn, pin_of.
           destruct (p_valid (cs_out s i)), (ci_tx n i), (i_ready (cs_net s) i); cbn; auto.
        -- rewrite (E0 eq_refl). unfold gave, pn, pin_of. rewrite (RO SS i). destruct (ci_tx n i); cbn; rewrite andb_false_r; auto.
    + split; [|auto]. intros d k. cbn [shown snd got_by flat_map co_hd]. fold (got_by d os2).
      set (pn := pin_of txn0 (i_out (cs_net s) d) (ci_rdy n d)) in *.
      specialize (I4 d (S k)). cbn [cs_in] in I4.
      assert (TK : opt (i_out (cs_net s) d) = took pn) by (unfold took, pn, pin_of, opt; destruct (i_out (cs_net s) d); auto).
      rewrite TK, app_assoc, (tick_q pn _ (PI d)), map_app, <- !app_assoc. f_equal.
      rewrite <- I4. f_equal. unfold opt. destruct (i_out net' d); auto.
Qed.

Lemma kept_for_at : forall c d os nos, map fst nos = map co_ev os ->
  forall k, kept_for (ir_w c) d (serial os) = map snd (entered c d k nos).
Proof.
  intros c d os. induction os as [|o os IH]; intros [|p nos] H k; cbn in H; try discriminate; auto.
  injection H as H1 H2. cbn [entered]. change (serial (o :: os)) with (co_ev o ++ serial os). rewrite kept_for_app.
  rewrite map_app, (IH _ H2 (S k)). f_equal. rewrite map_map. cbn. rewrite map_id, H1. unfold kept_for, kept_at.
  apply flat_map_ext. intros [[j t] b]. destruct b; auto.
Qed.

Lemma cross_delivery : forall c l s os, (0 < destfw (ir_w c))%Z -> crun c l csys0 = Some (s, os) ->
  (forall i, (i < ir_rads c)%nat -> exists gone rest, sent_by i os = gone ++ rest /\ Forall2 (arrives_as (ir_w c)) gone (of_source i (serial os))) /\
  (forall d, (d < ir_rads c)%nat -> exists rest, kept_for (ir_w c) d (serial os) = got_by d os ++ rest).
Proof.
  intros c l s os W H.
  destruct (crun_parts c l csys0 s os H) as (li & nos & A & B & _ & C & D & _).
  { apply quiet0. }
  { intros _ i. reflexivity. }
  { intros i X. discriminate X. }
  { intros i X. discriminate X. }
  split.
  - intros i Hi. destruct (C i Hi) as (g & G1 & G2). exists g, (p_q (cs_out s i)). split; [exact G1|]. rewrite G2.
    clear G1 G2. induction g; cbn; constructor; auto. apply stored_arrives; auto.
  - intros d Hd. destruct (run_safety _ _ _ _ _ A Hd) as (pre & rest & X & Y).
    rewrite (kept_for_at c d os nos B 0), X, map_app. specialize (D d 0%nat). cbn in D.
    assert (E : map snd pre = map snd (shown d 0 nos)).
    { clear -Y. induction Y as [|a b p q M F IH]; cbn; auto. destruct M as (M & _). rewrite M, IH. auto. }
    rewrite E, D, <- !app_assoc. eauto.
Qed.
