From Coq Require Import ZArith Bool List Lia Sorted.
From Verif Require Import Bits BitsProofs AxisFormatModel Fupd InterRadModel InterRadSpec.
Import ListNotations.

Definition destd (c : ircfg) (t : txn) : nat := Z.to_nat (dest_rad (ir_w c) (x_dest t)).

(** Effect of the write loop. *)
Lemma write_loop_sem : forall c inp l s s' e, write_loop c inp l s = Some (s', e) ->
  (forall d, f_q (i_fifo s' d) = f_q (i_fifo s d) /\ f_num (i_fifo s' d) = f_num (i_fifo s d) /\
     f_w (i_fifo s' d) = f_w (i_fifo s d) ++ kept_at c d e /\
     f_lat (i_fifo s' d) = f_lat (i_fifo s d) ++ repeat 0%Z (length (kept_at c d e))) /\
  i_out' s' = i_out' s /\ i_out s' = i_out s /\ i_ready s' = i_ready s /\ i_bw s' = i_bw s /\ i_started s' = i_started s /\
  (forall i, In i l -> i_ready' s' i = (i_bw s <? ir_accept c)%Z) /\
  (forall x, In x e -> (destd c (snd (fst x)) < ir_rads c)%nat /\ In (fst (fst x)) l /\ i_ready s (fst (fst x)) = true).
Proof.
  induction l as [|i l IH]; intros s s' e H; cbn in H.
  - inversion H; subst. cbn. split; [intros d; rewrite !app_nil_r; auto|]. repeat (split; auto); try contradiction.
  - destruct (write_one c inp i s) as [[s1 e1]|] eqn:W; [|discriminate].
    destruct (write_loop c inp l s1) as [[s2 e2]|] eqn:L; [|discriminate]. inversion H; subst; clear H.
    destruct (IH _ _ _ L) as (A & B1 & B2 & B3 & B4 & B5 & B6 & B7).
    assert (W1 : (forall d, f_q (i_fifo s1 d) = f_q (i_fifo s d) /\ f_num (i_fifo s1 d) = f_num (i_fifo s d) /\
       f_w (i_fifo s1 d) = f_w (i_fifo s d) ++ kept_at c d e1 /\
       f_lat (i_fifo s1 d) = f_lat (i_fifo s d) ++ repeat 0%Z (length (kept_at c d e1))) /\
      i_out' s1 = i_out' s /\ i_out s1 = i_out s /\ i_ready s1 = i_ready s /\ i_bw s1 = i_bw s /\ i_started s1 = i_started s /\
      i_ready' s1 i = (i_bw s <? ir_accept c)%Z /\
      (forall x, In x e1 -> (destd c (snd (fst x)) < ir_rads c)%nat /\ fst (fst x) = i /\ i_ready s (fst (fst x)) = true)).
    { unfold write_one in W. destruct (inp i) as [t|].
      - destruct (i_ready s i) eqn:R.
        + set (t' := {| x_data := _ |}) in W. fold (destd c t') in W. destruct (Nat.ltb_spec (destd c t') (ir_rads c)); [|discriminate].
          unfold nb_write in W. destruct (Nat.ltb (f_num (i_fifo s (destd c t')) + _) _).
          * inversion W; subst; clear W. cbn. split; [|repeat (split; [auto; apply fupd_same|])].
            -- intros d. unfold destd in *. destruct (Nat.eqb_spec (Z.to_nat (dest_rad (ir_w c) (swap_dest (ir_w c) (x_dest t)))) d) as [<-|N].
               ++ unfold t'. cbn [x_dest]. rewrite fupd_same. cbn. auto.
               ++ cbn in N. rewrite fupd_other by (unfold t'; cbn [x_dest]; auto). cbn. rewrite !app_nil_r. auto.
            -- intros x [<-|[]]. cbn. auto.
          * inversion W; subst; clear W. cbn. split; [intros d; rewrite !app_nil_r; auto|]. repeat (split; [auto; apply fupd_same|]).
            intros x [<-|[]]. cbn. auto.
        + inversion W; subst; clear W. cbn. split; [intros d; rewrite !app_nil_r; auto|]. repeat (split; [auto; apply fupd_same|]). intros x [].
      - inversion W; subst; clear W. cbn. split; [intros d; rewrite !app_nil_r; auto|]. repeat (split; [auto; apply fupd_same|]). intros x []. }
    destruct W1 as (X & Y1 & Y2 & Y3 & Y4 & Y5 & Y6 & Y7).
    split; [|split; [congruence|split; [congruence|split; [congruence|split; [congruence|split; [congruence|split]]]]]].
    + intros d. destruct (A d) as (A1 & A2 & A3 & A4), (X d) as (X1 & X2 & X3 & X4).
      unfold kept_at in *. rewrite flat_map_app. rewrite A1, A2, A3, A4, X1, X2, X3, X4. rewrite app_length, repeat_app, !app_assoc. auto.
    + intros j [->|Hj]; [|rewrite B6, Y4; auto].
      destruct (in_dec Nat.eq_dec j l) as [Q|Q]; [rewrite B6, Y4; auto|].
      rewrite <- Y6. clear -L Q. revert s1 s' e2 L. induction l as [|k l IH]; intros s1 s' e2 L; cbn in L; [inversion L; auto|].
      destruct (write_one c inp k s1) as [[s2 e3]|] eqn:W; [|discriminate].
      destruct (write_loop c inp l s2) as [[s3 e4]|] eqn:L2; [|discriminate]. inversion L; subst; clear L.
      rewrite (IH ltac:(cbn in Q; tauto) _ _ _ L2). clear -W Q. unfold write_one in W.
      assert (N : j <> k) by (cbn in Q; intuition).
      destruct (inp k); [destruct (i_ready s1 k)|]; [destruct (Nat.ltb _ _); [destruct (nb_write _ _ _)|discriminate]|..];
        inversion W; subst; cbn; apply fupd_other; auto.
    + intros x Hx. apply in_app_iff in Hx. destruct Hx as [Hx|Hx].
      * destruct (Y7 x Hx) as (P & Q & R). split; auto. split; auto. left; auto.
      * destruct (B7 x Hx) as (P & Q & R). split; auto. split; [right; auto|congruence].
Qed.

(** Effect of reading one FIFO. *)
Definition pops (c : ircfg) (f : fifo) : bool :=
  match f_q f, f_lat f with _ :: _, x :: _ => (ir_latency c <=? x + 1)%Z | _, _ => false end.
Definition rd_fifo (c : ircfg) (f : fifo) : fifo :=
  {| f_q := if pops c f then tl (f_q f) else f_q f; f_w := f_w f; f_num := f_num f;
     f_lat := map (fun x => (x + 1)%Z) (if pops c f then tl (f_lat f) else f_lat f) |}.
Definition rd_out (c : ircfg) (f : fifo) : option txn := if pops c f then hd_error (f_q f) else None.

Lemma read_one_sem : forall c i s, (i < ir_rads c)%nat -> (length (f_q (i_fifo s i)) <= length (f_lat (i_fifo s i)))%nat ->
  Forall (fun t => destd c t = i) (f_q (i_fifo s i)) ->
  read_one c i s = Some {| i_fifo := fupd (i_fifo s) i (rd_fifo c (i_fifo s i)); i_ready := i_ready s; i_ready' := i_ready' s; i_bw := i_bw s;
     i_out := i_out s; i_out' := fupd (i_out' s) i (rd_out c (i_fifo s i)); i_started := i_started s; i_drops := i_drops s |}.
Proof.
  intros c i s Hi Hl Hd. unfold read_one, rd_fifo, rd_out, pops. destruct (f_q (i_fifo s i)) as [|t q] eqn:Q; [reflexivity|].
  destruct (f_lat (i_fifo s i)) as [|x lat] eqn:L; [cbn in Hl; lia|]. cbn [map].
  destruct (ir_latency c <=? x + 1)%Z; [|reflexivity].
  pose proof (Forall_inv Hd) as D. cbn in D. unfold destd in D. rewrite D. apply Nat.ltb_lt in Hi. rewrite Hi. reflexivity.
Qed.

Lemma read_loop_sem : forall c l s, NoDup l ->
  (forall i, In i l -> (i < ir_rads c)%nat /\ (length (f_q (i_fifo s i)) <= length (f_lat (i_fifo s i)))%nat /\ Forall (fun t => destd c t = i) (f_q (i_fifo s i))) ->
  exists s', read_loop c l s = Some s' /\
    (forall i, In i l -> i_fifo s' i = rd_fifo c (i_fifo s i) /\ i_out' s' i = rd_out c (i_fifo s i)) /\
    (forall i, ~ In i l -> i_fifo s' i = i_fifo s i /\ i_out' s' i = i_out' s i) /\
    i_ready s' = i_ready s /\ i_ready' s' = i_ready' s /\ i_bw s' = i_bw s /\ i_started s' = i_started s.
Proof.
  induction l as [|i l IH]; intros s ND H; cbn.
  - exists s. repeat (split; auto); contradiction.
  - apply NoDup_cons_iff in ND. destruct ND as [N1 N2].
    destruct (H i (or_introl eq_refl)) as (H1 & H2 & H3). rewrite read_one_sem by auto.
    match goal with |- exists _, read_loop c l ?z = _ /\ _ => set (s1 := z) end.
    destruct (IH s1 N2) as (s' & A & B & C & D).
    { intros j Hj. unfold s1; cbn. rewrite fupd_other by (intros ->; auto). apply H. right; auto. }
    exists s'. split; auto. split; [|split; [|unfold s1 in D; cbn in D; exact D]].
    + intros j [->|Hj].
      * destruct (C j N1) as [C1 C2]. rewrite C1, C2. unfold s1; cbn. rewrite !fupd_same. auto.
      * destruct (B j Hj) as [B1 B2]. rewrite B1, B2. unfold s1; cbn. rewrite fupd_other by (intros ->; auto). auto.
    + intros j Hj. destruct (C j) as [C1 C2]; [intros X; apply Hj; right; auto|]. rewrite C1, C2. unfold s1; cbn.
      rewrite !fupd_other by (intros ->; apply Hj; left; auto). auto.
Qed.

(** States between edges. *)
Definition quiet (c : ircfg) (s : irst) : Prop :=
  forall d, f_w (i_fifo s d) = [] /\ f_num (i_fifo s d) = length (f_q (i_fifo s d)) /\
    length (f_lat (i_fifo s d)) = length (f_q (i_fifo s d)) /\ Forall (fun t => destd c t = d) (f_q (i_fifo s d)).

Lemma quiet0 : forall c, quiet c irst0.
Proof. intros c d. cbn. auto. Qed.

Lemma kept_dest : forall c d e, Forall (fun t => destd c t = d) (kept_at c d e).
Proof.
  intros. apply Forall_forall. intros t H. unfold kept_at in H. apply in_flat_map in H. destruct H as ([[i u] b] & _ & H).
  destruct b; [|destruct H]. destruct (Nat.eqb_spec (Z.to_nat (dest_rad (ir_w c) (x_dest u))) d); [|destruct H].
  destruct H as [<-|[]]. auto.
Qed.

Lemma write_fifo_sem : forall c inp s s' e, write_fifo c inp s = Some (s', e) ->
  (forall d, f_q (i_fifo s' d) = f_q (i_fifo s d) /\ f_num (i_fifo s' d) = f_num (i_fifo s d) /\
     f_w (i_fifo s' d) = f_w (i_fifo s d) ++ kept_at c d e /\
     f_lat (i_fifo s' d) = f_lat (i_fifo s d) ++ repeat 0%Z (length (kept_at c d e))) /\
  i_out' s' = i_out' s /\ i_ready s' = i_ready s /\ i_started s' = true /\
  i_bw s' = (if i_started s then if ir_total c - 1 <=? i_bw s then 0 else i_bw s + 1 else 0)%Z /\
  (forall i, (i < ir_rads c)%nat -> i_ready' s' i = if i_started s then (i_bw s <? ir_accept c)%Z else true) /\
  (forall x, In x e -> (destd c (snd (fst x)) < ir_rads c)%nat /\ (fst (fst x) < ir_rads c)%nat /\ i_ready s (fst (fst x)) = true) /\
  (i_started s = false -> e = []).
Proof.
  intros c inp s s' e H. unfold write_fifo in H. destruct (i_started s) eqn:S.
  - destruct (write_loop c inp (seq 0 (ir_rads c)) s) as [[s1 e1]|] eqn:L; [|discriminate]. inversion H; subst; clear H. cbn.
    destruct (write_loop_sem _ _ _ _ _ _ L) as (A & B1 & B2 & B3 & B4 & B5 & B6 & B7).
    split; [exact A|]. split; auto. split; auto. split; auto. split; [rewrite B4; auto|]. split.
    + intros i Hi. apply B6. apply in_seq. lia.
    + split; [|congruence]. intros x Hx. destruct (B7 x Hx) as (P & Q & R). apply in_seq in Q. split; auto. split; auto. lia.
  - inversion H; subst; clear H. cbn. split; [intros d; rewrite !app_nil_r; auto|]. repeat (split; auto); try contradiction.
    intros i Hi. destruct (ir_rads c); [lia|]. destruct (Nat.leb_spec i n); [auto|lia].
Qed.

(** One edge: what leaves, what stays. *)
Lemma edge_sem : forall c o inp s s' e, edge c o inp s = Some (s', e) -> quiet c s ->
  quiet c s' /\
  (forall d, (d < ir_rads c)%nat ->
     let p := pops c (i_fifo s d) in
     i_out s' d = (if p then hd_error (f_q (i_fifo s d)) else None) /\
     f_q (i_fifo s' d) = (if p then tl (f_q (i_fifo s d)) else f_q (i_fifo s d)) ++ kept_at c d e /\
     exists b, (b = 0 \/ b = 1)%Z /\
       f_lat (i_fifo s' d) = map (fun x => (x + 1)%Z) (if p then tl (f_lat (i_fifo s d)) else f_lat (i_fifo s d)) ++ repeat b (length (kept_at c d e))) /\
  i_started s' = true /\
  i_bw s' = (if i_started s then if ir_total c - 1 <=? i_bw s then 0 else i_bw s + 1 else 0)%Z /\
  (forall i, (i < ir_rads c)%nat -> i_ready s' i = if i_started s then (i_bw s <? ir_accept c)%Z else true) /\
  (forall x, In x e -> (destd c (snd (fst x)) < ir_rads c)%nat /\ (fst (fst x) < ir_rads c)%nat /\ i_ready s (fst (fst x)) = true) /\
  (i_started s = false -> e = []).
Proof.
  intros c o inp s s' e H Q. unfold edge in H.
  assert (Z0 : forall e d, (ir_rads c <= d)%nat -> (forall x, In x e -> (destd c (snd (fst x)) < ir_rads c)%nat /\ (fst (fst x) < ir_rads c)%nat /\ i_ready s (fst (fst x)) = true) -> kept_at c d e = []).
  { intros e0 d Hd HX. unfold kept_at. induction e0 as [|[[i t] b] e0 IH]; auto. cbn. rewrite IH by (intros; apply HX; right; auto).
    destruct b; auto. destruct (Nat.eqb_spec (Z.to_nat (dest_rad (ir_w c) (x_dest t))) d); auto.
    specialize (HX _ (or_introl eq_refl)). cbn in HX. unfold destd in HX. lia. }
  destruct o.
  - destruct (write_fifo c inp s) as [[s1 e1]|] eqn:W; [|discriminate].
    destruct (write_fifo_sem _ _ _ _ _ W) as (A & B1 & B2 & B3 & B4 & B5 & B6 & B7).
    destruct (read_loop_sem c (seq 0 (ir_rads c)) s1) as (s2 & L & R1 & R2 & R3 & R4 & R5 & R6).
    { apply seq_NoDup. }
    { intros i Hi. apply in_seq in Hi. destruct (A i) as (A1 & A2 & A3 & A4), (Q i) as (Q1 & Q2 & Q3 & Q4). split; [lia|].
      rewrite A1, A4, app_length. split; [lia|auto]. }
    rewrite L in H. inversion H; subst; clear H.
    assert (P : forall d, pops c (i_fifo s1 d) = pops c (i_fifo s d)).
    { intros d. unfold pops. destruct (A d) as (A1 & A2 & A3 & A4), (Q d) as (Q1 & Q2 & Q3 & Q4). rewrite A1, A4.
      destruct (f_q (i_fifo s d)); auto. destruct (f_lat (i_fifo s d)); [discriminate Q3|]. auto. }
    assert (F : forall d, (d < ir_rads c)%nat -> let p := pops c (i_fifo s d) in
       f_q (i_fifo (commit s2) d) = (if p then tl (f_q (i_fifo s d)) else f_q (i_fifo s d)) ++ kept_at c d e /\
       f_lat (i_fifo (commit s2) d) = map (fun x => (x + 1)%Z) (if p then tl (f_lat (i_fifo s d)) else f_lat (i_fifo s d)) ++ repeat 1%Z (length (kept_at c d e))).
    { intros d Hd p. cbn. destruct (R1 d) as [X1 X2]; [apply in_seq; lia|]. rewrite X1. unfold rd_fifo. cbn. rewrite P. fold p.
      destruct (A d) as (A1 & A2 & A3 & A4), (Q d) as (Q1 & Q2 & Q3 & Q4). rewrite A1, A3, A4, Q1. cbn. split; auto.
      assert (M1 : map (fun x => (x + 1)%Z) (repeat 0%Z (length (kept_at c d e))) = repeat 1%Z (length (kept_at c d e))) by (clear; induction (length (kept_at c d e)); cbn; congruence).
      destruct p eqn:Ep.
      - assert (f_lat (i_fifo s d) <> []).
        { unfold p, pops in Ep. destruct (f_q (i_fifo s d)); [discriminate|]. destruct (f_lat (i_fifo s d)); discriminate. }
        destruct (f_lat (i_fifo s d)); [congruence|]. cbn. rewrite map_app, M1. auto.
      - rewrite map_app, M1. auto. }
    split; [|split; [|split; [|split; [|split; [|split]]]]]; auto.
    + intros d. split; [reflexivity|]. split; [reflexivity|].
      destruct (Nat.lt_ge_cases d (ir_rads c)) as [Hd|Hd].
      * destruct (F d Hd) as [F1 F2]. destruct (Q d) as (Q1 & Q2 & Q3 & Q4). rewrite F1, F2. split.
        -- rewrite !app_length, map_length, repeat_length. destruct (pops c (i_fifo s d)); [|lia].
           destruct (f_q (i_fifo s d)), (f_lat (i_fifo s d)); cbn in *; lia.
        -- apply Forall_app. split; [|apply kept_dest]. destruct (pops c (i_fifo s d)); auto.
           destruct (f_q (i_fifo s d)); auto. cbn. inversion Q4; auto.
      * cbn. destruct (R2 d) as [X1 X2]; [rewrite in_seq; lia|]. rewrite X1. destruct (A d) as (A1 & A2 & A3 & A4), (Q d) as (Q1 & Q2 & Q3 & Q4).
        rewrite A1, A3, A4, Q1, Z0 by auto. cbn. rewrite !app_nil_r. auto.
    + intros d Hd p. cbn. destruct (R1 d) as [X1 X2]; [apply in_seq; lia|]. rewrite X2. unfold rd_out. rewrite P. fold p.
      destruct (A d) as (A1 & _). rewrite A1. split; auto. destruct (F d Hd) as [F1 F2]. split; [exact F1|]. exists 1%Z. split; auto.
    + cbn. congruence.
    + cbn. congruence.
    + intros i Hi. cbn. rewrite R4. auto.
  - destruct (read_loop_sem c (seq 0 (ir_rads c)) s) as (s2 & L & R1 & R2 & R3 & R4 & R5 & R6).
    { apply seq_NoDup. }
    { intros i Hi. apply in_seq in Hi. destruct (Q i) as (Q1 & Q2 & Q3 & Q4). split; [lia|]. split; [lia|auto]. }
    rewrite L in H. destruct (write_fifo c inp s2) as [[s1 e1]|] eqn:W; [|discriminate].
    inversion H; subst; clear H.
    destruct (write_fifo_sem _ _ _ _ _ W) as (A & B1 & B2 & B3 & B4 & B5 & B6 & B7).
    rewrite R3 in B6.
    assert (F : forall d, (d < ir_rads c)%nat -> let p := pops c (i_fifo s d) in
       f_q (i_fifo (commit s1) d) = (if p then tl (f_q (i_fifo s d)) else f_q (i_fifo s d)) ++ kept_at c d e /\
       f_lat (i_fifo (commit s1) d) = map (fun x => (x + 1)%Z) (if p then tl (f_lat (i_fifo s d)) else f_lat (i_fifo s d)) ++ repeat 0%Z (length (kept_at c d e))).
    { intros d Hd p. cbn. destruct (A d) as (A1 & A2 & A3 & A4). rewrite A1, A3, A4. destruct (R1 d) as [X1 X2]; [apply in_seq; lia|]. rewrite X1.
      cbn. fold p. destruct (Q d) as (Q1 & Q2 & Q3 & Q4). rewrite Q1. auto. }
    split; [|split; [|split; [|split; [|split; [|split]]]]]; auto.
    + intros d. split; [reflexivity|]. split; [reflexivity|].
      destruct (Nat.lt_ge_cases d (ir_rads c)) as [Hd|Hd].
      * destruct (F d Hd) as [F1 F2]. destruct (Q d) as (Q1 & Q2 & Q3 & Q4). rewrite F1, F2. split.
        -- rewrite !app_length, map_length, repeat_length. destruct (pops c (i_fifo s d)); [|lia].
           destruct (f_q (i_fifo s d)), (f_lat (i_fifo s d)); cbn in *; lia.
        -- apply Forall_app. split; [|apply kept_dest]. destruct (pops c (i_fifo s d)); auto.
           destruct (f_q (i_fifo s d)); auto. cbn. inversion Q4; auto.
      * cbn. destruct (A d) as (A1 & A2 & A3 & A4). rewrite A1, A3, A4. destruct (R2 d) as [X1 X2]; [rewrite in_seq; lia|]. rewrite X1.
        destruct (Q d) as (Q1 & Q2 & Q3 & Q4). rewrite Q1, Z0 by auto. cbn. rewrite !app_nil_r. auto.
    + intros d Hd p. cbn. rewrite B1. destruct (R1 d) as [X1 X2]; [apply in_seq; lia|]. rewrite X2. split; [reflexivity|].
      destruct (F d Hd) as [F1 F2]. split; [exact F1|]. exists 0%Z. split; auto.
    + cbn. rewrite B4, R5, R6. auto.
    + intros i Hi. cbn. rewrite B5 by auto. rewrite R5, R6. auto.
    + rewrite R6 in B7. exact B7.
Qed.

(** Invariant: [k] edges done, [g d] the kept transactions still inside, with their edges. *)
Definition near (k : nat) (g : nat * txn) (x : Z) : Prop := (Z.of_nat k - 1 - Z.of_nat (fst g) <= x <= Z.of_nat k - Z.of_nat (fst g))%Z.
Definition ghost (k : nat) (f : fifo) (g : list (nat * txn)) : Prop :=
  map snd g = f_q f /\ Forall2 (near k) g (f_lat f) /\ Forall (fun x => (fst x < k)%nat) g.

Definition matched (c : ircfg) (a b : nat * txn) : Prop := snd a = snd b /\ (Z.of_nat (fst a) + ir_latency c <= Z.of_nat (fst b))%Z /\ (fst a < fst b)%nat.

Lemma Forall2_app_r : forall A B (R : A -> B -> Prop) a b c d, Forall2 R a b -> Forall2 R c d -> Forall2 R (a ++ c) (b ++ d).
Proof. induction 1; cbn; auto. Qed.

Lemma F2_length : forall A B (R : A -> B -> Prop) a b, Forall2 R a b -> length a = length b.
Proof. induction 1; cbn; auto. Qed.

Lemma near_new : forall k b (l : list txn), (b = 0 \/ b = 1)%Z -> Forall2 (near (S k)) (map (pair k) l) (repeat b (length l)).
Proof. intros k b l H. induction l; cbn; constructor; auto. unfold near. cbn [fst]. lia. Qed.

Lemma ghost_step : forall c o inp s s' e k d g, edge c o inp s = Some (s', e) -> quiet c s -> (d < ir_rads c)%nat ->
  ghost k (i_fifo s d) g ->
  exists g1, g = (if i_out s' d then firstn 1 g else []) ++ g1 /\
    Forall2 (matched c) (if i_out s' d then firstn 1 g else []) (match i_out s' d with Some t => [(S k, t)] | None => [] end) /\
    ghost (S k) (i_fifo s' d) (g1 ++ map (pair k) (kept_at c d e)).
Proof.
  intros c o inp s s' e k d g H Q Hd (G1 & G2 & G3).
  destruct (edge_sem _ _ _ _ _ _ H Q) as (Q' & E & _). destruct (E d Hd) as (E1 & E2 & b & E3 & E4). clear E.
  unfold pops in *. destruct (f_q (i_fifo s d)) as [|t q] eqn:FQ.
  - destruct g; [|discriminate]. destruct (f_lat (i_fifo s d)) as [|x lat] eqn:FL; [|inversion G2].
    rewrite E1. cbn. exists []. split; auto. split; auto.
    cbn in E2, E4. unfold ghost. rewrite E2, E4. cbn.
    split; [rewrite map_map; cbn; apply map_id|]. split.
    + apply near_new; auto.
    + apply Forall_forall. intros x Hx. apply in_map_iff in Hx. destruct Hx as (y & <- & _). cbn. lia.
  - destruct g as [|[t0 u] g]; [discriminate|]. cbn in G1. inversion G1; subst u. clear G1. rename H2 into G1.
    destruct (f_lat (i_fifo s d)) as [|x lat] eqn:FL; [inversion G2|]. inversion G2 as [|? ? ? ? N G2' ]; subst.
    inversion G3 as [|? ? G3a G3b]; subst. cbn [fst] in G3a. unfold near in N; cbn [fst] in N.
    assert (REST : forall g0 lat0, Forall2 (near k) g0 lat0 -> Forall (fun x => (fst x < k)%nat) g0 ->
       Forall2 (near (S k)) (g0 ++ map (pair k) (kept_at c d e)) (map (fun x => (x + 1)%Z) lat0 ++ repeat b (length (kept_at c d e))) /\
       Forall (fun x => (fst x < S k)%nat) (g0 ++ map (pair k) (kept_at c d e))).
    { intros g0 lat0 X Y. split.
      - apply Forall2_app_r.
        + clear -X. induction X; cbn; constructor; auto. unfold near in *. lia.
        + apply near_new; auto.
      - apply Forall_app. split; [eapply Forall_impl; [|exact Y]; intros; cbn in *; lia|].
        apply Forall_forall. intros z Hz. apply in_map_iff in Hz. destruct Hz as (y & <- & _). cbn. lia. }
    cbn [hd_error tl] in *. destruct (ir_latency c <=? x + 1)%Z eqn:P.
    + rewrite E1. cbn. exists g. split; auto. split.
      * constructor; auto. unfold matched. cbn. split; auto. apply Z.leb_le in P. lia.
      * unfold ghost. rewrite E2, E4. destruct (REST g lat G2' G3b) as [R1 R2].
        split; [rewrite map_app, map_map; cbn; rewrite map_id; congruence|]. split; auto.
    + rewrite E1. cbn. exists ((t0, t) :: g). split; auto. split; auto.
      unfold ghost. rewrite E2, E4. destruct (REST ((t0, t) :: g) (x :: lat) G2 G3) as [R1 R2].
      split; [rewrite map_app, map_map; cbn; rewrite map_id; congruence|]. split; auto.
Qed.

Lemma run_order : forall c l s s' os k d g, ir_run c l s = Some (s', os) -> quiet c s -> (d < ir_rads c)%nat ->
  ghost k (i_fifo s d) g ->
  quiet c s' /\ exists pre g', g ++ entered c d k os = pre ++ g' /\ Forall2 (matched c) pre (shown d k os) /\ ghost (k + length l) (i_fifo s' d) g'.
Proof.
  induction l as [|[o inp] l IH]; intros s s' os k d g H Q Hd G; cbn in H.
  - inversion H; subst. split; auto. exists [], g. cbn. rewrite app_nil_r, Nat.add_0_r. auto.
  - destruct (edge c o inp s) as [[s1 e]|] eqn:E; [|discriminate].
    destruct (ir_run c l s1) as [[s2 os2]|] eqn:R; [|discriminate]. inversion H; subst; clear H.
    destruct (edge_sem _ _ _ _ _ _ E Q) as (Q1 & _).
    destruct (ghost_step _ _ _ _ _ _ _ _ _ E Q Hd G) as (g1 & A & B & C).
    destruct (IH _ _ _ _ _ _ R Q1 Hd C) as (Q2 & pre & g' & X & Y & Z).
    split; auto. exists ((if i_out s1 d then firstn 1 g else []) ++ pre), g'. cbn [entered shown fst snd].
    split; [|split].
    + rewrite A at 1. rewrite <- !app_assoc. rewrite <- X. rewrite <- !app_assoc. auto.
    + apply Forall2_app_r; auto.
    + replace (k + length ((o, inp) :: l))%nat with (S k + length l)%nat by (cbn; lia). auto.
Qed.

Lemma run_safety : forall c l s' os d, ir_run c l irst0 = Some (s', os) -> (d < ir_rads c)%nat ->
  exists pre rest, entered c d 0 os = pre ++ rest /\ Forall2 (matched c) pre (shown d 0 os).
Proof.
  intros c l s' os d H Hd.
  destruct (run_order c l irst0 s' os 0 d [] H (quiet0 c) Hd) as (_ & pre & g' & A & B & _).
  - split; [auto|]. split; constructor.
  - exists pre, g'. auto.
Qed.

Lemma shown_sorted : forall os d k, StronglySorted lt (map fst (shown d k os)) /\ Forall (fun x => (k < fst x)%nat) (shown d k os).
Proof.
  induction os as [|o os IH]; intros d k; cbn; [split; constructor|]. destruct (IH d (S k)) as [A B].
  assert (B' : Forall (fun x => (k < fst x)%nat) (shown d (S k) os)) by (eapply Forall_impl; [|exact B]; intros; cbn in *; lia).
  destruct (snd o d) as [t|]; cbn; [|auto]. split.
  - constructor; auto. apply Forall_forall. intros x Hx. apply in_map_iff in Hx. destruct Hx as (y & <- & Hy).
    rewrite Forall_forall in B. apply B; auto.
  - constructor; auto.
Qed.

(** Progress. *)
Lemma run_drain : forall c l s s' os d m v k, ir_run c l s = Some (s', os) -> quiet c s -> (d < ir_rads c)%nat ->
  (m <= length (f_q (i_fifo s d)))%nat -> Forall (fun x => (v <= x)%Z) (firstn m (f_lat (i_fifo s d))) ->
  (Z.max (ir_latency c - v - 1) 0 + Z.of_nat m <= Z.of_nat (length l))%Z -> (m <= length (shown d k os))%nat.
Proof.
  induction l as [|[o inp] l IH]; intros s s' os d m v k H Q Hd Hm Hv HL; cbn in H.
  - cbn in HL. lia.
  - destruct (edge c o inp s) as [[s1 e]|] eqn:E; [|discriminate].
    destruct (ir_run c l s1) as [[s2 os2]|] eqn:R; [|discriminate]. inversion H; subst; clear H.
    destruct (edge_sem _ _ _ _ _ _ E Q) as (Q1 & X & _). destruct (X d Hd) as (X1 & X2 & b & X3 & X4). clear X.
    destruct m as [|m]; [lia|]. cbn [shown snd]. cbn [length] in HL.
    destruct (Q d) as (_ & _ & QL & _). unfold pops in *.
    destruct (f_q (i_fifo s d)) as [|t q] eqn:FQ; [cbn in Hm; lia|]. destruct (f_lat (i_fifo s d)) as [|x lat] eqn:FL; [discriminate|].
    cbn [firstn] in Hv. inversion Hv as [|? ? V1 V2]; subst. cbn [length] in QL, Hm.
    assert (FN : forall n (A B : list Z), (n <= length A)%nat -> firstn n (A ++ B) = firstn n A).
    { intros n A B Hn. rewrite firstn_app. replace (n - length A)%nat with 0%nat by lia. cbn. apply app_nil_r. }
    assert (UP : forall n L, Forall (fun x => (v <= x)%Z) (firstn n L) -> Forall (fun x => (v + 1 <= x)%Z) (firstn n (map (fun x => (x + 1)%Z) L))).
    { intros n L F. rewrite firstn_map. apply Forall_forall. intros y Hy. apply in_map_iff in Hy. destruct Hy as (z & <- & Hz).
      rewrite Forall_forall in F. specialize (F z Hz). cbn in F. lia. }
    destruct (Z.leb_spec (ir_latency c) (x + 1)).
    + cbn [hd_error tl] in X1, X2, X4. rewrite X1. cbn [app length].
      assert (m <= length (shown d (S k) os2))%nat; [|lia].
      apply (IH s1 s' os2 d m (v + 1)%Z (S k)); auto.
      * rewrite X2, app_length. lia.
      * rewrite X4, FN by (rewrite map_length; lia). apply UP; auto.
      * lia.
    + rewrite X1. cbn [app].
      apply (IH s1 s' os2 d (S m) (v + 1)%Z (S k)); auto.
      * rewrite X2, app_length. cbn. lia.
      * rewrite X4, FN by (rewrite map_length; cbn; lia). apply UP. cbn. constructor; auto.
      * lia.
Qed.

Lemma ir_run_app : forall c l1 l2 s s' os, ir_run c (l1 ++ l2) s = Some (s', os) ->
  exists s1 os1 os2, ir_run c l1 s = Some (s1, os1) /\ ir_run c l2 s1 = Some (s', os2) /\ os = os1 ++ os2 /\ length os1 = length l1.
Proof.
  induction l1 as [|[o inp] l1 IH]; intros l2 s s' os H; cbn in *.
  - exists s, [], os. auto.
  - destruct (edge c o inp s) as [[s1 e]|]; [|discriminate].
    destruct (ir_run c (l1 ++ l2) s1) as [[s2 os2]|] eqn:R; [|discriminate]. inversion H; subst; clear H.
    destruct (IH _ _ _ _ R) as (s3 & o1 & o2 & A & B & C & D). exists s3, ((e, i_out s1) :: o1), o2. rewrite A. subst. cbn. auto.
Qed.

Lemma entered_app : forall c d os1 os2 k, entered c d k (os1 ++ os2) = entered c d k os1 ++ entered c d (k + length os1) os2.
Proof. induction os1 as [|o os1 IH]; intros; cbn; [rewrite Nat.add_0_r; auto|]. rewrite IH, <- app_assoc, <- Nat.add_succ_comm. auto. Qed.
Lemma shown_app : forall d os1 os2 k, shown d k (os1 ++ os2) = shown d k os1 ++ shown d (k + length os1) os2.
Proof. induction os1 as [|o os1 IH]; intros; cbn; [rewrite Nat.add_0_r; auto|]. rewrite IH, <- app_assoc, <- Nat.add_succ_comm. auto. Qed.

Lemma run_progress : forall c l1 l2 s' os d, ir_run c (l1 ++ l2) irst0 = Some (s', os) -> (d < ir_rads c)%nat ->
  let os1 := firstn (length l1) os in
  (Z.max (ir_latency c) 0 + (Z.of_nat (length (entered c d 0 os1)) - Z.of_nat (length (shown d 0 os1))) <= Z.of_nat (length l2))%Z ->
  (length (entered c d 0 os1) <= length (shown d 0 os))%nat.
Proof.
  intros c l1 l2 s' os d H Hd os1 HL. destruct (ir_run_app _ _ _ _ _ _ H) as (s1 & o1 & o2 & A & B & C & D).
  assert (os1 = o1) as -> by (unfold os1; rewrite C, <- D, firstn_app, Nat.sub_diag, firstn_all; cbn; apply app_nil_r).
  destruct (run_order c l1 irst0 s1 o1 0 d [] A (quiet0 c) Hd) as (Q & pre & g & X & Y & (Z1 & Z2 & Z3)).
  { split; [auto|]. split; constructor. }
  cbn in X. pose proof (F2_length _ _ _ _ _ Y) as Y1. rewrite X, app_length in HL. rewrite X, app_length, C, shown_app, app_length.
  assert (length g <= length (shown d (0 + length o1) o2))%nat; [|lia].
  apply (run_drain c l2 s1 s' o2 d (length g) 0%Z (0 + length o1)); auto.
  - rewrite <- Z1, map_length. auto.
  - rewrite (F2_length _ _ _ _ _ Z2), firstn_all. clear -Z2 Z3. induction Z2; constructor; inversion Z3; subst; auto. unfold near in H. lia.
  - rewrite <- Y1 in HL. lia.
Qed.

(** Nothing goes wrong when destinations exist. *)
Definition good_input (c : ircfg) (inp : irin) : Prop :=
  forall i t, inp i = Some t -> (Z.to_nat (dest_rad (ir_w c) (swap_dest (ir_w c) (x_dest t))) < ir_rads c)%nat.

Lemma write_loop_total : forall c inp l s, good_input c inp -> exists r, write_loop c inp l s = Some r.
Proof.
  intros c inp l s G. revert s. induction l as [|i l IH]; intros s; cbn; [eauto|].
  assert (W : exists r, write_one c inp i s = Some r).
  { unfold write_one. destruct (inp i) eqn:E; [|eauto]. destruct (i_ready s i); [|eauto]. cbn [x_dest].
    specialize (G i t E). apply Nat.ltb_lt in G. rewrite G. destruct (nb_write _ _ _); eauto. }
  destruct W as [[s1 e1] ->]. destruct (IH s1) as [[s2 e2] ->]. eauto.
Qed.

Lemma run_total : forall c l s, quiet c s -> (forall x, In x l -> good_input c (snd x)) -> exists r, ir_run c l s = Some r.
Proof.
  induction l as [|[o inp] l IH]; intros s Q G; cbn; [eauto|].
  assert (E : exists s1 e, edge c o inp s = Some (s1, e)).
  { assert (W : forall s, exists s1 e, write_fifo c inp s = Some (s1, e)).
    { intros z. unfold write_fifo. destruct (i_started z); [|eauto].
      destruct (write_loop_total c inp (seq 0 (ir_rads c)) z) as [[? ?] ->]; [apply (G (o, inp)); left; auto|]. eauto. }
    unfold edge. destruct o.
    - destruct (W s) as (s1 & e & E). rewrite E.
      destruct (write_fifo_sem _ _ _ _ _ E) as (A & _).
      destruct (read_loop_sem c (seq 0 (ir_rads c)) s1) as (s2 & L & _).
      { apply seq_NoDup. }
      { intros i Hi. apply in_seq in Hi. destruct (A i) as (A1 & A2 & A3 & A4), (Q i) as (Q1 & Q2 & Q3 & Q4). split; [lia|].
        rewrite A1, A4, app_length. split; [lia|auto]. }
      rewrite L. eauto.
    - destruct (read_loop_sem c (seq 0 (ir_rads c)) s) as (s2 & L & _).
      { apply seq_NoDup. }
      { intros i Hi. apply in_seq in Hi. destruct (Q i) as (Q1 & Q2 & Q3 & Q4). split; [lia|]. split; [lia|auto]. }
      rewrite L. destruct (W s2) as (s1 & e & ->). eauto. }
  destruct E as (s1 & e & E). rewrite E. destruct (edge_sem _ _ _ _ _ _ E Q) as (Q1 & _).
  destruct (IH s1 Q1) as [[? ?] ->]; [intros; apply G; right; auto|]. eauto.
Qed.

(** Bandwidth. *)
Definition src (x : accept_ev) : nat := fst (fst x).
Definition evt (x : accept_ev) : txn := snd (fst x).

Lemma write_one_src : forall c inp i s s' e, write_one c inp i s = Some (s', e) ->
  (exists t b, inp i = Some t /\ i_ready s i = true /\
     e = [(i, {| x_data := x_data t; x_user := x_user t; x_last := x_last t; x_dest := swap_dest (ir_w c) (x_dest t) |}, b)]) \/
  (e = [] /\ (inp i = None \/ i_ready s i = false)).
Proof.
  intros c inp i s s' e H. unfold write_one in H. destruct (inp i) as [t|]; [|inversion H; auto].
  destruct (i_ready s i); [|inversion H; auto]. destruct (Nat.ltb _ _); [|discriminate].
  left. exists t. destruct (nb_write _ _ _); inversion H; subst; eauto.
Qed.

Definition stored (w : widths) (t : txn) : txn :=
  {| x_data := x_data t; x_user := x_user t; x_last := x_last t; x_dest := swap_dest w (x_dest t) |}.
Definition offered (s : irst) (inp : irin) (i : nat) : list txn :=
  match inp i with Some t => if i_ready s i then [t] else [] | None => [] end.

Lemma write_one_frame : forall c inp i s s' e, write_one c inp i s = Some (s', e) -> i_ready s' = i_ready s.
Proof.
  intros c inp i s s' e H. unfold write_one in H. destruct (inp i); [|inversion H; auto].
  destruct (i_ready s i); [|inversion H; auto]. destruct (Nat.ltb _ _); [|discriminate].
  destruct (nb_write _ _ _); inversion H; auto.
Qed.

Lemma write_loop_src : forall c inp l s s' e, write_loop c inp l s = Some (s', e) -> NoDup l ->
  (forall i, In i l -> map evt (filter (fun x => Nat.eqb (src x) i) e) = map (stored (ir_w c)) (offered s inp i)) /\
  (forall i, ~ In i l -> filter (fun x => Nat.eqb (src x) i) e = []).
Proof.
  induction l as [|j l IH]; intros s s' e H N; cbn in H.
  - inversion H; subst. cbn. split; [intros i []|auto].
  - destruct (write_one c inp j s) as [[s1 e1]|] eqn:W; [|discriminate].
    destruct (write_loop c inp l s1) as [[s2 e2]|] eqn:L; [|discriminate]. inversion H; subst; clear H.
    apply NoDup_cons_iff in N. destruct N as [N1 N2]. destruct (IH _ _ _ L N2) as [A B].
    pose proof (write_one_frame _ _ _ _ _ _ W) as Fr.
    pose proof (write_one_src _ _ _ _ _ _ W) as S. split.
    + intros i Hi. rewrite filter_app, map_app. destruct (Nat.eq_dec i j) as [->|D].
      * rewrite (B j N1). cbn. rewrite app_nil_r. unfold offered. destruct S as [(t & b & S1 & S2 & ->)|(-> & S)].
        -- rewrite S1, S2. unfold src. cbn. rewrite Nat.eqb_refl. reflexivity.
        -- cbn. destruct (inp j); auto. destruct S as [S|S]; [discriminate|]. rewrite S. auto.
      * destruct Hi as [|Hi]; [congruence|]. rewrite (A i Hi). unfold offered. rewrite Fr.
        assert (filter (fun x => Nat.eqb (src x) i) e1 = []) as ->; auto.
        destruct S as [(t & b & S1 & S2 & ->)|(-> & S)]; auto. unfold src; cbn. destruct (Nat.eqb_spec j i); congruence.
    + intros i Hi. rewrite filter_app, B by (intros X; apply Hi; right; auto). rewrite app_nil_r.
      destruct S as [(t & b & S1 & S2 & ->)|(-> & S)]; auto. unfold src; cbn. destruct (Nat.eqb_spec j i); auto.
      exfalso. apply Hi. left. auto.
Qed.

Lemma edge_src : forall c o inp s s' e, edge c o inp s = Some (s', e) -> quiet c s ->
  (forall i, (i < ir_rads c)%nat -> i_started s = true ->
     map evt (filter (fun x => Nat.eqb (src x) i) e) = map (stored (ir_w c)) (offered s inp i)) /\
  (forall i, (ir_rads c <= i)%nat -> filter (fun x => Nat.eqb (src x) i) e = []).
Proof.
  intros c o inp s s' e H Q.
  assert (W : exists s1 s2, write_fifo c inp s1 = Some (s2, e) /\ i_ready s1 = i_ready s /\ i_started s1 = i_started s).
  { unfold edge in H. destruct o.
    - destruct (write_fifo c inp s) as [[s1 e1]|] eqn:W; [|discriminate].
      destruct (read_loop _ _ s1); inversion H; subst. eauto.
    - destruct (read_loop_sem c (seq 0 (ir_rads c)) s) as (s2 & L & _ & _ & R3 & _ & _ & R6).
      { apply seq_NoDup. }
      { intros i Hi. apply in_seq in Hi. destruct (Q i) as (Q1 & Q2 & Q3 & Q4). split; [lia|]. split; [lia|auto]. }
      rewrite L in H. destruct (write_fifo c inp s2) as [[s1 e1]|] eqn:W; inversion H; subst. exists s2, s1. auto. }
  destruct W as (s1 & s2 & W & R & S). unfold write_fifo in W. rewrite S in W. destruct (i_started s).
  - destruct (write_loop c inp (seq 0 (ir_rads c)) s1) as [[s3 e1]|] eqn:L; inversion W; subst; clear W.
    destruct (write_loop_src _ _ _ _ _ _ L (seq_NoDup _ _)) as [A B]. split.
    + intros i Hi _. rewrite A by (apply in_seq; lia). unfold offered. rewrite R. auto.
    + intros i Hi. apply B. rewrite in_seq. lia.
  - inversion W; subst. split; [discriminate|auto].
Qed.

Definition bwspec (c : ircfg) (k : nat) (s : irst) : Prop :=
  i_started s = Nat.ltb 0 k /\
  ((1 <= k)%nat -> i_bw s = ((Z.of_nat k - 1) mod ir_total c)%Z) /\
  (forall i, (2 <= k)%nat -> (i < ir_rads c)%nat -> i_ready s i = ((Z.of_nat k - 2) mod ir_total c <? ir_accept c)%Z).

Lemma bwspec0 : forall c, bwspec c 0 irst0.
Proof. intros c. split; [auto|]. split; intros; lia. Qed.

Lemma bwspec_step : forall c o inp s s' e k, (1 <= ir_total c)%Z -> edge c o inp s = Some (s', e) -> quiet c s -> bwspec c k s -> bwspec c (S k) s'.
Proof.
  intros c o inp s s' e k T H Q (B1 & B2 & B3). destruct (edge_sem _ _ _ _ _ _ H Q) as (_ & _ & E1 & E2 & E3 & _).
  split; [rewrite E1; auto|]. destruct k as [|k].
  - cbn in B1. rewrite B1 in *. split; [intros _; rewrite E2; symmetry; apply Z.mod_0_l; lia|]. intros; lia.
  - replace (Nat.ltb 0 (S k)) with true in B1 by auto. rewrite B1 in *. specialize (B2 ltac:(lia)).
    replace (Z.of_nat (S k) - 1)%Z with (Z.of_nat k) in B2 by lia. split.
    + intros _. rewrite E2, B2. replace (Z.of_nat (S (S k)) - 1)%Z with (Z.of_nat k + 1)%Z by lia.
      pose proof (Z.mod_pos_bound (Z.of_nat k) (ir_total c) ltac:(lia)) as M.
      pose proof (Z.div_mod (Z.of_nat k) (ir_total c) ltac:(lia)) as D.
      destruct (Z.leb_spec (ir_total c - 1) (Z.of_nat k mod ir_total c)).
      * apply Z.mod_unique_pos with (q := (Z.of_nat k / ir_total c + 1)%Z); lia.
      * apply Z.mod_unique_pos with (q := (Z.of_nat k / ir_total c)%Z); lia.
    + intros i _ Hi. rewrite E3 by auto. rewrite B2. replace (Z.of_nat (S (S k)) - 2)%Z with (Z.of_nat k) by lia. auto.
Qed.

Fixpoint cnt (T A : Z) (a n : nat) : Z :=
  match n with
  | O => 0
  | S n' => ((if (Z.of_nat a mod T <? A) then 1 else 0) + cnt T A (S a) n')%Z
  end.

Lemma cnt_last : forall T A n a, cnt T A a (S n) = (cnt T A a n + (if Z.of_nat (a + n) mod T <? A then 1 else 0))%Z.
Proof.
  induction n as [|n IH]; intros a; [cbn [cnt]; rewrite Nat.add_0_r; lia|].
  change (cnt T A a (S (S n))) with ((if Z.of_nat a mod T <? A then 1 else 0) + cnt T A (S a) (S n))%Z. rewrite IH.
  change (cnt T A a (S n)) with ((if Z.of_nat a mod T <? A then 1 else 0) + cnt T A (S a) n)%Z.
  replace (S a + n)%nat with (a + S n)%nat by lia. lia.
Qed.

Lemma cnt_shift : forall T A a, (1 <= T)%Z -> cnt T A a (Z.to_nat T) = cnt T A 0 (Z.to_nat T).
Proof.
  intros T A a HT. induction a as [|a IH]; auto. rewrite <- IH.
  pose proof (cnt_last T A (Z.to_nat T) a) as H. cbn [cnt] in H.
  replace (Z.of_nat (a + Z.to_nat T) mod T)%Z with (Z.of_nat a mod T)%Z in H; [lia|].
  rewrite Nat2Z.inj_add, Z2Nat.id by lia. replace (Z.of_nat a + T)%Z with (Z.of_nat a + 1 * T)%Z by lia. rewrite Z.mod_add by lia. auto.
Qed.

Lemma cnt_zero : forall T A n, (0 <= A)%Z -> (Z.of_nat n <= T)%Z -> (cnt T A 0 n <= A /\ cnt T A 0 n <= Z.of_nat n)%Z.
Proof.
  induction n as [|n IH]; intros HA HT; [cbn; lia|]. rewrite cnt_last. cbn [Nat.add].
  destruct IH; auto; [lia|]. rewrite Z.mod_small by lia. destruct (Z.ltb_spec (Z.of_nat n) A); lia.
Qed.

Lemma handshakes_bound : forall c o inp s s' e i k, edge c o inp s = Some (s', e) -> quiet c s -> bwspec c k s ->
  (2 <= k)%nat -> (Z.of_nat (handshakes i (e, i_out s')) <= if (Z.of_nat (k - 2) mod ir_total c <? ir_accept c) then 1 else 0)%Z.
Proof.
  intros c o inp s s' e i k H Q (B1 & B2 & B3) K. change (handshakes i (e, i_out s')) with (length (filter (fun x : accept_ev => Nat.eqb (src x) i) e)).
  destruct (edge_src _ _ _ _ _ _ H Q) as [A B].
  destruct (Nat.lt_ge_cases i (ir_rads c)) as [Hi|Hi].
  - assert (S : i_started s = true) by (rewrite B1; destruct k; [lia|auto]).
    specialize (A i Hi S). apply (f_equal (@length txn)) in A. rewrite !map_length in A. rewrite A.
    specialize (B3 i K Hi). replace (Z.of_nat k - 2)%Z with (Z.of_nat (k - 2)) in B3 by lia. rewrite <- B3.
    unfold offered. destruct (inp i); destruct (i_ready s i); cbn; lia.
  - rewrite (B i Hi). cbn [length]. destruct (Z.of_nat (k - 2) mod ir_total c <? ir_accept c)%Z; lia.
Qed.

Lemma run_count : forall c n l s s' os i k, ir_run c l s = Some (s', os) -> quiet c s -> bwspec c k s -> (1 <= ir_total c)%Z -> (2 <= k)%nat ->
  (Z.of_nat (list_sum (map (handshakes i) (firstn n os))) <= cnt (ir_total c) (ir_accept c) (k - 2) n)%Z.
Proof.
  induction n as [|n IH]; intros l s s' os i k H Q B T K; [cbn; lia|].
  destruct l as [|[o inp] l]; cbn in H.
  - inversion H; subst. cbn [firstn map list_sum fold_right]. clear. generalize (k - 2)%nat. generalize (S n). clear.
    induction n; intros; cbn [cnt]; [lia|]. specialize (IHn (S n0)). destruct (_ <? _)%Z; lia.
  - destruct (edge c o inp s) as [[s1 e]|] eqn:E; [|discriminate].
    destruct (ir_run c l s1) as [[s2 os2]|] eqn:R; [|discriminate]. inversion H; subst; clear H.
    destruct (edge_sem _ _ _ _ _ _ E Q) as (Q1 & _).
    pose proof (handshakes_bound _ _ _ _ _ _ i k E Q B K) as HB.
    pose proof (bwspec_step _ _ _ _ _ _ _ T E Q B) as B'.
    specialize (IH _ _ _ _ i (S k) R Q1 B' T ltac:(lia)).
    cbn [firstn map cnt]. change (list_sum (handshakes i (e, i_out s1) :: map (handshakes i) (firstn n os2)))
      with (handshakes i (e, i_out s1) + list_sum (map (handshakes i) (firstn n os2)))%nat.
    replace (S k - 2)%nat with (S (k - 2)) in IH by lia. lia.
Qed.

Lemma run_bwspec : forall c l s s' os k, ir_run c l s = Some (s', os) -> quiet c s -> bwspec c k s -> (1 <= ir_total c)%Z ->
  quiet c s' /\ bwspec c (k + length l) s'.
Proof.
  induction l as [|[o inp] l IH]; intros s s' os k H Q B T; cbn in H.
  - inversion H; subst. rewrite Nat.add_0_r. auto.
  - destruct (edge c o inp s) as [[s1 e]|] eqn:E; [|discriminate].
    destruct (ir_run c l s1) as [[s2 os2]|] eqn:R; [|discriminate]. inversion H; subst; clear H.
    destruct (edge_sem _ _ _ _ _ _ E Q) as (Q1 & _).
    destruct (IH _ _ _ (S k) R Q1 (bwspec_step _ _ _ _ _ _ _ T E Q B) T) as [X Y]. split; auto.
    replace (k + length ((o, inp) :: l))%nat with (S k + length l)%nat by (cbn; lia). auto.
Qed.

Lemma run_obs_length : forall c l s s' os, ir_run c l s = Some (s', os) -> length os = length l.
Proof.
  induction l as [|[o inp] l IH]; intros s s' os H; cbn in H; [inversion H; auto|].
  destruct (edge c o inp s) as [[s1 e]|]; [|discriminate].
  destruct (ir_run c l s1) as [[s2 os2]|] eqn:R; [|discriminate]. inversion H; subst. cbn. erewrite IH; eauto.
Qed.

Lemma run_bandwidth : forall c l s' os i start, ir_run c l irst0 = Some (s', os) -> (1 <= ir_total c)%Z -> (0 <= ir_accept c)%Z ->
  (2 <= start)%nat ->
  (Z.of_nat (list_sum (map (handshakes i) (firstn (Z.to_nat (ir_total c)) (skipn start os)))) <= ir_accept c)%Z.
Proof.
  intros c l s' os i start H T A K. destruct (Nat.le_gt_cases (length l) start) as [G|G].
  - rewrite skipn_all2 by (rewrite (run_obs_length _ _ _ _ _ H); auto). rewrite firstn_nil. cbn. lia.
  - rewrite <- (firstn_skipn start l) in H. destruct (ir_run_app _ _ _ _ _ _ H) as (s1 & o1 & o2 & X & Y & -> & L).
    rewrite firstn_length, Nat.min_l in L by lia. rewrite skipn_app, <- L, skipn_all, Nat.sub_diag. cbn [app skipn].
    destruct (run_bwspec _ _ _ _ _ _ X (quiet0 c) (bwspec0 c) T) as [Q B]. rewrite firstn_length, Nat.min_l in B by lia. cbn [Nat.add] in B.
    pose proof (run_count c (Z.to_nat (ir_total c)) _ _ _ _ i start Y Q B T K) as C.
    rewrite cnt_shift in C by auto. pose proof (cnt_zero (ir_total c) (ir_accept c) (Z.to_nat (ir_total c)) A ltac:(lia)). lia.
Qed.

(** Drops. *)
Lemma write_loop_drop : forall c inp l s s' e i t, write_loop c inp l s = Some (s', e) -> In (i, t, false) e ->
  (ir_slots c <= f_num (i_fifo s (destd c t)) + length (f_w (i_fifo s (destd c t))) + length (kept_at c (destd c t) e))%nat.
Proof.
  induction l as [|j l IH]; intros s s' e i t H Hin; cbn in H.
  - inversion H; subst. destruct Hin.
  - destruct (write_one c inp j s) as [[s1 e1]|] eqn:W; [|discriminate].
    destruct (write_loop c inp l s1) as [[s2 e2]|] eqn:L; [|discriminate]. inversion H; subst; clear H.
    assert (KA : length (kept_at c (destd c t) (e1 ++ e2)) = (length (kept_at c (destd c t) e1) + length (kept_at c (destd c t) e2))%nat)
      by (unfold kept_at; rewrite flat_map_app, app_length; auto).
    rewrite KA; clear KA.
    apply in_app_iff in Hin. destruct Hin as [Hin|Hin].
    + clear L IH. unfold write_one in W. destruct (inp j) as [u|]; [|inversion W; subst; destruct Hin].
      destruct (i_ready s j); [|inversion W; subst; destruct Hin].
      destruct (Nat.ltb _ (ir_rads c)); [|discriminate]. destruct (nb_write _ _ _) eqn:NB; inversion W; subst; clear W.
      * destruct Hin as [Hin|[]]. inversion Hin.
      * destruct Hin as [Hin|[]]. inversion Hin; subst; clear Hin. unfold nb_write in NB. cbn [x_dest] in *. unfold destd. cbn [x_dest].
        match type of NB with (if ?b then _ else _) = _ => destruct b eqn:E; [discriminate|] end. apply Nat.ltb_ge in E. lia.
    + specialize (IH _ _ _ _ _ L Hin).
      assert (W1 : write_loop c inp [j] s = Some (s1, e1)) by (cbn; rewrite W, app_nil_r; auto).
      destruct (write_loop_sem _ _ _ _ _ _ W1) as (A & _). destruct (A (destd c t)) as (A1 & A2 & A3 & A4).
      rewrite A2, A3, app_length in IH. lia.
Qed.

Lemma edge_drop : forall c o inp s s' e i t, edge c o inp s = Some (s', e) -> quiet c s -> In (i, t, false) e ->
  (ir_slots c <= length (f_q (i_fifo s (destd c t))) + length (kept_at c (destd c t) e))%nat.
Proof.
  intros c o inp s s' e i t H Q Hin. destruct (Q (destd c t)) as (Q1 & Q2 & Q3 & Q4). unfold edge in H. destruct o.
  - destruct (write_fifo c inp s) as [[s1 e1]|] eqn:W; [|discriminate]. destruct (read_loop _ _ s1); inversion H; subst; clear H.
    unfold write_fifo in W. destruct (i_started s); [|inversion W; subst; destruct Hin].
    destruct (write_loop c inp (seq 0 (ir_rads c)) s) as [[s3 e3]|] eqn:L; inversion W; subst; clear W.
    pose proof (write_loop_drop _ _ _ _ _ _ _ _ L Hin) as D. rewrite Q1, Q2 in D. cbn in D. lia.
  - destruct (read_loop_sem c (seq 0 (ir_rads c)) s) as (s2 & L & R1 & R2 & _).
    { apply seq_NoDup. }
    { intros j Hj. apply in_seq in Hj. destruct (Q j) as (? & ? & ? & ?). split; [lia|]. split; [lia|auto]. }
    rewrite L in H. destruct (write_fifo c inp s2) as [[s1 e1]|] eqn:W; inversion H; subst; clear H.
    unfold write_fifo in W. destruct (i_started s2); [|inversion W; subst; destruct Hin].
    destruct (write_loop c inp (seq 0 (ir_rads c)) s2) as [[s3 e3]|] eqn:L2; inversion W; subst; clear W.
    pose proof (write_loop_drop _ _ _ _ _ _ _ _ L2 Hin) as D.
    destruct (Nat.lt_ge_cases (destd c t) (ir_rads c)) as [Hd|Hd].
    + destruct (R1 (destd c t)) as [X _]; [apply in_seq; lia|]. rewrite X in D. cbn in D. rewrite Q1, Q2 in D. cbn in D. lia.
    + destruct (R2 (destd c t)) as [X _]; [rewrite in_seq; lia|]. rewrite X, Q1, Q2 in D. cbn in D. lia.
Qed.

Lemma edge_dest : forall c o inp s s' e i t b, edge c o inp s = Some (s', e) -> quiet c s -> In (i, t, b) e -> (destd c t < ir_rads c)%nat.
Proof.
  intros c o inp s s' e i t b H Q Hin. destruct (edge_sem _ _ _ _ _ _ H Q) as (_ & _ & _ & _ & _ & E & _).
  apply (E _ Hin).
Qed.

Lemma run_quiet : forall c l s s' os, ir_run c l s = Some (s', os) -> quiet c s -> quiet c s'.
Proof.
  induction l as [|[o inp] l IH]; intros s s' os H Q; cbn in H; [inversion H; subst; auto|].
  destruct (edge c o inp s) as [[s1 e]|] eqn:E; [|discriminate].
  destruct (ir_run c l s1) as [[s2 os2]|] eqn:R; [|discriminate]. inversion H; subst; clear H.
  destruct (edge_sem _ _ _ _ _ _ E Q) as (Q1 & _). eauto.
Qed.

Lemma run_drop : forall c l s' os k o i t, ir_run c l irst0 = Some (s', os) -> nth_error os k = Some o -> In (i, t, false) (fst o) ->
  let d := Z.to_nat (dest_rad (ir_w c) (x_dest t)) in
  (d < ir_rads c)%nat /\ (ir_slots c + length (shown d 0 (firstn k os)) <= length (entered c d 0 (firstn (S k) os)))%nat.
Proof.
  intros c l s' os k o i t H N Hin d.
  assert (K : (k < length l)%nat) by (rewrite <- (run_obs_length _ _ _ _ _ H); apply nth_error_Some; congruence).
  rewrite <- (firstn_skipn k l) in H. destruct (ir_run_app _ _ _ _ _ _ H) as (s1 & o1 & o2 & X & Y & -> & L).
  rewrite firstn_length, Nat.min_l in L by lia.
  rewrite nth_error_app2 in N by lia. rewrite L, Nat.sub_diag in N.
  destruct (skipn k l) as [|[ord inp] r] eqn:SK.
  { apply (f_equal (@length _)) in SK. rewrite skipn_length in SK. cbn in SK. lia. }
  cbn in Y. destruct (edge c ord inp s1) as [[s2 e]|] eqn:E; [|discriminate].
  destruct (ir_run c r s2) as [[s3 os3]|] eqn:R; inversion Y; subst; clear Y. cbn in N. inversion N; subst; clear N.
  cbn [fst] in Hin.
  pose proof (run_quiet _ _ _ _ _ X (quiet0 c)) as Q.
  pose proof (edge_dest _ _ _ _ _ _ _ _ _ E Q Hin) as Hd. split; [exact Hd|].
  pose proof (edge_drop _ _ _ _ _ _ _ _ E Q Hin) as D.
  destruct (run_order c _ irst0 s1 o1 0 d [] X (quiet0 c) Hd) as (_ & pre & g & A & B & (C1 & C2 & C3)).
  { split; [auto|]. split; constructor. }
  cbn in A. assert (E1 : firstn (length o1) (o1 ++ (e, i_out s2) :: os3) = o1).
  { rewrite firstn_app, Nat.sub_diag, firstn_all. apply app_nil_r. }
  assert (E2 : firstn (S (length o1)) (o1 ++ (e, i_out s2) :: os3) = o1 ++ [(e, i_out s2)]).
  { rewrite firstn_app. replace (S (length o1) - length o1)%nat with 1%nat by lia. rewrite firstn_all2 by lia. reflexivity. }
  rewrite E1, E2.
  rewrite entered_app, app_length, A, app_length. cbn [entered fst]. rewrite app_nil_r, map_length.
  rewrite <- (F2_length _ _ _ _ _ B). fold (destd c t) in d. unfold d in *. rewrite <- C1, map_length in D. lia.
Qed.

(** Exactly when a transaction is dropped. *)
Lemma write_loop_exact : forall c inp l s s' e e1 i t b e2, write_loop c inp l s = Some (s', e) -> e = e1 ++ (i, t, b) :: e2 ->
  (b = true <-> (f_num (i_fifo s (destd c t)) + length (f_w (i_fifo s (destd c t))) + length (kept_at c (destd c t) e1) < ir_slots c)%nat).
Proof.
  induction l as [|j l IH]; intros s s' e e1 i t b e2 H X; cbn in H.
  - inversion H; subst. destruct e1; discriminate.
  - destruct (write_one c inp j s) as [[s1 f1]|] eqn:W; [|discriminate].
    destruct (write_loop c inp l s1) as [[s2 f2]|] eqn:L; [|discriminate]. injection H as Hs He. subst s'. rewrite <- He in X. clear He e.
    assert (W1 : write_loop c inp [j] s = Some (s1, f1)) by (cbn; rewrite W, app_nil_r; auto).
    destruct (write_loop_sem _ _ _ _ _ _ W1) as (A & _).
    assert (F : f1 = [] \/ exists x, f1 = [x] /\ (snd x = true <->
              (f_num (i_fifo s (destd c (snd (fst x)))) + length (f_w (i_fifo s (destd c (snd (fst x))))) < ir_slots c)%nat)).
    { unfold write_one in W. destruct (inp j) as [u|]; [|inversion W; auto].
      destruct (i_ready s j); [|inversion W; auto].
      destruct (Nat.ltb _ (ir_rads c)); [|discriminate]. unfold nb_write in W.
      destruct (Nat.ltb_spec (f_num (i_fifo s (Z.to_nat (dest_rad (ir_w c) (swap_dest (ir_w c) (x_dest u))))) +
         length (f_w (i_fifo s (Z.to_nat (dest_rad (ir_w c) (swap_dest (ir_w c) (x_dest u))))))) (ir_slots c)) as [LT|GE];
        cbn [x_dest] in W.
      - destruct (Nat.ltb_spec (f_num (i_fifo s (Z.to_nat (dest_rad (ir_w c) (swap_dest (ir_w c) (x_dest u))))) +
         length (f_w (i_fifo s (Z.to_nat (dest_rad (ir_w c) (swap_dest (ir_w c) (x_dest u))))))) (ir_slots c)); [|lia].
        inversion W; subst. right. eexists. split; [reflexivity|]. cbn [snd fst]. unfold destd. cbn [x_dest]. tauto.
      - destruct (Nat.ltb_spec (f_num (i_fifo s (Z.to_nat (dest_rad (ir_w c) (swap_dest (ir_w c) (x_dest u))))) +
         length (f_w (i_fifo s (Z.to_nat (dest_rad (ir_w c) (swap_dest (ir_w c) (x_dest u))))))) (ir_slots c)); [lia|].
        inversion W; subst. right. eexists. split; [reflexivity|]. cbn [snd fst]. unfold destd. cbn [x_dest].
        split; [discriminate|lia]. }
    destruct (A (destd c t)) as (A1 & A2 & A3 & A4).
    destruct F as [->|(x & -> & F)].
    + cbn [app] in X. specialize (IH _ _ _ _ _ _ _ _ L X). rewrite A2, A3 in IH. cbn [kept_at flat_map] in IH. rewrite app_nil_r in IH. exact IH.
    + destruct e1 as [|y e1]; cbn [app] in X; inversion X; subst; clear X.
      * cbn [snd fst] in F. cbn [kept_at flat_map length]. rewrite Nat.add_0_r. exact F.
      * specialize (IH _ _ _ _ _ _ _ _ L eq_refl). rewrite A2, A3, app_length in IH.
        assert (KA : length (kept_at c (destd c t) (y :: e1)) = (length (kept_at c (destd c t) [y]) + length (kept_at c (destd c t) e1))%nat)
          by (change (y :: e1) with ([y] ++ e1); unfold kept_at; rewrite flat_map_app, app_length; auto).
        rewrite KA, IH, !Nat.add_assoc. reflexivity.
Qed.

Lemma edge_exact : forall c o inp s s' e1 i t b e2, edge c o inp s = Some (s', e1 ++ (i, t, b) :: e2) -> quiet c s ->
  (b = true <-> (length (f_q (i_fifo s (destd c t))) + length (kept_at c (destd c t) e1) < ir_slots c)%nat).
Proof.
  intros c o inp s s' e1 i t b e2 H Q. destruct (Q (destd c t)) as (Q1 & Q2 & Q3 & Q4). unfold edge in H. destruct o.
  - destruct (write_fifo c inp s) as [[s1 f1]|] eqn:W; [|discriminate]. destruct (read_loop _ _ s1); inversion H; subst; clear H.
    unfold write_fifo in W. destruct (i_started s); [|inversion W as [[W1 W2]]; destruct e1; discriminate].
    destruct (write_loop c inp (seq 0 (ir_rads c)) s) as [[s3 e3]|] eqn:L; inversion W; subst; clear W.
    pose proof (write_loop_exact _ _ _ _ _ _ _ _ _ _ _ L eq_refl) as D. rewrite Q1, Q2 in D. cbn in D. rewrite Nat.add_0_r in D. exact D.
  - destruct (read_loop_sem c (seq 0 (ir_rads c)) s) as (s2 & L & R1 & R2 & _).
    { apply seq_NoDup. }
    { intros j Hj. apply in_seq in Hj. destruct (Q j) as (? & ? & ? & ?). split; [lia|]. split; [lia|auto]. }
    rewrite L in H. destruct (write_fifo c inp s2) as [[s1 f1]|] eqn:W; inversion H; subst; clear H.
    unfold write_fifo in W. destruct (i_started s2); [|inversion W as [[W1 W2]]; destruct e1; discriminate].
    destruct (write_loop c inp (seq 0 (ir_rads c)) s2) as [[s3 e3]|] eqn:L2; inversion W; subst; clear W.
    pose proof (write_loop_exact _ _ _ _ _ _ _ _ _ _ _ L2 eq_refl) as D.
    destruct (Nat.lt_ge_cases (destd c t) (ir_rads c)) as [Hd|Hd].
    + destruct (R1 (destd c t)) as [X _]; [apply in_seq; lia|]. rewrite X in D. cbn in D. rewrite Q1, Q2 in D. cbn in D. rewrite Nat.add_0_r in D. exact D.
    + destruct (R2 (destd c t)) as [X _]; [rewrite in_seq; lia|]. rewrite X, Q1, Q2 in D. cbn in D. rewrite Nat.add_0_r in D. exact D.
Qed.

Lemma run_drop_exact : forall c l s' os k out e1 i t b e2, ir_run c l irst0 = Some (s', os) -> nth_error os k = Some (e1 ++ (i, t, b) :: e2, out) ->
  let d := Z.to_nat (dest_rad (ir_w c) (x_dest t)) in
  (d < ir_rads c)%nat /\
  (b = true <-> (length (entered c d 0 (firstn k os)) + length (kept_at c d e1) < ir_slots c + length (shown d 0 (firstn k os)))%nat).
Proof.
  intros c l s' os k out e1 i t b e2 H N d.
  assert (K : (k < length l)%nat) by (rewrite <- (run_obs_length _ _ _ _ _ H); apply nth_error_Some; congruence).
  rewrite <- (firstn_skipn k l) in H. destruct (ir_run_app _ _ _ _ _ _ H) as (s1 & o1 & o2 & X & Y & -> & L).
  rewrite firstn_length, Nat.min_l in L by lia.
  rewrite nth_error_app2 in N by lia. rewrite L, Nat.sub_diag in N.
  destruct (skipn k l) as [|[ord inp] r] eqn:SK.
  { apply (f_equal (@length _)) in SK. rewrite skipn_length in SK. cbn in SK. lia. }
  cbn in Y. destruct (edge c ord inp s1) as [[s2 e]|] eqn:E; [|discriminate].
  destruct (ir_run c r s2) as [[s3 os3]|] eqn:R; inversion Y; subst; clear Y. cbn in N. inversion N; subst; clear N.
  pose proof (run_quiet _ _ _ _ _ X (quiet0 c)) as Q.
  assert (Hd : (d < ir_rads c)%nat).
  { apply (edge_dest _ _ _ _ _ _ i t b E Q). apply in_or_app. right. left. reflexivity. }
  split; [exact Hd|].
  pose proof (edge_exact _ _ _ _ _ _ _ _ _ _ E Q) as D.
  destruct (run_order c _ irst0 s1 o1 0 d [] X (quiet0 c) Hd) as (_ & pre & g & A & B & (C1 & C2 & C3)).
  { split; [auto|]. split; constructor. }
  cbn in A. match goal with |- context [firstn (length o1) ?x] => replace (firstn (length o1) x) with o1
    by (rewrite firstn_app, Nat.sub_diag, firstn_all; symmetry; apply app_nil_r) end.
  rewrite A, app_length, <- (F2_length _ _ _ _ _ B). fold (destd c t) in d. unfold d in *.
  rewrite <- C1, map_length in D. rewrite D. lia.
Qed.
