(** Lemmas about the banks of a DRAM channel. *)
From Coq Require Import ZArith Bool List Lia FinFun.
From Verif Require Import DramBankModel DramCtrlModel DramSpec.
Import ListNotations.
Local Open Scope Z_scope.

(** ** Generalities *)
Lemma ctype_eqb_eq : forall a b, ctype_eqb a b = true <-> a = b.
Proof. intros [] []; cbn; split; congruence. Qed.
Lemma ctype_eqb_neq : forall a b, ctype_eqb a b = false <-> a <> b.
Proof. intros [] []; cbn; split; congruence. Qed.
Lemma in_range_ok : forall n x, in_range n x = true <-> 0 <= x < n.
Proof. intros. unfold in_range. rewrite andb_true_iff, Z.leb_le, Z.ltb_lt. tauto. Qed.
Lemma in_geom_ok : forall g a, in_geom g a = true <-> bank_in g (a_rank a) (a_bg a) (a_bank a).
Proof. intros. unfold in_geom, bank_in. rewrite !andb_true_iff, !in_range_ok. tauto. Qed.
Lemma in_zseq : forall n x, In x (zseq n) <-> 0 <= x < n.
Proof.
  intros. unfold zseq. rewrite in_map_iff. split.
  - intros (k & <- & H). apply in_seq in H. lia.
  - intros H. exists (Z.to_nat x). split; [lia|]. apply in_seq. lia.
Qed.
Lemma zseq_length : forall n, length (zseq n) = Z.to_nat n.
Proof. intros. unfold zseq. rewrite map_length, seq_length. reflexivity. Qed.
Lemma zseq_nodup : forall n, NoDup (zseq n).
Proof. intros. unfold zseq. apply Injective_map_NoDup; [intros a b; lia|apply seq_NoDup]. Qed.
Lemma in_rank_banks : forall g j k, In (j, k) (rank_banks g) <-> 0 <= j < g_bgs g /\ 0 <= k < g_bpg g.
Proof.
  intros. unfold rank_banks. rewrite in_flat_map. split.
  - intros (x & Hx & H). apply in_map_iff in H. destruct H as (y & E & Hy). injection E as -> ->. apply in_zseq in Hx, Hy. tauto.
  - intros [H1 H2]. exists j. split; [apply in_zseq; assumption|]. apply in_map_iff. exists k. split; [reflexivity|apply in_zseq; assumption].
Qed.
Lemma flat_map_const_length : forall {A B} (f : A -> list B) n l, (forall x, In x l -> length (f x) = n) -> length (flat_map f l) = (length l * n)%nat.
Proof. induction l as [|x l IH]; intros H; cbn [flat_map length]; [reflexivity|]. rewrite app_length, H by (left; reflexivity). rewrite IH by (intros; apply H; right; assumption). lia. Qed.
Lemma rank_banks_length : forall g, geom_ok g -> Z.of_nat (length (rank_banks g)) = g_banks g.
Proof.
  intros g []. unfold rank_banks, g_banks. rewrite (flat_map_const_length _ (Z.to_nat (g_bpg g))).
  - rewrite zseq_length. lia.
  - intros. rewrite map_length. apply zseq_length.
Qed.
Lemma u64_id : forall x, 0 <= x < 2 ^ 64 -> u64 x = x.
Proof. intros. apply Z.mod_small. assumption. Qed.
Lemma u64_nonneg : forall x, 0 <= u64 x.
Proof. intros. apply Z.mod_pos_bound. lia. Qed.

(** ** Ready commands *)
(** The state a bank must be in. *)
Definition state_for (c : cmd) (b : bank) : Prop :=
  match c_type c with
  | READ | READ_PRE | WRITE | WRITE_PRE => b_state b = OPEN /\ b_row b = a_row (c_addr c)
  | ACT | REF | REF_BANK | SREF_ENTER => b_state b = CLOSED
  | PRE => b_state b = OPEN
  | SREF_EXIT => b_state b = SREF
  end.
Lemma required_ok : forall b c t, required b c = Some t ->
  state_for {| c_type := t; c_addr := c_addr c; c_hex := c_hex c |} b /\ (t = c_type c \/ t = ACT \/ t = PRE \/ t = SREF_EXIT).
Proof.
  intros b c t H. unfold required in H.
  destruct (b_state b) eqn:Es, (c_type c) eqn:Ec; try discriminate; try (injection H as <-; cbn; rewrite ?Es; tauto);
    (destruct (a_row (c_addr c) =? b_row b) eqn:Er; injection H as <-; cbn; [apply Z.eqb_eq in Er; intuition congruence|tauto]).
Qed.
Lemma bank_ready_ok : forall b c clk y, bank_ready b c clk = Some (Some y) ->
  c_addr y = c_addr c /\ c_hex y = c_hex c /\ state_for y b /\ b_timing b (c_type y) <= clk /\ required b c = Some (c_type y) /\
  (c_type y = c_type c \/ c_type y = ACT \/ c_type y = PRE \/ c_type y = SREF_EXIT).
Proof.
  intros b c clk y H. unfold bank_ready in H. destruct (required b c) as [t|] eqn:E; [|discriminate].
  destruct (b_timing b t <=? clk) eqn:Et; [|discriminate]. injection H as <-. apply Z.leb_le in Et. cbn [c_type c_addr c_hex].
  destruct (required_ok _ _ _ E). tauto.
Qed.

(** A command may be issued. *)
Record issuable (g : geom) (s : chan) (clk : Z) (c : cmd) : Prop := {
  is_rankin : 0 <= a_rank (c_addr c) < g_ranks g;
  is_bankin : c_type c <> REF -> c_type c <> SREF_ENTER -> bank_in g (a_rank (c_addr c)) (a_bg (c_addr c)) (a_bank (c_addr c));
  is_state : forall r j k, bank_in g r j k -> waits_for c r j k -> state_for c (ch_bank s r j k);
  is_time : forall r j k, bank_in g r j k -> waits_for c r j k -> b_timing (ch_bank s r j k) (c_type c) <= clk;
  is_act : c_type c = ACT -> act_ok g s (a_rank (c_addr c)) clk = true }.

Lemma rank_ready_ok : forall g s c clk, is_rank (c_type c) = true -> forall l n last y,
  rank_ready g s c clk l n last = Some (Some y) ->
  (last = Some y -> c_type y = c_type c /\ c_addr y = c_addr c) ->
  (exists j k, In (j, k) l /\ c_type y = PRE /\ c_addr y = {| a_rank := a_rank (c_addr c); a_bg := j; a_bank := k; a_row := -1; a_col := -1 |} /\
     b_state (ch_bank s (a_rank (c_addr c)) j k) = OPEN /\ b_timing (ch_bank s (a_rank (c_addr c)) j k) PRE <= clk) \/
  (g_banks g <= n + Z.of_nat (length l) /\
   (n + Z.of_nat (length l) = g_banks g -> forall j k, In (j, k) l ->
      let b := ch_bank s (a_rank (c_addr c)) j k in required b c = Some (c_type c) /\ b_timing b (c_type c) <= clk) /\
   c_type y = c_type c /\ c_addr y = c_addr c).
Proof.
  intros g s c clk Hr. induction l as [|[j k] l IH]; intros n last y H Hl; cbn [rank_ready] in H.
  - right. destruct (n =? g_banks g) eqn:E; [|discriminate]. apply Z.eqb_eq in E. injection H as ->.
    cbn [length]. split; [lia|]. split; [intros _ j k []|]. auto.
  - destruct (bank_ready _ c clk) as [[rc|]|] eqn:E; [| |discriminate].
    + destruct (ctype_eqb (c_type rc) (c_type c)) eqn:Et.
      * apply ctype_eqb_eq in Et. apply bank_ready_ok in E. destruct E as (E1 & E2 & E3 & E4 & E5 & _).
        destruct (IH _ _ _ H) as [(j' & k' & Hin & X)|(X2 & X3 & X4)].
        -- intros Heq. injection Heq as <-. auto.
        -- left. exists j', k'. split; [right; exact Hin|exact X].
        -- right. cbn [length]. split; [lia|]. split; [|exact X4]. intros Hn j' k' [Heq|Hin].
           ++ injection Heq as <- <-. cbn zeta. rewrite <- Et. rewrite Et in E5. split; congruence || (rewrite <- ?Et; assumption).
           ++ apply X3; [lia|exact Hin].
      * injection H as <-. cbn [c_type c_addr]. left. exists j, k. split; [left; reflexivity|].
        apply bank_ready_ok in E. destruct E as (E1 & E2 & E3 & E4 & E5 & E6). apply ctype_eqb_neq in Et.
        assert (Ep : c_type rc = PRE).
        { unfold required in E5. destruct (b_state _), (c_type c); try discriminate; injection E5 as E5; congruence. }
        rewrite Ep in *. split; [reflexivity|]. split; [reflexivity|]. split; [|exact E4]. unfold state_for in E3. rewrite Ep in E3. exact E3.
    + destruct (IH _ _ _ H ltac:(discriminate)) as [(j' & k' & Hin & X)|(X2 & X3 & X4)].
      * left. exists j', k'. split; [right; exact Hin|exact X].
      * right. cbn [length]. split; [lia|]. split; [|exact X4]. intros Hn. exfalso.
        lia.
Qed.

Lemma rank_banks_some : forall g, geom_ok g -> exists j k, In (j, k) (rank_banks g).
Proof. intros g []. exists 0, 0. apply in_rank_banks. lia. Qed.

Lemma chan_ready_rank : forall g s c clk y, geom_ok g -> is_rank (c_type c) = true -> chan_ready g s c clk = Some (Some y) ->
  issuable g s clk y /\ (c_type y = PRE \/ c_type y = c_type c).
Proof.
  intros g s c clk y Hg Hr H. unfold chan_ready in H. rewrite Hr in H.
  destruct (in_range _ _) eqn:Ei; [|discriminate]. apply in_range_ok in Ei.
  destruct (rank_ready_ok g s c clk Hr _ _ _ _ H ltac:(discriminate)) as [(j & k & Hin & Ht & Ha & Hs & Hc)|(_ & Hall & Ht & Ha)].
  - apply in_rank_banks in Hin. split; [|auto]. constructor; rewrite ?Ha, ?Ht; cbn [a_rank a_bg a_bank]; try discriminate; auto.
    + intros _ _. split; auto.
    + intros r' j' k' _ [Hr' [Hx|[Hx|[-> ->]]]]; rewrite ?Ht, ?Ha in *; try discriminate. cbn [a_rank a_bg a_bank] in *. subst r'. unfold state_for. rewrite Ht. exact Hs.
    + intros r' j' k' _ [Hr' [Hx|[Hx|[-> ->]]]]; rewrite ?Ht, ?Ha in *; try discriminate. cbn [a_rank a_bg a_bank] in *. subst r'. exact Hc.
  - rewrite rank_banks_length in Hall by assumption. specialize (Hall ltac:(lia)). split; [|auto].
    assert (Hnx : c_type c <> SREF_EXIT).
    { intro E. destruct (rank_banks_some g Hg) as (j & k & Hin). destruct (Hall j k Hin) as [Hq _]. unfold required in Hq. rewrite E in Hq. destruct (b_state _); discriminate. }
    assert (Hty : c_type c = REF \/ c_type c = SREF_ENTER) by (destruct (c_type c); try discriminate; auto; congruence).
    constructor; rewrite ?Ha, ?Ht; auto.
    + intros; intuition congruence.
    + intros r' j' k' (_ & B) [-> _]. rewrite Ha. destruct (Hall j' k') as [Hq _]; [apply in_rank_banks; exact B|].
      unfold required in Hq. unfold state_for. rewrite Ht. destruct (b_state _), (c_type c); try discriminate; try reflexivity; intuition congruence.
    + intros r' j' k' (_ & B) [-> _]. rewrite Ha. destruct (Hall j' k') as [_ Hq]; [apply in_rank_banks; exact B|]. exact Hq.
    + intuition congruence.
Qed.

Lemma chan_ready_bank : forall g s c clk y, is_rank (c_type c) = false -> chan_ready g s c clk = Some (Some y) ->
  issuable g s clk y /\ c_addr y = c_addr c /\ c_hex y = c_hex c /\ (c_type y = c_type c \/ c_type y = ACT \/ c_type y = PRE \/ c_type y = SREF_EXIT).
Proof.
  intros g s c clk y Hr H. unfold chan_ready in H. rewrite Hr in H. destruct (in_geom g (c_addr c)) eqn:Eg; [|discriminate].
  apply in_geom_ok in Eg. destruct (bank_ready _ c clk) as [[rc|]|] eqn:E; try discriminate.
  destruct (ctype_eqb (c_type rc) ACT && negb (act_ok g s (a_rank (c_addr rc)) clk)) eqn:Ea; [discriminate|]. injection H as <-.
  apply bank_ready_ok in E. destruct E as (E1 & E2 & E3 & E4 & E5 & E6). split; [|auto].
  assert (Hty : c_type rc <> REF /\ c_type rc <> SREF_ENTER) by (destruct E6 as [E6|[E6|[E6|E6]]]; rewrite E6; destruct (c_type c); split; try discriminate).
  constructor; rewrite ?E1; auto.
  - apply Eg.
  - intros r j k _ [-> [Hx|[Hx|[-> ->]]]]; rewrite ?E1; tauto.
  - intros r j k _ [-> [Hx|[Hx|[-> ->]]]]; rewrite ?E1; tauto.
  - intros Hx. rewrite <- E1. rewrite (proj2 (ctype_eqb_eq _ _) Hx) in Ea. cbn [andb] in Ea. destruct (act_ok _ _ _ _); [reflexivity|discriminate].
Qed.
Lemma chan_ready_ok : forall g s c clk y, geom_ok g -> chan_ready g s c clk = Some (Some y) -> issuable g s clk y.
Proof.
  intros g s c clk y Hg H. destruct (is_rank (c_type c)) eqn:E; [eapply chan_ready_rank|eapply chan_ready_bank]; eauto.
Qed.

(** ** Updates *)
Lemma set_bank_same : forall f r j k b, set_bank f r j k b r j k = b.
Proof. intros. unfold set_bank. rewrite !Z.eqb_refl. reflexivity. Qed.
Lemma set_bank_other : forall f r j k b r' j' k', (r', j', k') <> (r, j, k) -> set_bank f r j k b r' j' k' = f r' j' k'.
Proof.
  intros. unfold set_bank. destruct ((r' =? r) && (j' =? j) && (k' =? k)) eqn:E; [|reflexivity].
  rewrite !andb_true_iff, !Z.eqb_eq in E. destruct E as [[-> ->] ->]. congruence.
Qed.
Lemma update_banks_ok : forall c l f, NoDup l -> (forall j k, In (j, k) l -> bank_update (f (a_rank (c_addr c)) j k) c <> None) ->
  exists f', update_banks c l f = Some f' /\
    (forall j k, In (j, k) l -> bank_update (f (a_rank (c_addr c)) j k) c = Some (f' (a_rank (c_addr c)) j k)) /\
    (forall r j k, r <> a_rank (c_addr c) \/ ~ In (j, k) l -> f' r j k = f r j k).
Proof.
  intros c. induction l as [|[j k] l IH]; intros f Hd H.
  - exists f. split; [reflexivity|]. split; [intros j k []|auto].
  - inversion Hd as [|? ? Hn Hd']; subst. cbn [update_banks].
    destruct (bank_update (f (a_rank (c_addr c)) j k) c) as [b|] eqn:E; [|exfalso; apply (H j k); [left; reflexivity|exact E]].
    assert (Ho : forall j' k', In (j', k') l -> set_bank f (a_rank (c_addr c)) j k b (a_rank (c_addr c)) j' k' = f (a_rank (c_addr c)) j' k').
    { intros j' k' Hin. apply set_bank_other. intro Eq. injection Eq as -> ->. tauto. }
    destruct (IH (set_bank f (a_rank (c_addr c)) j k b) Hd') as (f' & Hf & Ha & Hb).
    { intros j' k' Hin. rewrite Ho by assumption. apply H. right. assumption. }
    exists f'. split; [exact Hf|]. split.
    + intros j' k' [Eq|Hin].
      * injection Eq as <- <-. rewrite Hb by (right; assumption). rewrite set_bank_same. exact E.
      * rewrite <- Ha by assumption. rewrite Ho by assumption. reflexivity.
    + intros r j' k' Hor. rewrite Hb by (destruct Hor as [Hor|Hor]; [left; exact Hor|right; intro; apply Hor; right; assumption]).
      apply set_bank_other. intro Eq. injection Eq as -> -> ->. destruct Hor as [Hor|Hor]; [congruence|]. apply Hor. left. reflexivity.
Qed.
Lemma nodup_app_disj : forall {A} (l m : list A), NoDup l -> NoDup m -> (forall p, In p l -> ~ In p m) -> NoDup (l ++ m).
Proof.
  induction l as [|a l IH]; intros m Hl Hm H; cbn [app]; [exact Hm|]. inversion Hl; subst. constructor.
  - rewrite in_app_iff. intros [Hin|Hin]; [tauto|]. apply (H a); [left; reflexivity|exact Hin].
  - apply IH; auto. intros p Hp. apply H. right. exact Hp.
Qed.
Lemma nodup_pairs : forall {A B} (m : list B) (l : list A), NoDup m -> NoDup l -> NoDup (flat_map (fun j => map (fun k => (j, k)) m) l).
Proof.
  intros A B m l Hm. induction l as [|x l IH]; intros Hl; cbn [flat_map]; [constructor|]. inversion Hl as [|? ? Hn Hl']; subst.
  apply nodup_app_disj; [|apply IH; assumption|].
  - apply Injective_map_NoDup; [intros a b E; injection E; auto|exact Hm].
  - intros p Hp Hq. apply in_map_iff in Hp. destruct Hp as (y & <- & _). apply in_flat_map in Hq. destruct Hq as (z & Hz & Hq).
    apply in_map_iff in Hq. destruct Hq as (w & Eq & _). injection Eq as -> _. tauto.
Qed.
Lemma rank_banks_nodup : forall g, NoDup (rank_banks g).
Proof. intro g. apply nodup_pairs; apply zseq_nodup. Qed.
Lemma bank_update_ok : forall c b, state_for c b -> exists b', bank_update b c = Some b' /\ b_timing b' = b_timing b /\
  (forall st, (b_state b, b_row b) = st ->
   (b_state b' = match c_type c with ACT => OPEN | READ_PRE | WRITE_PRE | PRE | SREF_EXIT => CLOSED | SREF_ENTER => SREF | _ => b_state b end) /\
   (b_row b' = match c_type c with ACT => a_row (c_addr c) | READ_PRE | WRITE_PRE | PRE => -1 | _ => b_row b end)).
Proof.
  intros c b H. unfold state_for in H. unfold bank_update.
  destruct (c_type c) eqn:Ec; destruct (b_state b) eqn:Es; try discriminate; try (destruct H; discriminate); eexists; (split; [reflexivity|]); cbn; auto.
Qed.
Lemma bank_delays_ok : forall l clk b, b_state (bank_delays l clk b) = b_state b /\ b_row (bank_delays l clk b) = b_row b /\ b_hits (bank_delays l clk b) = b_hits b /\
  (forall t, b_timing b t <= b_timing (bank_delays l clk b) t) /\
  (forall t d, In (t, d) l -> u64 (clk + d) <= b_timing (bank_delays l clk b) t).
Proof.
  induction l as [|[t d] l IH]; intros clk b; unfold bank_delays; cbn [fold_left].
  - repeat split; auto; try lia. intros t d [].
  - fold (bank_delays l clk (bank_delay b t (u64 (clk + d)))). cbn [fst snd] in *.
    change (fold_left _ l ?x) with (bank_delays l clk x).
    destruct (IH clk (bank_delay b t (u64 (clk + d)))) as (I1 & I2 & I3 & I4 & I5).
    rewrite I1, I2, I3. split; [reflexivity|]. split; [reflexivity|]. split; [reflexivity|]. split.
    + intro u. etransitivity; [|apply I4]. cbn [bank_delay b_timing]. destruct (ctype_eqb u t); lia.
    + intros u e [Eq|Hin]; [|apply I5; exact Hin]. injection Eq as <- <-. etransitivity; [|apply I4]. cbn [bank_delay b_timing].
      rewrite (proj2 (ctype_eqb_eq t t) eq_refl). lia.
Qed.
