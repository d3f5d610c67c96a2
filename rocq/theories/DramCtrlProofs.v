(** The controller of a DRAM channel never aborts and keeps its books. *)
From Coq Require Import ZArith Bool List Lia Permutation.
From Verif Require Import DramBankModel DramCtrlModel DramSpec DramBankProofs DramTraceProofs.
Import ListNotations.
Local Open Scope Z_scope.

(** ** Counting *)
Definition cnt {A} (p : A -> bool) (l : list A) : nat := length (filter p l).
Lemma cnt_app : forall {A} (p : A -> bool) l m, cnt p (l ++ m) = (cnt p l + cnt p m)%nat.
Proof. intros. unfold cnt. rewrite filter_app, app_length. reflexivity. Qed.
Lemma cnt_cons : forall {A} (p : A -> bool) x l, cnt p (x :: l) = ((if p x then 1 else 0) + cnt p l)%nat.
Proof. intros. unfold cnt. cbn [filter]. destruct (p x); reflexivity. Qed.
Lemma cnt_nil : forall {A} (p : A -> bool), cnt p [] = 0%nat.
Proof. reflexivity. Qed.
Lemma cnt_perm : forall {A} (p : A -> bool) l m, Permutation l m -> cnt p l = cnt p m.
Proof. induction 1; rewrite ?cnt_cons in *; try lia; reflexivity. Qed.
Lemma cnt_pos : forall {A} (p : A -> bool) l x, In x l -> p x = true -> (1 <= cnt p l)%nat.
Proof. induction l as [|y l IH]; intros x H Hp; [destruct H|]. rewrite cnt_cons. destruct H as [<-|H]; [rewrite Hp; lia|]. specialize (IH _ H Hp). lia. Qed.
Lemma cnt_exists : forall {A} (p : A -> bool) l, existsb p l = false -> cnt p l = 0%nat.
Proof. induction l as [|y l IH]; intros H; [reflexivity|]. cbn [existsb] in H. apply orb_false_iff in H. destruct H as [H1 H2]. rewrite cnt_cons, H1, IH; auto. Qed.
Lemma cnt_exists_true : forall {A} (p : A -> bool) l, existsb p l = true -> (1 <= cnt p l)%nat.
Proof. intros A p l H. apply existsb_exists in H. destruct H as (x & Hin & Hp). eapply cnt_pos; eauto. Qed.
Lemma erase_first_perm : forall {A} (p : A -> bool) l, existsb p l = true -> exists x, p x = true /\ In x l /\ Permutation l (x :: erase_first p l).
Proof.
  induction l as [|y l IH]; intros H; [discriminate|]. cbn [existsb erase_first] in *. destruct (p y) eqn:E.
  - exists y. split; [exact E|]. split; [left; reflexivity|]. apply Permutation_refl.
  - cbn [orb] in H. destruct (IH H) as (x & Hx & Hin & Hp). exists x. split; [exact Hx|]. split; [right; exact Hin|].
    etransitivity; [apply perm_skip; exact Hp|apply perm_swap].
Qed.
Lemma flat_map_ext_in : forall {A B} (f h : A -> list B) l, (forall x, In x l -> f x = h x) -> flat_map f l = flat_map h l.
Proof. induction l as [|x l IH]; intros H; cbn [flat_map]; [reflexivity|]. rewrite H by (left; reflexivity). rewrite IH; auto. intros; apply H; right; assumption. Qed.
Lemma flat_map_at : forall {B} (q : Z -> list B) zs i, NoDup zs -> In i zs ->
  exists rest, forall q', (forall j, j <> i -> q' j = q j) -> Permutation (flat_map q' zs) (q' i ++ rest).
Proof.
  induction zs as [|z zs IH]; intros i Hd Hz; [destruct Hz|]. inversion Hd as [|? ? Hn Hd']; subst. destruct Hz as [->|Hi].
  - exists (flat_map q zs). intros q' Hq. cbn [flat_map]. rewrite (flat_map_ext_in q' q); [apply Permutation_refl|]. intros x Hx. apply Hq. congruence.
  - destruct (IH i Hd' Hi) as (rest & Hr). exists (q z ++ rest). intros q' Hq. cbn [flat_map]. rewrite (Hq z) by congruence.
    etransitivity; [apply Permutation_app_head; apply Hr; exact Hq|]. rewrite !app_assoc. apply Permutation_app_tail. apply Permutation_app_comm.
Qed.
Lemma set_z_same : forall {A} (f : Z -> A) i v, set_z f i v i = v.
Proof. intros. unfold set_z. rewrite Z.eqb_refl. reflexivity. Qed.
Lemma set_z_other : forall {A} (f : Z -> A) i v j, j <> i -> set_z f i v j = f j.
Proof. intros. unfold set_z. apply Z.eqb_neq in H. rewrite H. reflexivity. Qed.

(** ** The books *)
Definition pending (s : ctrl) (w : bool) : list trans := if w then s_pwr s else s_prd s.
Definition p_trans (w : bool) (a : Z) (t : trans) : bool := Bool.eqb (t_write t) w && (t_addr t =? a).
Definition p_cmd (w : bool) (a : Z) (y : cmd) : bool := Bool.eqb (is_write (c_type y)) w && (c_hex y =? a).
Definition allq (c : kcfg) (s : ctrl) : list cmd := flat_map (s_q s) (zseq (num_queues c)).
Definition b2n (b : bool) : nat := if b then 1%nat else 0%nat.
Definition total (c : kcfg) (s : ctrl) (extra : list cmd) (w : bool) (a : Z) : nat :=
  (cnt (p_trans w a) (s_uq s ++ s_rq s ++ s_wq s) + cnt (p_cmd w a) (extra ++ allq c s))%nat.
Lemma total_entries : forall c s w a, entries c s w a = total c s [] w a.
Proof. reflexivity. Qed.

Definition ref_ok (c : kcfg) (x : cmd) : Prop :=
  (c_type x = REF /\ 0 <= a_rank (c_addr x) < g_ranks (k_g c)) \/ (c_type x = REF_BANK /\ in_geom (k_g c) (c_addr x) = true).
Definition from_trans (c : kcfg) (x : cmd) : Prop := exists t, x = trans_cmd c t.
Record kinv (strong : bool) (c : kcfg) (s : ctrl) (extra : list cmd) : Prop := {
  ki_sref : forall r, ch_sref (s_ch s) r = false;
  ki_refq : Forall (ref_ok c) (ch_refq (s_ch s));
  ki_next : bank_in (k_g c) (s_nrank s) (s_nbg s) (s_nbank s);
  ki_q : forall i x, In x (s_q s i) -> from_trans c x /\ queue_index c (c_addr x) = i;
  ki_pwr : forall a, (cnt (fun t => Z.eqb (t_addr t) a) (s_pwr s) <= 1)%nat;
  ki_le : forall w a, (total c s extra w a <= b2n (has_addr a (pending s w)))%nat;
  ki_ge : strong = true -> forall w a, (b2n (has_addr a (pending s w)) <= total c s extra w a)%nat }.

Lemma trans_cmd_rw : forall c t, is_rw (c_type (trans_cmd c t)) = true /\ is_write (c_type (trans_cmd c t)) = t_write t /\ is_read (c_type (trans_cmd c t)) = negb (t_write t) /\
  is_rank (c_type (trans_cmd c t)) = false.
Proof. intros c [? ? ? []]; unfold trans_cmd; cbn [t_write c_type]; destruct (k_close_page c); auto. Qed.
Lemma queue_index_in : forall c a, cfg_ok c -> in_geom (k_g c) a = true -> In (queue_index c a) (zseq (num_queues c)).
Proof.
  intros c a Hc H. apply in_geom_ok in H. destruct H as (H1 & H2 & H3). destruct (co_geom _ Hc) as [G1 G2 G3]. apply in_zseq. unfold queue_index, num_queues, g_banks. destruct (k_per_bank c); [|lia].
  assert (A1 : a_bg a * g_bpg (k_g c) <= (g_bgs (k_g c) - 1) * g_bpg (k_g c)) by (apply Z.mul_le_mono_nonneg_r; lia).
  assert (A2 : a_rank a * (g_bgs (k_g c) * g_bpg (k_g c)) <= (g_ranks (k_g c) - 1) * (g_bgs (k_g c) * g_bpg (k_g c))) by (apply Z.mul_le_mono_nonneg_r; nia).
  assert (A3 : 0 <= a_rank a * (g_bgs (k_g c) * g_bpg (k_g c))) by (apply Z.mul_nonneg_nonneg; nia).
  assert (A4 : 0 <= a_bg a * g_bpg (k_g c)) by (apply Z.mul_nonneg_nonneg; lia). lia.
Qed.

(** ** The channel never aborts *)
Definition askable (c : kcfg) (x : cmd) : Prop := ref_ok c x \/ from_trans c x.
Lemma no_sref : forall g l t s, chan_inv g l t s -> (forall r, ch_sref s r = false) -> forall r j k, bank_in g r j k -> b_state (ch_bank s r j k) <> SREF.
Proof. intros g l t s Hi Hs r j k Hb E. apply (ci_sref _ _ _ _ Hi) in E; [|exact Hb]. rewrite Hs in E. discriminate. Qed.
Lemma rank_ready_some : forall g s c clk l n last, c_type c = REF -> (forall j k, In (j, k) l -> b_state (ch_bank s (a_rank (c_addr c)) j k) <> SREF) ->
  rank_ready g s c clk l n last <> None.
Proof.
  intros g s c clk l. induction l as [|[j k] l IH]; intros n last Ht Hs; cbn [rank_ready]; [discriminate|].
  assert (Hb : bank_ready (ch_bank s (a_rank (c_addr c)) j k) c clk <> None).
  { unfold bank_ready, required. rewrite Ht. specialize (Hs j k (or_introl eq_refl)). destruct (b_state _); try discriminate. congruence. }
  assert (Hs' : forall j k, In (j, k) l -> b_state (ch_bank s (a_rank (c_addr c)) j k) <> SREF) by (intros; apply Hs; right; assumption).
  destruct (bank_ready _ c clk) as [[rc|]|]; [|apply IH; assumption|congruence].
  destruct (ctype_eqb _ _); [apply IH; assumption|discriminate].
Qed.
Lemma ask_some : forall c s l t x, cfg_ok c -> chan_inv (k_g c) l t s -> (forall r, ch_sref s r = false) -> askable c x -> chan_ready (k_g c) s x t <> None.
Proof.
  intros c s l t x Hc Hi Hs Hx. unfold chan_ready.
  destruct Hx as [[[Ht Hr]|[Ht Hr]]|(tr & ->)].
  - rewrite Ht. cbn [is_rank]. rewrite (proj2 (in_range_ok _ _) Hr). apply rank_ready_some; [exact Ht|].
    intros j k Hin. apply in_rank_banks in Hin. eapply no_sref; eauto. split; auto.
  - rewrite Ht, Hr. cbn [is_rank]. apply in_geom_ok in Hr.
    assert (Hb : bank_ready (ch_bank s (a_rank (c_addr x)) (a_bg (c_addr x)) (a_bank (c_addr x))) x t <> None).
    { unfold bank_ready, required. rewrite Ht. pose proof (no_sref _ _ _ _ Hi Hs _ _ _ Hr). destruct (b_state _); try discriminate. congruence. }
    destruct (bank_ready _ x t) as [[rc|]|]; [|discriminate|congruence]. destruct (_ && _); discriminate.
  - destruct (trans_cmd_rw c tr) as (T1 & T2 & T3 & T4). rewrite T4. pose proof (co_decode _ Hc (t_addr tr)) as Hg. cbn [c_addr trans_cmd]. rewrite Hg. apply in_geom_ok in Hg.
    assert (Hb : bank_ready (ch_bank s (a_rank (k_decode c (t_addr tr))) (a_bg (k_decode c (t_addr tr))) (a_bank (k_decode c (t_addr tr)))) (trans_cmd c tr) t <> None).
    { unfold bank_ready, required. pose proof (no_sref _ _ _ _ Hi Hs _ _ _ Hg). destruct (b_state _), (c_type (trans_cmd c tr)); try discriminate; try congruence; destruct (_ =? _); discriminate. }
    destruct (bank_ready _ _ t) as [[rc|]|]; [|discriminate|congruence]. destruct (_ && _); discriminate.
Qed.
(** What comes back. *)
Lemma ask_gives : forall c s l t x y, cfg_ok c -> chan_inv (k_g c) l t s -> (forall r, ch_sref s r = false) -> askable c x -> chan_ready (k_g c) s x t = Some (Some y) ->
  c_type y <> SREF_ENTER /\ c_type y <> SREF_EXIT /\ (is_rw (c_type y) = true -> y = x).
Proof.
  intros c s l t x y Hc Hi Hs Hx Hr. pose proof (chan_ready_ok _ _ _ _ _ (co_geom _ Hc) Hr) as Hy.
  assert (Hne : c_type y <> SREF_EXIT).
  { intro E. assert (Hb : bank_in (k_g c) (a_rank (c_addr y)) (a_bg (c_addr y)) (a_bank (c_addr y))) by (apply (is_bankin _ _ _ _ Hy); congruence).
    assert (Hw : waits_for y (a_rank (c_addr y)) (a_bg (c_addr y)) (a_bank (c_addr y))) by (split; auto).
    pose proof (is_state _ _ _ _ Hy _ _ _ Hb Hw) as Hst. unfold state_for in Hst. rewrite E in Hst. eapply no_sref; eauto. }
  destruct Hx as [[[Ht Hrk]|[Ht Hrk]]|(tr & Ex)].
  - destruct (chan_ready_rank _ _ _ _ _ (co_geom _ Hc) ltac:(rewrite Ht; reflexivity) Hr) as [_ [E|E]]; rewrite E, ?Ht; (split; [discriminate|]; split; [discriminate|discriminate]).
  - destruct (chan_ready_bank _ _ _ _ _ ltac:(rewrite Ht; reflexivity) Hr) as (_ & _ & _ & [E|[E|[E|E]]]); try contradiction; rewrite E, ?Ht; (split; [discriminate|]; split; [discriminate|discriminate]).
  - destruct (trans_cmd_rw c tr) as (T1 & T2 & T3 & T4). rewrite <- Ex in *.
    destruct (chan_ready_bank _ _ _ _ _ T4 Hr) as (_ & E1 & E2 & [E|[E|[E|E]]]); try contradiction.
    + split; [|split; [exact Hne|]].
      * intro Es. rewrite <- E, Es in T1. discriminate.
      * intros _. destruct y as [y1 y2 y3], x as [x1 x2 x3]; cbn [c_type c_addr c_hex] in *. congruence.
    + rewrite E. split; [discriminate|]. split; discriminate.
    + rewrite E. split; [discriminate|]. split; discriminate.
Qed.
Lemma erase_first_incl : forall {A} (p : A -> bool) l, incl (erase_first p l) l.
Proof. induction l as [|x l IH]; intros y Hy; cbn [erase_first] in Hy; [exact Hy|]. destruct (p x); [right; exact Hy|]. destruct Hy as [<-|Hy]; [left; reflexivity|right; apply IH; exact Hy]. Qed.
Lemma chan_issue_refq : forall g c clk s s', chan_issue g c clk s = Some s' -> incl (ch_refq s') (ch_refq s).
Proof.
  intros g c clk s s' H. unfold chan_issue in H. destruct (chan_update g c s) as [s1|] eqn:E; [|discriminate]. injection H as <-.
  unfold chan_timing. cbn [ch_refq]. assert (Hq : ch_refq (if ctype_eqb (c_type c) ACT then act_times g (a_rank (c_addr c)) clk s1 else s1) = ch_refq s1) by (destruct (ctype_eqb _ _); reflexivity).
  rewrite Hq. clear Hq. unfold chan_update in E. destruct (is_rank (c_type c)).
  - destruct (update_banks _ _ _); [|discriminate]. injection E as <-. cbn [ch_refq]. destruct (is_refresh _); [apply erase_first_incl|apply incl_refl].
  - destruct (bank_update _ _); [|discriminate]. injection E as <-. cbn [ch_refq]. destruct (is_refresh _); [apply erase_first_incl|apply incl_refl].
Qed.
Lemma chan_issue_sref : forall g c clk s s', chan_issue g c clk s = Some s' -> c_type c <> SREF_ENTER -> c_type c <> SREF_EXIT -> ch_sref s' = ch_sref s.
Proof.
  intros g c clk s s' H N1 N2. unfold chan_issue in H. destruct (chan_update g c s) as [s1|] eqn:E; [|discriminate]. injection H as <-.
  unfold chan_timing. cbn [ch_sref]. assert (Hq : ch_sref (if ctype_eqb (c_type c) ACT then act_times g (a_rank (c_addr c)) clk s1 else s1) = ch_sref s1) by (destruct (ctype_eqb _ _); reflexivity).
  rewrite Hq. clear Hq. unfold chan_update in E. destruct (is_rank (c_type c)).
  - destruct (update_banks _ _ _); [|discriminate]. injection E as <-. cbn [ch_sref]. destruct (c_type c); congruence.
  - destruct (bank_update _ _); [|discriminate]. injection E as <-. reflexivity.
Qed.

(** ** The steps of a cycle *)
(** The state of the channel and the books agree. *)
Definition good (c : kcfg) (s : ctrl) : Prop := exists l, ctrace (k_g c) l (s_clk s) (s_ch s).
Lemma good_inv : forall c s, cfg_ok c -> good c s -> exists l, chan_inv (k_g c) l (s_clk s) (s_ch s).
Proof. intros c s Hc (l & H). exists l. eapply ctrace_inv; eauto. apply Hc. Qed.

Lemma first_ready_some : forall c x l clk rest prev, cfg_ok c -> chan_inv (k_g c) l clk x -> (forall r, ch_sref x r = false) -> (forall y, In y rest -> askable c y) ->
  first_ready (k_g c) x clk prev rest <> None.
Proof.
  intros c x l clk. induction rest as [|y r IH]; intros prev Hc Hi Hs Hr; cbn [first_ready]; [discriminate|].
  pose proof (ask_some _ _ _ _ y Hc Hi Hs (Hr y (or_introl eq_refl))). assert (Hr' : forall y, In y r -> askable c y) by (intros; apply Hr; right; assumption).
  destruct (chan_ready _ _ _ _) as [[z|]|]; [|apply IH; assumption|congruence]. destruct (match c_type z with PRE => _ | _ => _ end); [apply IH; assumption|discriminate].
Qed.
Definition extra_of (y : option cmd) : list cmd := match y with Some z => if is_rw (c_type z) then [z] else [] | None => [] end.
Lemma same_cmd_self : forall y, same_cmd y y = true.
Proof. intros. unfold same_cmd. rewrite Z.eqb_refl. rewrite (proj2 (ctype_eqb_eq _ _) eq_refl). reflexivity. Qed.
Lemma command_loop_ok : forall c x l clk ir ri, cfg_ok c -> chan_inv (k_g c) l clk x -> (forall r, ch_sref x r = false) ->
  forall n q i, (forall i x, In x (q i) -> from_trans c x /\ queue_index c (c_addr x) = i) ->
  exists q' i' y, command_loop c x clk ir ri n q i = Some (q', i', y) /\
    (forall z, y = Some z -> exists c0, chan_ready (k_g c) x c0 clk = Some (Some z) /\ askable c c0) /\
    (forall i x, In x (q' i) -> from_trans c x /\ queue_index c (c_addr x) = i) /\
    Permutation (flat_map q (zseq (num_queues c))) (extra_of y ++ flat_map q' (zseq (num_queues c))).
Proof.
  intros c x l clk ir ri Hc Hi Hs. induction n as [|n IH]; intros q i Hq; cbn [command_loop].
  - exists q, i, None. split; [reflexivity|]. split; [discriminate|]. split; [exact Hq|]. apply Permutation_refl.
  - destruct (ir && _); [apply IH; exact Hq|].
    assert (Hf : first_ready (k_g c) x clk [] (q (next_queue c i)) <> None).
    { eapply first_ready_some; eauto. intros y Hy. right. apply Hq in Hy. apply Hy. }
    destruct (first_ready _ _ _ _ _) as [[z|]|] eqn:E; [|apply IH; exact Hq|congruence].
    destruct (first_ready_from _ _ _ _ _ _ E) as (c0 & Hin & Hr). destruct (Hq _ _ Hin) as [Hft Hqi].
    destruct (ask_gives _ _ _ _ _ _ Hc Hi Hs (or_intror Hft) Hr) as (_ & _ & Hrw).
    assert (Hfrom : forall w, Some z = Some w -> exists c0, chan_ready (k_g c) x c0 clk = Some (Some w) /\ askable c c0).
    { intros w Ew. injection Ew as <-. exists c0. split; [exact Hr|right; exact Hft]. }
    destruct (is_rw (c_type z)) eqn:Erw.
    + specialize (Hrw eq_refl). subst c0. unfold erase_rw. rewrite Hqi.
      assert (Hex : existsb (same_cmd z) (q (next_queue c i)) = true) by (apply existsb_exists; exists z; split; [exact Hin|apply same_cmd_self]).
      rewrite Hex. eexists _, _, _. split; [reflexivity|]. split; [exact Hfrom|].
      destruct (erase_first_perm _ _ Hex) as (z' & Hz' & Hin' & Hp).
      assert (Ezz : z' = z).
      { unfold same_cmd in Hz'. rewrite andb_true_iff, Z.eqb_eq, ctype_eqb_eq in Hz'. destruct Hz' as [Z1 Z2].
        destruct Hft as (t1 & E1). destruct (Hq _ _ Hin') as [(t2 & E2) _]. rewrite E1, E2 in *. unfold trans_cmd in *. cbn [c_hex c_type] in *. rewrite <- Z1. f_equal. congruence. }
      subst z'. split.
      * intros j y Hy. destruct (Z.eq_dec j (next_queue c i)) as [->|Hj].
        -- rewrite set_z_same in Hy. apply erase_first_incl in Hy. apply Hq. exact Hy.
        -- rewrite set_z_other in Hy by exact Hj. apply Hq. exact Hy.
      * unfold extra_of. rewrite Erw.
        assert (Hiz : In (next_queue c i) (zseq (num_queues c))).
        { rewrite <- Hqi. apply queue_index_in; [exact Hc|]. destruct Hft as (t1 & ->). apply (co_decode _ Hc). }
        destruct (flat_map_at q _ _ (zseq_nodup (num_queues c)) Hiz) as (rest & Hrest).
        rewrite (Hrest q) by auto. rewrite (Hrest (set_z q (next_queue c i) (erase_first (same_cmd z) (q (next_queue c i))))) by (intros; apply set_z_other; assumption).
        rewrite set_z_same. cbn [app]. rewrite Hp at 1. apply Permutation_refl.
    + eexists _, _, _. split; [reflexivity|]. split; [exact Hfrom|]. split; [exact Hq|]. unfold extra_of. rewrite Erw. apply Permutation_refl.
Qed.
Lemma get_command_ok : forall b c s, cfg_ok c -> good c s -> kinv b c s [] ->
  exists s' y, get_command c s = Some (s', y) /\ s_ch s' = s_ch s /\ s_clk s' = s_clk s /\ kinv b c s' (extra_of y) /\
    (forall z, y = Some z -> exists c0, chan_ready (k_g c) (s_ch s) c0 (s_clk s) = Some (Some z) /\ askable c c0).
Proof.
  intros b c s Hc Hg Hk. destruct (good_inv _ _ Hc Hg) as (l & Hi). unfold get_command.
  destruct (command_loop_ok c (s_ch s) l (s_clk s) (s_inref s) (s_refidx s) Hc Hi (ki_sref _ _ _ _ Hk) (Z.to_nat (num_queues c)) (s_q s) (s_qidx s) (ki_q _ _ _ _ Hk)) as (q' & i' & y & E & H1 & H2 & H3).
  rewrite E. eexists _, y. split; [reflexivity|]. split; [reflexivity|]. split; [reflexivity|]. split; [|exact H1].
  assert (Ht : forall w a, total c (with_q s q' i' (s_inref s) (s_refidx s) (s_rank_empty s)) (extra_of y) w a = total c s [] w a).
  { intros w a. unfold total. cbn [s_uq s_rq s_wq with_q app]. f_equal. symmetry. apply cnt_perm. exact H3. }
  destruct Hk. constructor; auto.
  - intros w a. rewrite Ht. apply ki_le0.
  - intros Hb w a. rewrite Ht. apply ki_ge0. exact Hb.
Qed.

Lemma has_addr_cnt : forall a l, has_addr a l = false <-> cnt (fun t => Z.eqb (t_addr t) a) l = 0%nat.
Proof.
  intros. unfold has_addr. split; [apply cnt_exists|]. intro H. destruct (existsb _ l) eqn:E; [|reflexivity]. apply cnt_exists_true in E. lia.
Qed.
Lemma has_addr_filter : forall a h l, has_addr a (filter (fun t => negb (t_addr t =? h)) l) = if a =? h then false else has_addr a l.
Proof.
  intros a h l. unfold has_addr. induction l as [|t l IH]; cbn [filter existsb]; [destruct (a =? h); reflexivity|].
  destruct (t_addr t =? h) eqn:E; cbn [negb].
  - rewrite IH. destruct (a =? h) eqn:Ea; [reflexivity|]. apply Z.eqb_eq in E. rewrite E, Z.eqb_sym, Ea. reflexivity.
  - cbn [existsb]. rewrite IH. destruct (a =? h) eqn:Ea; [|reflexivity]. apply Z.eqb_eq in Ea. subst a. rewrite E. reflexivity.
Qed.
Lemma has_addr_erase : forall a h l, (cnt (fun t => Z.eqb (t_addr t) h) l <= 1)%nat -> has_addr a (erase_first (fun t => t_addr t =? h) l) = if a =? h then false else has_addr a l.
Proof.
  intros a h l. unfold has_addr. induction l as [|t l IH]; cbn [erase_first existsb]; intro H; [destruct (a =? h); reflexivity|]. rewrite cnt_cons in H.
  destruct (t_addr t =? h) eqn:E.
  - destruct (a =? h) eqn:Ea.
    + apply Z.eqb_eq in Ea. subst a. apply has_addr_cnt. lia.
    + apply Z.eqb_eq in E. rewrite E, (Z.eqb_sym h), Ea. reflexivity.
  - cbn [existsb]. rewrite IH by lia. destruct (a =? h) eqn:Ea; [|reflexivity]. apply Z.eqb_eq in Ea. subst a. rewrite E. reflexivity.
Qed.
Lemma erase_cnt : forall {A} (p r : A -> bool) l, (cnt p (erase_first r l) <= cnt p l)%nat.
Proof. induction l as [|x l IH]; cbn [erase_first]; [lia|]. destruct (r x); rewrite !cnt_cons; [destruct (p x); lia|lia]. Qed.
Lemma kinv_ext : forall b c s s' e, kinv b c s e -> (forall r, ch_sref (s_ch s') r = false) -> incl (ch_refq (s_ch s')) (ch_refq (s_ch s)) ->
  s_nrank s' = s_nrank s -> s_nbg s' = s_nbg s -> s_nbank s' = s_nbank s -> s_q s' = s_q s ->
  s_uq s' = s_uq s -> s_rq s' = s_rq s -> s_wq s' = s_wq s -> s_prd s' = s_prd s -> s_pwr s' = s_pwr s -> kinv b c s' e.
Proof.
  intros b c s s' e [] H1 H2 E1 E2 E3 E4 E5 E6 E7 E8 E9.
  assert (Ht : forall w a, total c s' e w a = total c s e w a) by (intros; unfold total, allq; rewrite E4, E5, E6, E7; reflexivity).
  assert (Hp : forall w, pending s' w = pending s w) by (intros []; cbn; congruence).
  constructor; auto.
  - rewrite Forall_forall in *. auto.
  - rewrite E1, E2, E3. assumption.
  - rewrite E4. assumption.
  - rewrite E9. assumption.
  - intros w a. rewrite Ht, Hp. auto.
  - intros Hb w a. rewrite Ht, Hp. auto.
Qed.
Lemma issue_ok : forall b c s y c0, cfg_ok c -> good c s -> kinv b c s (extra_of (Some y)) ->
  chan_ready (k_g c) (s_ch s) c0 (s_clk s) = Some (Some y) -> askable c c0 ->
  exists s', issue c s y = Some s' /\ kinv b c s' [] /\ good c s' /\ s_clk s' = s_clk s.
Proof.
  intros b c s y c0 Hc Hg Hk Hr Ha. pose proof Hg as (l & Hl). pose proof (ctrace_inv _ _ _ _ (co_geom _ Hc) Hl) as Hi.
  destruct (chan_inv_issue _ _ _ _ _ _ (co_geom _ Hc) Hi Hr) as (x & Hx & _).
  destruct (ask_gives _ _ _ _ _ _ Hc Hi (ki_sref _ _ _ _ Hk) Ha Hr) as (N1 & N2 & _).
  assert (Hgood : forall s', s_ch s' = x -> s_clk s' = s_clk s -> good c s').
  { intros s' E1 E2. exists (l ++ [(s_clk s, y)]). rewrite E1, E2. eapply ct_issue; eauto. }
  assert (Hsr : forall r, ch_sref x r = false) by (intro r; rewrite (chan_issue_sref _ _ _ _ _ Hx N1 N2); apply (ki_sref _ _ _ _ Hk)).
  pose proof (chan_issue_refq _ _ _ _ _ Hx) as Hrq.
  unfold issue. unfold extra_of in Hk.
  assert (Htot : forall w a, is_rw (c_type y) = true -> total c s [y] w a = ((if p_cmd w a y then 1 else 0) + total c s [] w a)%nat).
  { intros w a _. unfold total. cbn [app]. rewrite cnt_cons. lia. }
  destruct (is_read (c_type y)) eqn:Erd.
  - assert (Erw : is_rw (c_type y) = true) by (unfold is_rw; rewrite Erd; reflexivity). rewrite Erw in Hk.
    assert (Ew : is_write (c_type y) = false) by (destruct (c_type y); try discriminate; reflexivity).
    assert (Hh : has_addr (c_hex y) (s_prd s) = true).
    { pose proof (ki_le _ _ _ _ Hk false (c_hex y)) as Hle. rewrite Htot in Hle by exact Erw. unfold p_cmd in Hle. rewrite Ew, Z.eqb_refl in Hle. cbn [Bool.eqb andb pending] in Hle.
      destruct (has_addr _ _); [reflexivity|cbn [b2n] in Hle; lia]. }
    rewrite Hh. cbn [s_clk s_ch with_trans]. rewrite Hx. eexists. split; [reflexivity|]. split; [|split; [apply Hgood; reflexivity|reflexivity]].
    assert (Hp : forall w a, has_addr a (pending (with_ch (with_trans s (s_uq s) (s_rq s) (s_wq s) (filter (fun t : trans => negb (t_addr t =? c_hex y)) (s_prd s)) (s_pwr s)
                  (s_ret s ++ map (fun t : trans => completes t (u64 (s_clk s + k_read_delay c))) (filter (fun t : trans => t_addr t =? c_hex y) (s_prd s))) (s_drain s)) x) w) =
              if p_cmd w a y then false else has_addr a (pending s w)).
    { intros w a. unfold p_cmd. rewrite Ew. destruct w; cbn [pending with_ch with_trans s_prd s_pwr Bool.eqb andb]; [reflexivity|]. rewrite (Z.eqb_sym _ a). apply has_addr_filter. }
    destruct Hk. constructor; auto.
    + cbn [with_ch with_trans s_ch]. rewrite Forall_forall in *. auto.
    + intros w a. rewrite Hp. specialize (ki_le0 w a). rewrite Htot in ki_le0 by exact Erw. change (total c _ [] w a) with (total c s [] w a). destruct (p_cmd w a y); [|exact ki_le0].
      destruct (has_addr a (pending s w)); cbn [b2n] in *; lia.
    + intros Hb w a. rewrite Hp. specialize (ki_ge0 Hb w a). rewrite Htot in ki_ge0 by exact Erw. change (total c _ [] w a) with (total c s [] w a). destruct (p_cmd w a y); [cbn [b2n]; lia|exact ki_ge0].
  - destruct (is_write (c_type y)) eqn:Ew.
    + assert (Erw : is_rw (c_type y) = true) by (unfold is_rw; rewrite Ew; apply orb_true_r). rewrite Erw in Hk.
      assert (Hh : has_addr (c_hex y) (s_pwr s) = true).
      { pose proof (ki_le _ _ _ _ Hk true (c_hex y)) as Hle. rewrite Htot in Hle by exact Erw. unfold p_cmd in Hle. rewrite Ew, Z.eqb_refl in Hle. cbn [Bool.eqb andb pending] in Hle.
        destruct (has_addr _ _); [reflexivity|cbn [b2n] in Hle; lia]. }
      rewrite Hh. cbn [s_clk s_ch with_trans]. rewrite Hx. eexists. split; [reflexivity|]. split; [|split; [apply Hgood; reflexivity|reflexivity]].
      assert (Hp : forall w a, has_addr a (pending (with_ch (with_trans s (s_uq s) (s_rq s) (s_wq s) (s_prd s) (erase_first (fun t : trans => t_addr t =? c_hex y) (s_pwr s)) (s_ret s) (s_drain s)) x) w) =
              if p_cmd w a y then false else has_addr a (pending s w)).
      { intros w a. unfold p_cmd. rewrite Ew. destruct w; cbn [pending with_ch with_trans s_prd s_pwr Bool.eqb andb]; [|reflexivity]. rewrite (Z.eqb_sym _ a). apply has_addr_erase. apply (ki_pwr _ _ _ _ Hk). }
      destruct Hk. constructor; auto.
      * cbn [with_ch with_trans s_ch]. rewrite Forall_forall in *. auto.
      * intro a. cbn [with_ch with_trans s_pwr]. etransitivity; [apply erase_cnt|apply ki_pwr0].
      * intros w a. rewrite Hp. specialize (ki_le0 w a). rewrite Htot in ki_le0 by exact Erw. change (total c _ [] w a) with (total c s [] w a). destruct (p_cmd w a y); [|exact ki_le0].
        destruct (has_addr a (pending s w)); cbn [b2n] in *; lia.
      * intros Hb w a. rewrite Hp. specialize (ki_ge0 Hb w a). rewrite Htot in ki_ge0 by exact Erw. change (total c _ [] w a) with (total c s [] w a). destruct (p_cmd w a y); [cbn [b2n]; lia|exact ki_ge0].
    + rewrite Hx. eexists. split; [reflexivity|]. split; [|split; [apply Hgood; reflexivity|reflexivity]].
      assert (Erw : is_rw (c_type y) = false) by (unfold is_rw; rewrite Erd, Ew; reflexivity). rewrite Erw in Hk.
      eapply kinv_ext; [exact Hk| | |reflexivity|reflexivity|reflexivity|reflexivity|reflexivity|reflexivity|reflexivity|reflexivity|reflexivity]; cbn [with_ch s_ch]; assumption.
Qed.
(** No two reads or writes in a cycle. *)
Lemma rw_twice : forall c l t s y z c0 s1, cfg_ok c -> rw_gap (k_g c) -> t < 2 ^ 63 -> ctrace (k_g c) l t s ->
  is_rw (c_type y) = true -> bank_in (k_g c) (a_rank (c_addr y)) (a_bg (c_addr y)) (a_bank (c_addr y)) ->
  ctrace (k_g c) (l ++ [(t, y)]) t s1 -> chan_ready (k_g c) s1 c0 t = Some (Some z) -> is_rw (c_type z) = false.
Proof.
  intros c l t s y z c0 s1 Hc Hgap Ht _ Hy Hyb H1 Hr. destruct (is_rw (c_type z)) eqn:Hz; [exfalso|reflexivity].
  pose proof (co_geom _ Hc) as Hg. pose proof (ctrace_inv _ _ _ _ Hg H1) as Hi.
  destruct (chan_inv_issue _ _ _ _ _ _ Hg Hi Hr) as (s2 & Hs2 & _).
  pose proof (ct_issue _ _ _ _ _ _ _ H1 Hr Hs2) as H2.
  pose proof (chan_ready_ok _ _ _ _ _ Hg Hr) as Hiz.
  assert (Hzb : bank_in (k_g c) (a_rank (c_addr z)) (a_bg (c_addr z)) (a_bank (c_addr z))) by (apply (is_bankin _ _ _ _ Hiz); intro E; rewrite E in Hz; discriminate).
  assert (Hw : waits_for z (a_rank (c_addr z)) (a_bg (c_addr z)) (a_bank (c_addr z))) by (split; auto).
  destruct (ci_time _ _ _ _ Hi) as [T0 _].
  assert (Hno : ~ gap_in (c_type z) (delays_on (g_t (k_g c)) y (a_rank (c_addr z)) (a_bg (c_addr z)) (a_bank (c_addr z)))).
  { intros (d & Hin & Hd). pose proof (ctrace_delay _ _ _ _ Hg H2 l t y [] t z [] ltac:(rewrite <- app_assoc; reflexivity) _ _ _ _ Hzb Hw Hin) as Hu.
    rewrite u64_id in Hu by lia. lia. }
  apply Hno. destruct (Hgap (c_type y) (c_type z) Hy Hz) as (G1 & G2 & G3 & G4). unfold delays_on.
  assert (Enr : is_rank (c_type y) = false) by (destruct (c_type y); try discriminate; reflexivity). rewrite Enr.
  destruct (a_rank (c_addr z) =? a_rank (c_addr y)) eqn:E1; [|apply G4; apply Z.eqb_neq in E1; destruct Hzb as (? & _), Hyb as (? & _); lia].
  destruct (a_bg (c_addr z) =? a_bg (c_addr y)) eqn:E2; [|apply G3; apply Z.eqb_neq in E2; destruct Hzb as (_ & ? & _), Hyb as (_ & ? & _); lia].
  destruct (a_bank (c_addr z) =? a_bank (c_addr y)) eqn:E3; [|apply G2; apply Z.eqb_neq in E3; destruct Hzb as (_ & _ & ?), Hyb as (_ & _ & ?); lia].
  apply G1. apply Z.eqb_eq in E1, E2, E3.
  assert (Hcz : concerns z (a_rank (c_addr z)) (a_bg (c_addr z)) (a_bank (c_addr z)) = true) by (unfold concerns; rewrite !Z.eqb_refl; apply orb_true_r).
  assert (Hcy : concerns y (a_rank (c_addr z)) (a_bg (c_addr z)) (a_bank (c_addr z)) = true) by (unfold concerns; rewrite E1, E2, E3, !Z.eqb_refl; apply orb_true_r).
  pose proof (ctrace_legal _ _ _ _ Hg H2 (l ++ [(t, y)]) t z [] eq_refl _ _ _ Hzb Hcz) as Hlz. rewrite status_app, Hcy in Hlz.
  destruct (c_type y) eqn:Ey; try discriminate; auto; exfalso; unfold legal, next_status in Hlz; rewrite Ey in Hlz; destruct (c_type z); try discriminate; destruct Hlz; discriminate.
Qed.
Lemma kinv_weaken : forall c s e, kinv false c s e -> kinv false c s [].
Proof.
  intros c s e []. constructor; auto; [|discriminate]. intros w a. etransitivity; [|apply ki_le0]. unfold total. cbn [app]. rewrite (cnt_app (p_cmd w a) e). lia.
Qed.
(** When the strong form is kept. *)
Definition safe (b : bool) (c : kcfg) (t : Z) : Prop := b = true -> k_dual c = true -> rw_gap (k_g c) /\ t < 2 ^ 63.
Lemma issue_cmds_ok : forall b c s y c0, cfg_ok c -> safe b c (s_clk s) -> good c s -> kinv b c s (extra_of (Some y)) ->
  chan_ready (k_g c) (s_ch s) c0 (s_clk s) = Some (Some y) -> askable c c0 ->
  exists s' ys, issue_cmds c s y = Some (s', ys) /\ kinv b c s' [] /\ good c s' /\ s_clk s' = s_clk s.
Proof.
  intros b c s y c0 Hc Hsafe Hg Hk Hr Ha. unfold issue_cmds.
  destruct (issue_ok _ _ _ _ _ Hc Hg Hk Hr Ha) as (s1 & E1 & Hk1 & Hg1 & C1). rewrite E1.
  destruct (k_dual c) eqn:Ed; [|eexists _, _; split; [reflexivity|auto]].
  destruct (get_command_ok _ _ _ Hc Hg1 Hk1) as (s2 & z & E2 & X2 & C2 & Hk2 & Hz). rewrite E2.
  assert (Hg2 : good c s2) by (destruct Hg1 as (l & Hl); exists l; rewrite X2, C2; exact Hl).
  destruct z as [z|]; [|eexists _, _; split; [reflexivity|]; split; [exact Hk2|]; split; [exact Hg2|congruence]].
  destruct (Hz _ eq_refl) as (c1 & Hr1 & Ha1).
  destruct (negb _) eqn:En.
  - rewrite <- X2, <- C2 in Hr1. destruct (issue_ok _ _ _ _ _ Hc Hg2 Hk2 Hr1 Ha1) as (s3 & E3 & Hk3 & Hg3 & C3). rewrite E3.
    eexists _, _. split; [reflexivity|]. split; [exact Hk3|]. split; [exact Hg3|congruence].
  - eexists _, _. split; [reflexivity|]. split; [|split; [exact Hg2|congruence]].
    apply negb_false_iff, eqb_prop in En. destruct (is_rw (c_type z)) eqn:Erw; [|unfold extra_of in Hk2; rewrite Erw in Hk2; exact Hk2].
    destruct b; [exfalso|eapply kinv_weaken; exact Hk2]. destruct (Hsafe eq_refl Ed) as [Hgap Ht].
    destruct Hg as (l & Hl). pose proof (chan_ready_ok _ _ _ _ _ (co_geom _ Hc) Hr) as Hy.
    assert (Hyb : bank_in (k_g c) (a_rank (c_addr y)) (a_bg (c_addr y)) (a_bank (c_addr y))) by (apply (is_bankin _ _ _ _ Hy); intro E; rewrite E in En; discriminate).
    destruct (ctrace_issue _ _ _ _ _ _ Hl Hr E1) as [_ Hl1]. rewrite C1 in Hl1, Hr1.
    rewrite (rw_twice c l (s_clk s) (s_ch s) y z c1 (s_ch s1) Hc Hgap Ht Hl (eq_sym En) Hyb Hl1 Hr1) in Erw. discriminate.
Qed.
Lemma pick_ok : forall b c s, cfg_ok c -> good c s -> kinv b c s [] ->
  exists s' y, pick c s = Some (s', y) /\ s_ch s' = s_ch s /\ s_clk s' = s_clk s /\ kinv b c s' (extra_of y) /\
    (forall z, y = Some z -> exists c0, chan_ready (k_g c) (s_ch s) c0 (s_clk s) = Some (Some z) /\ askable c c0).
Proof.
  intros b c s Hc Hg Hk. unfold pick. destruct (ch_refq (s_ch s)) as [|ref q] eqn:Eq; [apply get_command_ok; assumption|].
  unfold finish_refresh.
  set (s1 := if s_inref s then s else with_q s (s_q s) (s_qidx s) true (ref_indices c ref ++ s_refidx s) (s_rank_empty s)).
  assert (X1 : s_ch s1 = s_ch s) by (unfold s1; destruct (s_inref s); reflexivity).
  assert (C1 : s_clk s1 = s_clk s) by (unfold s1; destruct (s_inref s); reflexivity).
  assert (Hk1 : kinv b c s1 []).
  { eapply kinv_ext; [exact Hk| | | | | | | | | | |]; unfold s1; destruct (s_inref s); try reflexivity; try (apply (ki_sref _ _ _ _ Hk)); apply incl_refl. }
  assert (Hg1 : good c s1) by (destruct Hg as (l & Hl); exists l; rewrite X1, C1; exact Hl). clearbody s1.
  assert (Ha : askable c ref) by (left; pose proof (ki_refq _ _ _ _ Hk) as Hf; rewrite Eq in Hf; inversion Hf; assumption).
  destruct (good_inv _ _ Hc Hg1) as (l & Hi).
  pose proof (ask_some _ _ _ _ _ Hc Hi (ki_sref _ _ _ _ Hk1) Ha) as Hn.
  destruct (chan_ready (k_g c) (s_ch s1) ref (s_clk s1)) as [[y|]|] eqn:E; [| |congruence].
  - destruct (ask_gives _ _ _ _ _ _ Hc Hi (ki_sref _ _ _ _ Hk1) Ha E) as (_ & _ & Hrw).
    assert (Ee : extra_of (Some y) = []).
    { unfold extra_of. destruct (is_rw (c_type y)) eqn:Erw; [|reflexivity]. specialize (Hrw eq_refl). subst y.
      pose proof (ki_refq _ _ _ _ Hk) as Hf. rewrite Eq in Hf. inversion Hf as [|? ? Hro _]. destruct Hro as [[Ht _]|[Ht _]]; rewrite Ht in Erw; discriminate. }
    eexists _, (Some y). split; [reflexivity|]. rewrite Ee. split; [destruct (is_refresh _); cbn [with_q s_ch]; exact X1|]. split; [destruct (is_refresh _); cbn [with_q s_clk]; exact C1|]. split.
    + destruct (is_refresh _); [|exact Hk1]. eapply kinv_ext; [exact Hk1| | |reflexivity|reflexivity|reflexivity|reflexivity|reflexivity|reflexivity|reflexivity|reflexivity|reflexivity]; cbn [with_q s_ch]; [apply (ki_sref _ _ _ _ Hk1)|apply incl_refl].
    + intros z Ez. injection Ez as <-. exists ref. rewrite <- X1, <- C1. split; [exact E|exact Ha].
  - destruct (get_command_ok _ _ _ Hc Hg1 Hk1) as (s2 & z & E2 & X2 & C2 & Hk2 & Hz). exists s2, z. rewrite X1, C1 in *. auto.
Qed.

(** ** Refresh, schedule, add *)
Lemma find_trans_ok : forall c s rest prev t q, find_trans c s prev rest = Some (t, q) -> will_accept_cmd c s (c_addr (trans_cmd c t)) = true /\ Permutation (prev ++ rest) (t :: q).
Proof.
  induction rest as [|x r IH]; intros prev t q H; cbn [find_trans] in H; [discriminate|]. destruct (will_accept_cmd c s (c_addr (trans_cmd c x))) eqn:E.
  - injection H as <- <-. split; [exact E|]. symmetry. apply Permutation_middle.
  - destruct (IH _ _ _ H) as [H1 H2]. split; [exact H1|]. rewrite <- app_assoc in H2. exact H2.
Qed.
Lemma add_command_ok : forall b c s s0 t uq rq wq d, cfg_ok c -> kinv b c s [] -> will_accept_cmd c s (c_addr (trans_cmd c t)) = true ->
  s0 = with_trans s uq rq wq (s_prd s) (s_pwr s) (s_ret s) d -> Permutation (s_uq s ++ s_rq s ++ s_wq s) (t :: uq ++ rq ++ wq) ->
  kinv b c (add_command c s0 (trans_cmd c t)) [].
Proof.
  intros b c s s0 t uq rq wq d Hc Hk Ha -> Hp. unfold add_command. cbn [with_trans s_q]. unfold will_accept_cmd in Ha. rewrite Ha.
  set (i := queue_index c (c_addr (trans_cmd c t))). fold i in Ha.
  match goal with |- kinv b c ?x [] => set (s1 := x) end.
  assert (Ht : forall w a, total c s1 [] w a = total c s [] w a).
  { intros w a. unfold total. cbn [app]. unfold s1. cbn [with_q with_trans s_uq s_rq s_wq]. rewrite (cnt_perm _ _ _ Hp), cnt_cons.
    assert (Hiz : In i (zseq (num_queues c))) by (apply queue_index_in; [exact Hc|apply (co_decode _ Hc)]).
    destruct (flat_map_at (s_q s) _ _ (zseq_nodup (num_queues c)) Hiz) as (rest & Hrest).
    unfold allq. cbn [with_q s_q with_trans].
    rewrite (cnt_perm (p_cmd w a) (flat_map (s_q s) _) _ (Hrest (s_q s) ltac:(auto))).
    rewrite (cnt_perm (p_cmd w a) (flat_map (set_z _ _ _) _) _ (Hrest (set_z (s_q s) i (s_q s i ++ [trans_cmd c t])) ltac:(intros; apply set_z_other; assumption))).
    rewrite set_z_same, !cnt_app, cnt_cons, cnt_nil.
    replace (p_cmd w a (trans_cmd c t)) with (p_trans w a t); [lia|]. unfold p_cmd, p_trans. destruct (trans_cmd_rw c t) as (_ & -> & _). reflexivity. }
  destruct Hk. constructor; auto.
  - intros j x Hx. unfold s1 in Hx. cbn [with_q s_q with_trans] in Hx. destruct (Z.eq_dec j i) as [->|Hj].
    + rewrite set_z_same in Hx. apply in_app_iff in Hx. destruct Hx as [Hx|[<-|[]]]; [apply ki_q0; exact Hx|]. split; [exists t; reflexivity|reflexivity].
    + rewrite set_z_other in Hx by exact Hj. apply ki_q0. exact Hx.
  - intros w a. rewrite Ht. apply ki_le0.
  - intros Hb w a. rewrite Ht. apply ki_ge0. exact Hb.
Qed.
Lemma schedule_ok : forall b c s, cfg_ok c -> kinv b c s [] -> kinv b c (schedule c s) [].
Proof.
  intros b c s Hc Hk. unfold schedule.
  assert (Hd : forall d, kinv b c (with_trans s (s_uq s) (s_rq s) (s_wq s) (s_prd s) (s_pwr s) (s_ret s) d) []).
  { intro d. eapply kinv_ext; [exact Hk| | |reflexivity|reflexivity|reflexivity|reflexivity|reflexivity|reflexivity|reflexivity|reflexivity|reflexivity]; [apply (ki_sref _ _ _ _ Hk)|apply incl_refl]. }
  destruct (k_unified c).
  - destruct (find_trans c s [] (s_uq s)) as [[t q]|] eqn:E; [|exact Hk]. destruct (find_trans_ok _ _ _ _ _ _ E) as [H1 H2].
    eapply add_command_ok; [exact Hc|exact Hk|exact H1|reflexivity|]. rewrite H2. apply Permutation_refl.
  - destruct (0 <? drain_start c s).
    + destruct (find_trans c s [] (s_wq s)) as [[t q]|] eqn:E; [|apply Hd]. destruct (find_trans_ok _ _ _ _ _ _ E) as [H1 H2].
      assert (Hp : Permutation (s_uq s ++ s_rq s ++ s_wq s) (t :: s_uq s ++ s_rq s ++ q)).
      { cbn [app] in H2. rewrite H2, !app_assoc. symmetry. apply Permutation_middle. }
      destruct (is_write _); [destruct (has_addr _ _); [apply Hd|]|]; eapply add_command_ok; eauto.
    + destruct (find_trans c s [] (s_rq s)) as [[t q]|] eqn:E; [|apply Hd]. destruct (find_trans_ok _ _ _ _ _ _ E) as [H1 H2].
      assert (Hp : Permutation (s_uq s ++ s_rq s ++ s_wq s) (t :: s_uq s ++ q ++ s_wq s)).
      { cbn [app] in H2. rewrite H2. symmetry. apply (Permutation_middle (s_uq s) (q ++ s_wq s)). }
      destruct (is_write _); [destruct (has_addr _ _); [apply Hd|]|]; eapply add_command_ok; eauto.
Qed.
Lemma mod_in : forall n x, 0 < n -> 0 <= x mod n < n.
Proof. intros. apply Z.mod_pos_bound. assumption. Qed.
Lemma iterate_next_ok : forall b c s, cfg_ok c -> kinv b c s [] -> kinv b c (iterate_next c s) [].
Proof.
  intros b c s Hc Hk. destruct (co_geom _ Hc) as [G1 G2 G3]. destruct (ki_next _ _ _ _ Hk) as (N1 & N2 & N3).
  assert (Hn : forall r j k, bank_in (k_g c) r j k -> kinv b c (with_next s r j k) []).
  { intros r j k Hb. destruct Hk. constructor; auto. }
  unfold iterate_next. destruct (k_policy c); [exact Hk| |].
  - apply Hn. split; [apply mod_in; exact G1|auto].
  - cbn zeta. destruct (_ =? 0); [destruct (_ =? 0)|]; apply Hn; repeat split; auto; try (apply mod_in; assumption); lia.
Qed.
Lemma with_refq_ok : forall b c s q, kinv b c s [] -> Forall (ref_ok c) q -> kinv b c (with_ch s (with_refq (s_ch s) q)) [].
Proof. intros b c s q [] Hq. constructor; auto. Qed.
Lemma refresh_tick_ok : forall b c s, cfg_ok c -> good c s -> kinv b c s [] -> exists s', refresh_tick c s = Some s' /\ kinv b c s' [] /\ good c s' /\ s_clk s' = s_clk s.
Proof.
  intros b c s Hc Hg Hk. unfold refresh_tick. destruct (co_geom _ Hc) as [G1 G2 G3].
  assert (Hi : exists i, refresh_interval c = Some i).
  { unfold refresh_interval. destruct (k_policy c); eauto. destruct (Z.eqb_spec (g_ranks (k_g c)) 0); [lia|eauto]. }
  destruct Hi as (i & Hi). rewrite Hi. pose proof (co_int _ Hc _ Hi) as Hi0. apply Z.eqb_neq in Hi0. rewrite Hi0.
  assert (Hgr : forall s', refresh_tick c s = Some s' -> good c s').
  { intros s' E. destruct (refresh_tick_ch _ _ _ E) as (E1 & q & E2). destruct Hg as (l & Hl). exists l. rewrite E1, E2. apply ct_refq. exact Hl. }
  assert (Hcl : forall s', refresh_tick c s = Some s' -> s_clk s' = s_clk s) by (intros s' E; apply (refresh_tick_ch _ _ _ E)).
  assert (Eu : refresh_tick c s = Some (if (s_clk s mod u64 i =? 0) && (0 <? s_clk s) then insert_refresh c s else s)) by (unfold refresh_tick; rewrite Hi, Hi0; reflexivity).
  eexists. split; [reflexivity|]. split; [|split; [apply Hgr; exact Eu|apply Hcl; exact Eu]].
  destruct (_ && _); [|exact Hk]. pose proof (ki_refq _ _ _ _ Hk) as Hq. pose proof (ki_next _ _ _ _ Hk) as Hn.
  unfold insert_refresh. destruct (k_policy c).
  - destruct (find _ _) as [r|] eqn:Ef; [|exact Hk]. apply find_some in Ef. destruct Ef as [Ef _]. apply in_zseq in Ef.
    apply with_refq_ok; [exact Hk|]. unfold rank_need_refresh. apply Forall_app. split; [exact Hq|]. constructor; [|constructor]. left. cbn. auto.
  - apply iterate_next_ok; [exact Hc|]. destruct (ch_sref _ _); [exact Hk|]. apply with_refq_ok; [exact Hk|]. apply Forall_app. split; [exact Hq|]. constructor; [|constructor]. left. cbn. split; [reflexivity|apply Hn].
  - apply iterate_next_ok; [exact Hc|]. destruct (ch_sref _ _); [exact Hk|]. apply with_refq_ok; [exact Hk|]. apply Forall_app. split; [exact Hq|]. constructor; [|constructor]. right. cbn [c_type c_addr]. split; [reflexivity|].
    apply in_geom_ok. exact Hn.
Qed.
Lemma clock_tick_ok : forall b c s, cfg_ok c -> k_selfref c = false -> safe b c (s_clk s) -> good c s -> kinv b c s [] ->
  exists s' y, clock_tick c s = Some (s', y) /\ kinv b c s' [] /\ good c s' /\ s_clk s' = s_clk s + 1.
Proof.
  intros b c s Hc Hsr Hsafe Hg Hk. pose proof Hg as (l & Hl).
  assert (Hex : exists s' y, clock_tick c s = Some (s', y) /\ kinv b c s' []).
  { unfold clock_tick. destruct (refresh_tick_ok _ _ _ Hc Hg Hk) as (s0 & -> & Hk0 & Hg0 & C0).
    destruct (pick_ok _ _ _ Hc Hg0 Hk0) as (s1 & y & -> & X1 & C1 & Hk1 & Hy).
    assert (Hg1 : good c s1) by (destruct Hg0 as (l0 & Hl0); exists l0; rewrite X1, C1; exact Hl0).
    assert (H2 : exists s2 ys, match y with None => Some (s1, []) | Some y => issue_cmds c s1 y end = Some (s2, ys) /\ kinv b c s2 []).
    { destruct y as [y|]; [|eexists _, _; split; [reflexivity|exact Hk1]]. destruct (Hy _ eq_refl) as (c0 & Hr & Ha). rewrite <- X1, <- C1 in Hr.
      assert (Hs1 : safe b c (s_clk s1)) by (rewrite C1, C0; exact Hsafe).
      destruct (issue_cmds_ok b c s1 y c0 Hc Hs1 Hg1 Hk1 Hr Ha) as (s2 & ys & E & Hk2 & _). exists s2, ys. split; assumption. }
    destruct H2 as (s2 & ys & -> & Hk2). rewrite Hsr. cbn [andb]. eexists _, _. split; [reflexivity|].
    assert (Hk3 : kinv b c (with_clk s2 (s_clk s2) (idle_cycles c s2)) []).
    { eapply kinv_ext; [exact Hk2| | |reflexivity|reflexivity|reflexivity|reflexivity|reflexivity|reflexivity|reflexivity|reflexivity|reflexivity]; [apply (ki_sref _ _ _ _ Hk2)|apply incl_refl]. }
    pose proof (schedule_ok _ _ _ Hc Hk3) as Hk4.
    eapply kinv_ext; [exact Hk4| | |reflexivity|reflexivity|reflexivity|reflexivity|reflexivity|reflexivity|reflexivity|reflexivity|reflexivity]; [apply (ki_sref _ _ _ _ Hk4)|apply incl_refl]. }
  destruct Hex as (s' & y & E & Hk'). exists s', y. split; [exact E|]. split; [exact Hk'|].
  destruct (ctrace_clock_tick _ _ _ _ _ Hl E) as [E1 E2]. split; [|exact E1]. eexists. exact E2.
Qed.
Lemma has_addr_app : forall a l t, has_addr a (l ++ [t]) = has_addr a l || (t_addr t =? a).
Proof. intros. unfold has_addr. rewrite existsb_app. cbn [existsb]. rewrite orb_false_r. reflexivity. Qed.
Lemma add_trans_ok : forall b c s a w, kinv b c s [] -> kinv b c (add_trans c s a w) [].
Proof.
  intros b c s a w Hk.
  set (t := {| t_addr := a; t_added := s_clk s; t_complete := 0; t_write := w |}).
  assert (Hret : forall r, kinv b c (with_trans s (s_uq s) (s_rq s) (s_wq s) (s_prd s) (s_pwr s) r (s_drain s)) []).
  { intro r. eapply kinv_ext; [exact Hk| | |reflexivity|reflexivity|reflexivity|reflexivity|reflexivity|reflexivity|reflexivity|reflexivity|reflexivity]; [apply (ki_sref _ _ _ _ Hk)|apply incl_refl]. }
  assert (Hpt : forall w' x, p_trans w' x t = Bool.eqb w w' && (a =? x)) by reflexivity.
  unfold add_trans. destruct w.
  - destruct (has_addr a (s_pwr s)) eqn:Eh; [apply Hret|]. fold t.
    match goal with |- kinv b c ?x [] => set (s1 := x) end.
    assert (Ht : forall w' x, total c s1 [] w' x = ((if p_trans w' x t then 1 else 0) + total c s [] w' x)%nat).
    { intros w' x. unfold total, s1. cbn [with_trans s_uq s_rq s_wq]. destruct (k_unified c); rewrite !cnt_app, ?cnt_cons, ?cnt_nil; change (allq c _) with (allq c s); lia. }
    assert (Hp : forall w' x, has_addr x (pending s1 w') = has_addr x (pending s w') || p_trans w' x t).
    { intros w' x. rewrite Hpt. destruct w'; cbn [pending s1 with_trans s_prd s_pwr]; [apply has_addr_app|cbn [Bool.eqb andb]; rewrite orb_false_r; reflexivity]. }
    destruct Hk. constructor; auto.
    + intro x. cbn [s1 with_trans s_pwr]. rewrite cnt_app, cnt_cons, cnt_nil. cbn [t_addr t]. destruct (a =? x) eqn:Ex; [|specialize (ki_pwr0 x); lia].
      apply Z.eqb_eq in Ex. subst x. apply has_addr_cnt in Eh. lia.
    + intros w' x. rewrite Ht, Hp. specialize (ki_le0 w' x). rewrite Hpt. destruct (Bool.eqb true w' && (a =? x)) eqn:Ex; [|rewrite orb_false_r; exact ki_le0].
      rewrite orb_true_r. rewrite andb_true_iff, Z.eqb_eq in Ex. destruct Ex as [Ex1 Ex2]. subst x. apply eqb_prop in Ex1. subst w'. cbn [pending] in ki_le0. rewrite Eh in ki_le0. cbn [b2n] in *. lia.
    + intros Hb w' x. rewrite Ht, Hp. specialize (ki_ge0 Hb w' x). destruct (p_trans w' x t); [rewrite orb_true_r; cbn [b2n]; lia|rewrite orb_false_r; exact ki_ge0].
  - destruct (has_addr a (s_pwr s)) eqn:Ew; [apply Hret|]. fold t. destruct (has_addr a (s_prd s)) eqn:Eh.
    + match goal with |- kinv b c ?x [] => set (s1 := x) end.
      assert (Hp : forall w' x, has_addr x (pending s1 w') = has_addr x (pending s w')).
      { intros w' x. destruct w'; cbn [pending s1 with_trans s_prd s_pwr]; [reflexivity|]. rewrite has_addr_app. cbn [t_addr t]. destruct (a =? x) eqn:Ex; [|apply orb_false_r].
        apply Z.eqb_eq in Ex. subst x. rewrite Eh. reflexivity. }
      destruct Hk. constructor; auto.
      * intros w' x. rewrite Hp. apply ki_le0.
      * intros Hb w' x. rewrite Hp. apply ki_ge0. exact Hb.
    + match goal with |- kinv b c ?x [] => set (s1 := x) end.
      assert (Ht : forall w' x, total c s1 [] w' x = ((if p_trans w' x t then 1 else 0) + total c s [] w' x)%nat).
      { intros w' x. unfold total, s1. cbn [with_trans s_uq s_rq s_wq]. destruct (k_unified c); rewrite !cnt_app, ?cnt_cons, ?cnt_nil; change (allq c _) with (allq c s); lia. }
      assert (Hp : forall w' x, has_addr x (pending s1 w') = has_addr x (pending s w') || p_trans w' x t).
      { intros w' x. rewrite Hpt. destruct w'; cbn [pending s1 with_trans s_prd s_pwr]; [cbn [Bool.eqb andb]; rewrite orb_false_r; reflexivity|apply has_addr_app]. }
      destruct Hk. constructor; auto.
      * intros w' x. rewrite Ht, Hp. specialize (ki_le0 w' x). rewrite Hpt. destruct (Bool.eqb false w' && (a =? x)) eqn:Ex; [|rewrite orb_false_r; exact ki_le0].
        rewrite orb_true_r. rewrite andb_true_iff, Z.eqb_eq in Ex. destruct Ex as [Ex1 Ex2]. subst x. apply eqb_prop in Ex1. subst w'. cbn [pending] in ki_le0. rewrite Eh in ki_le0. cbn [b2n] in *. lia.
      * intros Hb w' x. rewrite Ht, Hp. specialize (ki_ge0 Hb w' x). destruct (p_trans w' x t); [rewrite orb_true_r; cbn [b2n]; lia|rewrite orb_false_r; exact ki_ge0].
Qed.
Lemma drun_from_ok : forall b c, cfg_ok c -> k_selfref c = false -> forall os s h, safe b c (s_clk s + Z.of_nat (length os)) -> good c s -> kinv b c s [] ->
  exists s' h', drun_from c os s h = Some (s', h') /\ kinv b c s' [] /\ good c s'.
Proof.
  intros b c Hc Hsr. induction os as [|o os IH]; intros s h Hsafe Hg Hk; cbn [drun_from]; [eexists _, _; eauto|].
  assert (Hst : exists s' h', dstep c o s h = Some (s', h') /\ kinv b c s' [] /\ good c s' /\ s_clk s <= s_clk s' <= s_clk s + 1).
  { unfold dstep. destruct o as [a w|].
    - destruct (will_accept c s w) eqn:Ew; [|eexists _, _; split; [reflexivity|]; split; [exact Hk|]; split; [exact Hg|lia]].
      unfold dram_add. rewrite Ew. eexists _, _. split; [reflexivity|]. split; [apply add_trans_ok; exact Hk|].
      assert (E : s_ch (add_trans c s a w) = s_ch s /\ s_clk (add_trans c s a w) = s_clk s).
      { unfold add_trans; destruct w; repeat match goal with |- context [if ?b then _ else _] => destruct b end; auto. }
      destruct E as [E1 E2]. split; [destruct Hg as (l & Hl); exists l; rewrite E1, E2; exact Hl|lia].
    - unfold dram_tick. destruct (drain _ _ _) as [ret q].
      match goal with |- context [clock_tick c ?x] => set (s1 := x) end.
      destruct (clock_tick_ok b c s1 Hc Hsr) as (s2 & y & -> & Hk2 & Hg2 & C2).
      + intros Hb Hd. destruct (Hsafe Hb Hd) as [S1 S2]. split; [exact S1|]. cbn [s1 with_trans s_clk]. cbn [length] in S2. lia.
      + exact Hg.
      + eapply kinv_ext; [exact Hk| | |reflexivity|reflexivity|reflexivity|reflexivity|reflexivity|reflexivity|reflexivity|reflexivity|reflexivity]; [apply (ki_sref _ _ _ _ Hk)|apply incl_refl].
      + eexists _, _. split; [reflexivity|]. split; [exact Hk2|]. split; [exact Hg2|]. change (s_clk s1) with (s_clk s) in C2. lia. }
  destruct Hst as (s' & h' & -> & Hk' & Hg' & Cl). apply IH; auto. intros Hb Hd. destruct (Hsafe Hb Hd) as [S1 S2]. split; [exact S1|]. cbn [length] in S2. lia.
Qed.
Lemma kinv0 : forall b c, cfg_ok c -> kinv b c ctrl0 [].
Proof.
  intros b c Hc. destruct (co_geom _ Hc) as [G1 G2 G3].
  assert (Ht : forall w a, total c ctrl0 [] w a = 0%nat).
  { intros. unfold total, allq. cbn [ctrl0 s_uq s_rq s_wq s_q app]. rewrite cnt_nil. assert (E : forall l : list Z, flat_map (fun _ : Z => @nil cmd) l = []) by (induction l; auto). rewrite E. reflexivity. }
  constructor; auto.
  - constructor.
  - cbn. repeat split; try lia.
  - intros i x [].
  - intros w a. rewrite Ht. lia.
  - intros _ w a. rewrite Ht. destruct w; cbn; lia.
Qed.
Lemma good0 : forall c, good c ctrl0.
Proof. intro c. exists []. apply ct_init. Qed.
