(** The channel of a run: legality, delays and activation windows. *)
From Coq Require Import ZArith Bool List Lia.
From Verif Require Import DramBankModel DramCtrlModel DramSpec DramBankProofs.
Import ListNotations.
Local Open Scope Z_scope.

(** ** What issuing does to a bank *)
Lemma delay_where_eq : forall g p l clk f r j k, bank_in g r j k ->
  delay_where g p l clk f r j k = if p r j k then bank_delays l clk (f r j k) else f r j k.
Proof.
  intros g p l clk f r j k (H1 & H2 & H3). unfold delay_where. rewrite (proj2 (in_range_ok _ _) H1), (proj2 (in_range_ok _ _) H2), (proj2 (in_range_ok _ _) H3).
  reflexivity.
Qed.
Lemma delays_eq : forall g c clk f r j k, bank_in g r j k ->
  (if is_rank (c_type c) then rank_cmd_delays else bank_cmd_delays) g c clk f r j k = bank_delays (delays_on (g_t g) c r j k) clk (f r j k).
Proof.
  intros g c clk f r j k H. unfold delays_on. destruct (is_rank (c_type c)).
  - unfold rank_cmd_delays. rewrite delay_where_eq by assumption. destruct (r =? _); reflexivity.
  - unfold bank_cmd_delays. rewrite !delay_where_eq by assumption.
    destruct (r =? a_rank (c_addr c)); cbn [negb andb]; [|reflexivity]. destruct (j =? a_bg (c_addr c)); cbn [negb andb]; [|reflexivity].
    destruct (k =? a_bank (c_addr c)); reflexivity.
Qed.
Definition concern_in (g : geom) (c : cmd) (r j k : Z) : Prop := bank_in g r j k /\ concerns c r j k = true.
Lemma chan_issue_ok : forall g s c clk, (is_rank (c_type c) = false -> bank_in g (a_rank (c_addr c)) (a_bg (c_addr c)) (a_bank (c_addr c))) ->
  0 <= a_rank (c_addr c) < g_ranks g ->
  (forall r j k, bank_in g r j k -> concerns c r j k = true -> state_for c (ch_bank s r j k)) ->
  exists s', chan_issue g c clk s = Some s' /\
    (forall r j k, bank_in g r j k -> exists b, (if concerns c r j k then bank_update (ch_bank s r j k) c = Some b else b = ch_bank s r j k) /\
        ch_bank s' r j k = bank_delays (delays_on (g_t g) c r j k) clk b) /\
    (forall r, ch_faw s' r = if ctype_eqb (c_type c) ACT && (r =? a_rank (c_addr c)) then window_push (ch_faw s r) clk (g_faw g) else ch_faw s r) /\
    (forall r, ch_32aw s' r = if ctype_eqb (c_type c) ACT && g_gddr g && (r =? a_rank (c_addr c)) then window_push (ch_32aw s r) clk (g_32aw g) else ch_32aw s r) /\
    (forall r, ch_sref s' r = match c_type c with SREF_ENTER => if r =? a_rank (c_addr c) then true else ch_sref s r
                                             | SREF_EXIT => if r =? a_rank (c_addr c) then false else ch_sref s r | _ => ch_sref s r end).
Proof.
  intros g s c clk Hb Hr Hst. unfold chan_issue.
  assert (Hup : exists s1, chan_update g c s = Some s1 /\
    (forall r j k, bank_in g r j k -> if concerns c r j k then bank_update (ch_bank s r j k) c = Some (ch_bank s1 r j k) else ch_bank s1 r j k = ch_bank s r j k) /\
    ch_faw s1 = ch_faw s /\ ch_32aw s1 = ch_32aw s /\
    ch_sref s1 = match c_type c with SREF_ENTER => set_z (ch_sref s) (a_rank (c_addr c)) true | SREF_EXIT => set_z (ch_sref s) (a_rank (c_addr c)) false | _ => ch_sref s end).
  { unfold chan_update. destruct (is_rank (c_type c)) eqn:E.
    - destruct (update_banks_ok c (rank_banks g) (ch_bank s) (rank_banks_nodup g)) as (f & Hf & Ha & Ho).
      { intros j k Hin. apply in_rank_banks in Hin. destruct (bank_update_ok c (ch_bank s (a_rank (c_addr c)) j k)) as (b' & Hb' & _); [|congruence].
        apply Hst; [split; [exact Hr|exact Hin]|]. unfold concerns. rewrite E, Z.eqb_refl. reflexivity. }
      rewrite Hf. eexists. split; [reflexivity|]. cbn [ch_bank ch_faw ch_32aw ch_sref]. repeat (split; [|auto]).
      intros r j k (H1 & H2). unfold concerns. rewrite E. cbn [orb]. rewrite andb_true_r. destruct (a_rank (c_addr c) =? r) eqn:Er.
      + apply Z.eqb_eq in Er. subst r. apply Ha. apply in_rank_banks. exact H2.
      + apply Z.eqb_neq in Er. apply Ho. left. congruence.
    - specialize (Hb eq_refl). destruct (bank_update_ok c (ch_bank s (a_rank (c_addr c)) (a_bg (c_addr c)) (a_bank (c_addr c)))) as (b' & Hb' & _).
      { apply Hst; [exact Hb|]. unfold concerns. rewrite !Z.eqb_refl. apply orb_true_r. }
      rewrite Hb'. eexists. split; [reflexivity|]. cbn [ch_bank ch_faw ch_32aw ch_sref]. split.
      2:{ repeat (split; [reflexivity|]). destruct (c_type c); try discriminate; reflexivity. }
      intros r j k _. unfold concerns. rewrite E. cbn [orb].
      destruct ((a_rank (c_addr c) =? r) && _) eqn:Er.
      + rewrite !andb_true_iff, !Z.eqb_eq in Er. destruct Er as (<- & <- & <-). rewrite set_bank_same. exact Hb'.
      + apply set_bank_other. intro Eq. injection Eq as -> -> ->. rewrite !Z.eqb_refl in Er. discriminate. }
  destruct Hup as (s1 & -> & H1 & H2 & H3 & H4). eexists. split; [reflexivity|]. unfold chan_timing. cbn [ch_bank ch_faw ch_32aw ch_sref].
  assert (Hbk : ch_bank (if ctype_eqb (c_type c) ACT then act_times g (a_rank (c_addr c)) clk s1 else s1) = ch_bank s1) by (destruct (ctype_eqb _ _); reflexivity).
  rewrite Hbk. split; [|split; [|split]].
  - intros r j k Hin. rewrite delays_eq by assumption. exists (ch_bank s1 r j k). split; [|reflexivity]. specialize (H1 r j k Hin). destruct (concerns c r j k); auto.
  - intro r. rewrite <- H2. destruct (ctype_eqb _ _); cbn [act_times ch_faw andb]; [|reflexivity]. unfold set_z. destruct (r =? _) eqn:E; [|reflexivity].
    apply Z.eqb_eq in E. subst r. reflexivity.
  - intro r. rewrite <- H3. destruct (ctype_eqb _ _); cbn [act_times ch_32aw andb]; [|reflexivity]. destruct (g_gddr g); [|reflexivity]. unfold set_z. cbn [andb]. destruct (r =? _) eqn:E; [|reflexivity].
    apply Z.eqb_eq in E. subst r. reflexivity.
  - intro r. replace (ch_sref (if ctype_eqb (c_type c) ACT then act_times g (a_rank (c_addr c)) clk s1 else s1)) with (ch_sref s1) by (destruct (ctype_eqb _ _); reflexivity).
    rewrite H4. destruct (c_type c); reflexivity.
Qed.

(** ** Traces of a channel *)
Inductive ctrace (g : geom) : list (Z * cmd) -> Z -> chan -> Prop :=
| ct_init : ctrace g [] 0 chan0
| ct_refq : forall l t s q, ctrace g l t s -> ctrace g l t (with_refq s q)
| ct_time : forall l t t' s, ctrace g l t s -> t <= t' -> ctrace g l t' s
| ct_issue : forall l t s c c' s', ctrace g l t s -> chan_ready g s c t = Some (Some c') -> chan_issue g c' t s = Some s' -> ctrace g (l ++ [(t, c')]) t s'.

Definition agrees (x : status) (b : bank) : Prop :=
  match x with Closed => b_state b = CLOSED | Opened r => b_state b = OPEN /\ b_row b = r | Asleep => b_state b = SREF end.
(** The window holds the last activations, those before are out of reach. *)
Definition window_inv (n : nat) (len : Z) (acts : list Z) (t : Z) (w : list Z) : Prop :=
  exists P W, acts = P ++ W /\ w = map (fun x => x + len) W /\ (length W <= n)%nat /\ (forall x, In x P -> x + len <= t) /\
    (forall l1 x l2 y l3, acts = l1 ++ x :: l2 ++ y :: l3 -> length l2 = (n - 1)%nat -> x + len <= y).
Record chan_inv (g : geom) (l : list (Z * cmd)) (t : Z) (s : chan) : Prop := {
  ci_time : 0 <= t /\ forall t1 c1, In (t1, c1) l -> 0 <= t1 <= t;
  ci_state : forall r j k, bank_in g r j k -> agrees (status_of l r j k) (ch_bank s r j k);
  ci_sref : forall r j k, bank_in g r j k -> (b_state (ch_bank s r j k) = SREF <-> ch_sref s r = true);
  ci_delay : forall t1 c1 r j k u d, In (t1, c1) l -> bank_in g r j k -> In (u, d) (delays_on (g_t g) c1 r j k) -> u64 (t1 + d) <= b_timing (ch_bank s r j k) u }.

Lemma state_agrees : forall c x b, agrees x b -> state_for c b -> legal c x.
Proof.
  intros c x b Ha Hs. unfold state_for in Hs. unfold legal.
  destruct (c_type c), x; cbn [agrees] in Ha; try (intuition congruence); eauto.
Qed.
Lemma status_app : forall l t c r j k, status_of (l ++ [(t, c)]) r j k = if concerns c r j k then next_status c (status_of l r j k) else status_of l r j k.
Proof. intros. unfold status_of. rewrite fold_left_app. reflexivity. Qed.
Lemma issuable_all : forall g s clk c, issuable g s clk c -> (forall r j k, bank_in g r j k -> (b_state (ch_bank s r j k) = SREF <-> ch_sref s r = true)) ->
  forall r j k, bank_in g r j k -> concerns c r j k = true -> state_for c (ch_bank s r j k).
Proof.
  intros g s clk c H Hsr r j k Hb Hc. unfold concerns in Hc. rewrite !andb_true_iff, Z.eqb_eq in Hc. destruct Hc as [Hr Hc].
  destruct (is_rank (c_type c)) eqn:E.
  - destruct (c_type c) eqn:Et; try discriminate.
    + apply (is_state _ _ _ _ H); [exact Hb|]. split; [congruence|]. rewrite Et. auto.
    + apply (is_state _ _ _ _ H); [exact Hb|]. split; [congruence|]. rewrite Et. auto.
    + unfold state_for. rewrite Et. apply Hsr; [exact Hb|]. rewrite <- Hr.
      assert (Hi : bank_in g (a_rank (c_addr c)) (a_bg (c_addr c)) (a_bank (c_addr c))) by (apply (is_bankin _ _ _ _ H); congruence).
      assert (Hw : waits_for c (a_rank (c_addr c)) (a_bg (c_addr c)) (a_bank (c_addr c))) by (split; auto).
      pose proof (is_state _ _ _ _ H _ _ _ Hi Hw) as Hs. unfold state_for in Hs. rewrite Et in Hs. apply (Hsr _ _ _ Hi). exact Hs.
  - cbn [orb] in Hc. rewrite andb_true_iff, !Z.eqb_eq in Hc. destruct Hc as [<- <-]. subst r. apply (is_state _ _ _ _ H); [exact Hb|]. split; auto.
Qed.
Lemma chan_inv_issue : forall g l t s c0 c, geom_ok g -> chan_inv g l t s -> chan_ready g s c0 t = Some (Some c) ->
  exists s', chan_issue g c t s = Some s' /\ chan_inv g (l ++ [(t, c)]) t s' /\
   (forall r j k, bank_in g r j k -> concerns c r j k = true -> legal c (status_of l r j k)) /\
   (forall r, ch_faw s' r = if ctype_eqb (c_type c) ACT && (r =? a_rank (c_addr c)) then window_push (ch_faw s r) t (g_faw g) else ch_faw s r) /\
   (forall r, ch_32aw s' r = if ctype_eqb (c_type c) ACT && g_gddr g && (r =? a_rank (c_addr c)) then window_push (ch_32aw s r) t (g_32aw g) else ch_32aw s r).
Proof.
  intros g l t s c0 c Hg Hi Hr. pose proof (chan_ready_ok _ _ _ _ _ Hg Hr) as Hs.
  pose proof (issuable_all _ _ _ _ Hs (ci_sref _ _ _ _ Hi)) as Hall.
  destruct (chan_issue_ok g s c t) as (s' & H1 & H2 & H3 & H4 & H5); [|apply Hs|exact Hall|].
  { intro E. apply (is_bankin _ _ _ _ Hs); intro Ex; rewrite Ex in E; discriminate. }
  exists s'. split; [exact H1|]. split; [|split; [|split; assumption]].
  2:{ intros r j k Hb Hc. eapply state_agrees; [apply (ci_state _ _ _ _ Hi); exact Hb|]. apply Hall; assumption. }
  constructor.
  - destruct (ci_time _ _ _ _ Hi) as [T1 T2]. split; [exact T1|]. intros t1 c1 Hin. apply in_app_iff in Hin. destruct Hin as [Hin|[Eq|[]]]; [eapply T2; exact Hin|].
    injection Eq as <- <-. lia.
  - intros r j k Hb. rewrite status_app. destruct (H2 r j k Hb) as (b & Hu & Hd). rewrite Hd.
    pose proof (ci_state _ _ _ _ Hi r j k Hb) as Ha.
    destruct (bank_delays_ok (delays_on (g_t g) c r j k) t b) as (D1 & D2 & _).
    assert (Hab : agrees (if concerns c r j k then next_status c (status_of l r j k) else status_of l r j k) b).
    { destruct (concerns c r j k) eqn:Ec; [|subst b; exact Ha].
      pose proof (Hall r j k Hb Ec) as Hst. destruct (bank_update_ok c _ Hst) as (b' & U1 & _ & U3). rewrite Hu in U1. injection U1 as <-.
      destruct (U3 _ eq_refl) as [U4 U5]. unfold next_status. unfold state_for in Hst. destruct (c_type c); cbn [agrees]; auto; destruct (status_of l r j k); cbn [agrees] in *; rewrite U4, ?U5; auto. }
    revert Hab. generalize (if concerns c r j k then next_status c (status_of l r j k) else status_of l r j k). intros x Hx. unfold agrees in *. destruct x; rewrite D1, ?D2; exact Hx.
  - intros r j k Hb. destruct (H2 r j k Hb) as (b & Hu & Hd). rewrite Hd. destruct (bank_delays_ok (delays_on (g_t g) c r j k) t b) as (D1 & _). rewrite D1, H5.
    pose proof (ci_sref _ _ _ _ Hi r j k Hb) as Hsr.
    destruct (concerns c r j k) eqn:Ec.
    + pose proof (Hall r j k Hb Ec) as Hst. destruct (bank_update_ok c _ Hst) as (b' & U1 & _ & U3). rewrite Hu in U1. injection U1 as <-.
      destruct (U3 _ eq_refl) as [U4 U5]. rewrite U4. unfold concerns in Ec. rewrite andb_true_iff, Z.eqb_eq in Ec. destruct Ec as [Er _]. subst r. rewrite Z.eqb_refl.
      unfold state_for in Hst. clear - Hst Hsr. destruct (c_type c); intuition congruence.
    + subst b. unfold concerns in Ec. destruct (c_type c) eqn:Et; auto; cbn [is_rank orb] in Ec; rewrite andb_true_r in Ec; rewrite Z.eqb_sym, Ec; exact Hsr.
  - intros t1 c1 r j k u d Hin Hb Hd. destruct (H2 r j k Hb) as (b & Hu & Hdd). rewrite Hdd.
    destruct (bank_delays_ok (delays_on (g_t g) c r j k) t b) as (_ & _ & _ & D4 & D5).
    apply in_app_iff in Hin. destruct Hin as [Hin|[Eq|[]]].
    + etransitivity; [|apply D4]. replace (b_timing b) with (b_timing (ch_bank s r j k)); [eapply (ci_delay _ _ _ _ Hi); eassumption|].
      destruct (concerns c r j k) eqn:Ec; [|congruence].
      destruct (bank_update_ok c _ (Hall r j k Hb Ec)) as (b' & U1 & U2 & _). congruence.
    + injection Eq as <- <-. apply D5. exact Hd.
Qed.
Lemma ctrace_inv : forall g l t s, geom_ok g -> ctrace g l t s -> chan_inv g l t s.
Proof.
  intros g l t s Hg H. induction H as [|l t s q H IH|l t t' s H IH Ht|l t s c c' s' H IH Hr Hs].
  - constructor.
    + split; [lia|intros ? ? []].
    + intros. reflexivity.
    + intros. cbn. split; discriminate.
    + intros ? ? ? ? ? ? ? [].
  - destruct IH. constructor; assumption.
  - destruct IH as [[T1 T2] ? ? ?]. constructor; auto. split; [lia|]. intros t1 c1 Hin. specialize (T2 _ _ Hin). lia.
  - destruct (chan_inv_issue _ _ _ _ _ _ Hg IH Hr) as (s1 & E & Hi & _). congruence.
Qed.

Lemma split_app_last : forall {A} (l1 : list A) x l2 l a, l ++ [a] = l1 ++ x :: l2 -> (l2 = [] /\ x = a /\ l1 = l) \/ (exists l2', l2 = l2' ++ [a] /\ l = l1 ++ x :: l2').
Proof.
  intros A l1 x l2 l a H. destruct l2 as [|y l2] using rev_ind.
  - left. apply app_inj_tail in H. destruct H. auto.
  - right. clear IHl2. change (l1 ++ x :: l2 ++ [y]) with (l1 ++ (x :: l2) ++ [y]) in H. rewrite app_assoc in H. apply app_inj_tail in H. destruct H as [-> ->]. exists l2. auto.
Qed.
Theorem ctrace_legal : forall g l t s, geom_ok g -> ctrace g l t s -> forall l1 t1 c l2, l = l1 ++ (t1, c) :: l2 ->
  forall r j k, bank_in g r j k -> concerns c r j k = true -> legal c (status_of l1 r j k).
Proof.
  intros g l t s Hg H. induction H as [|l t s q H IH|l t t' s H IH Ht|l t s c c' s' H IH Hr Hs]; intros l1 t1 c1 l2 E; auto.
  - destruct l1; discriminate.
  - eapply IH; eauto.
  - eapply IH; eauto.
  - apply split_app_last in E. destruct E as [(-> & E & ->)|(l2' & -> & ->)]; [|eapply IH; eauto].
    injection E as -> ->. destruct (chan_inv_issue _ _ _ _ _ _ Hg (ctrace_inv _ _ _ _ Hg H) Hr) as (s1 & _ & _ & Hl & _). exact Hl.
Qed.
Theorem ctrace_delay : forall g l t s, geom_ok g -> ctrace g l t s -> forall l1 t1 c1 l2 t2 c2 l3, l = l1 ++ (t1, c1) :: l2 ++ (t2, c2) :: l3 ->
  forall r j k d, bank_in g r j k -> waits_for c2 r j k -> In (c_type c2, d) (delays_on (g_t g) c1 r j k) -> u64 (t1 + d) <= t2.
Proof.
  intros g l t s Hg H. induction H as [|l t s q H IH|l t t' s H IH Ht|l t s c c' s' H IH Hr Hs]; intros l1 t1 c1 l2 t2 c2 l3 E r j k d Hb Hw Hd.
  - destruct l1; discriminate.
  - eapply IH; eauto.
  - eapply IH; eauto.
  - change (l1 ++ (t1, c1) :: l2 ++ (t2, c2) :: l3) with (l1 ++ ((t1, c1) :: l2) ++ (t2, c2) :: l3) in E. rewrite app_assoc in E.
    apply split_app_last in E. destruct E as [(-> & E & E2)|(l3' & -> & E)].
    + injection E as -> ->. etransitivity; [eapply (ci_delay _ _ _ _ (ctrace_inv _ _ _ _ Hg H)); [|exact Hb|exact Hd]; rewrite <- E2; apply in_or_app; right; left; reflexivity|].
      apply (is_time _ _ _ _ (chan_ready_ok _ _ _ _ _ Hg Hr)); assumption.
    + rewrite <- app_assoc in E. eapply IH; eauto.
Qed.

(** ** Windows *)
Lemma app_split_len : forall {A} (P W l1 l2 : list A) x, P ++ W = l1 ++ x :: l2 -> (length W <= length l2)%nat -> In x P.
Proof.
  intros A P W l1 l2 x E H. assert (Hl : (length l1 < length P)%nat).
  { apply (f_equal (@length A)) in E. rewrite !app_length in E. cbn [length] in E. lia. }
  assert (Hn : nth_error (P ++ W) (length l1) = Some x) by (rewrite E, nth_error_app2 by lia; rewrite Nat.sub_diag; reflexivity).
  rewrite nth_error_app1 in Hn by assumption. eapply nth_error_In. exact Hn.
Qed.
Lemma app_split_eq : forall {A} (P W l1 l2 : list A) x, P ++ W = l1 ++ x :: l2 -> length W = S (length l2) -> W = x :: l2.
Proof.
  intros A P W l1 l2 x E H. assert (Hl : length l1 = length P).
  { apply (f_equal (@length A)) in E. rewrite !app_length in E. cbn [length] in E. lia. }
  revert l1 E Hl. induction P as [|p P IH]; intros [|q l1] E Hl; try discriminate; cbn [app] in E; [exact E|].
  injection E as _ E. cbn [length] in Hl. eapply IH; [exact E|lia].
Qed.
Lemma window_step : forall n len A t w, (1 <= n)%nat -> 0 <= t + len < 2 ^ 64 -> window_inv n len A t w -> window_ready n w t = true ->
  window_inv n len (A ++ [t]) t (window_push w t len).
Proof.
  intros n len A t w Hn Ht (P & W & HA & Hw & Hl & HP & HS) Hr.
  assert (Hsp : forall l1 x l2 y l3, A ++ [t] = l1 ++ x :: l2 ++ y :: l3 -> length l2 = (n - 1)%nat -> x + len <= y).
  { intros l1 x l2 y l3 E El. change (l1 ++ x :: l2 ++ y :: l3) with (l1 ++ (x :: l2) ++ y :: l3) in E. rewrite app_assoc in E.
    apply split_app_last in E. destruct E as [(-> & -> & E)|(l3' & -> & E)].
    - destruct (Nat.eq_dec (length W) n) as [Ew|Ew].
      + rewrite HA in E. symmetry in E. apply app_split_eq in E; [|lia]. subst W. cbn [map] in Hw. subst w. unfold window_ready in Hr.
        cbn [length] in Hr, Ew. rewrite map_length in Hr. apply negb_true_iff, andb_false_iff in Hr. destruct Hr as [Hr|Hr]; [apply Z.ltb_ge in Hr; lia|].
        apply Nat.leb_gt in Hr. lia.
      + apply HP. rewrite HA in E. symmetry in E. eapply app_split_len; [exact E|]. lia.
    - rewrite <- app_assoc in E. eapply HS; [exact E|exact El]. }
  unfold window_push. rewrite u64_id by assumption. destruct W as [|x W].
  - subst w. exists P, [t]. cbn [map app length] in *. rewrite app_nil_r in HA. subst P. auto 6.
  - cbn [map] in Hw. subst w. unfold window_ready in Hr. cbn [length] in Hr, Hl. rewrite map_length in Hr.
    apply negb_true_iff, andb_false_iff in Hr. destruct (x + len <=? t) eqn:E.
    + apply Z.leb_le in E. exists (P ++ [x]), (W ++ [t]). rewrite HA, map_app, app_length. cbn [map length]. split; [rewrite <- !app_assoc; reflexivity|]. split; [reflexivity|].
      split; [lia|]. split; [|rewrite <- HA; exact Hsp]. intros y Hy. apply in_app_iff in Hy. destruct Hy as [Hy|[<-|[]]]; auto.
    + apply Z.leb_gt in E. destruct Hr as [Hr|Hr]; [apply Z.ltb_ge in Hr; lia|]. apply Nat.leb_gt in Hr.
      exists P, (x :: W ++ [t]). rewrite HA. cbn [map length app]. rewrite map_app, app_length. cbn [map length]. split; [rewrite <- app_assoc; reflexivity|].
      split; [reflexivity|]. split; [lia|]. split; [exact HP|]. rewrite <- HA. exact Hsp.
Qed.
Lemma window_time : forall n len A t t' w, window_inv n len A t w -> t <= t' -> window_inv n len A t' w.
Proof. intros n len A t t' w (P & W & H1 & H2 & H3 & H4 & H5) Ht. exists P, W. repeat (split; [assumption|]). split; [|assumption]. intros x Hx. specialize (H4 _ Hx). lia. Qed.
Lemma activations_app : forall r l t c, activations r (l ++ [(t, c)]) = activations r l ++ (if ctype_eqb (c_type c) ACT && (r =? a_rank (c_addr c)) then [t] else []).
Proof.
  intros. unfold activations. rewrite filter_app, map_app. cbn [filter snd]. rewrite (Z.eqb_sym r). destruct (_ && _); reflexivity.
Qed.
Lemma activations_in : forall r l x, In x (activations r l) -> exists c, In (x, c) l.
Proof. intros r l x H. unfold activations in H. apply in_map_iff in H. destruct H as ((t & c) & <- & H). apply filter_In in H. exists c. apply H. Qed.
Theorem ctrace_faw : forall g l t s, geom_ok g -> 0 <= g_faw g -> ctrace g l t s -> forall r, (forall x, In x (activations r l) -> x + g_faw g < 2 ^ 64) ->
  window_inv 4 (g_faw g) (activations r l) t (ch_faw s r).
Proof.
  intros g l t s Hg Hf H r. induction H as [|l t s q H IH|l t t' s H IH Ht|l t s c c' s' H IH Hr Hs]; intro Hlt.
  - exists [], []. cbn. repeat split; try lia; auto. intros l1 x l2 y l3 E. destruct l1; discriminate.
  - exact (IH Hlt).
  - eapply window_time; [exact (IH Hlt)|exact Ht].
  - rewrite activations_app in Hlt. rewrite activations_app.
    destruct (chan_inv_issue _ _ _ _ _ _ Hg (ctrace_inv _ _ _ _ Hg H) Hr) as (s1 & E1 & _ & _ & Hfaw & _). rewrite Hs in E1. injection E1 as <-. rewrite Hfaw.
    destruct (ctype_eqb (c_type c') ACT && (r =? a_rank (c_addr c'))) eqn:E.
    + rewrite andb_true_iff, Z.eqb_eq, ctype_eqb_eq in E. destruct E as [E1 E2]. subst r.
      apply window_step; [lia| | |].
      * pose proof (ci_time _ _ _ _ (ctrace_inv _ _ _ _ Hg H)) as [T _]. split; [lia|]. apply Hlt. apply in_or_app. right. left. reflexivity.
      * apply IH. intros x Hx. apply Hlt. apply in_or_app. left. exact Hx.
      * pose proof (is_act _ _ _ _ (chan_ready_ok _ _ _ _ _ Hg Hr) E1) as Ha. unfold act_ok in Ha. destruct (window_ready 4 _ _); [reflexivity|]. destruct (g_gddr g); discriminate.
    + rewrite app_nil_r in *. apply IH. exact Hlt.
Qed.
Theorem ctrace_32aw : forall g l t s, geom_ok g -> 0 <= g_32aw g -> g_gddr g = true -> ctrace g l t s -> forall r, (forall x, In x (activations r l) -> x + g_32aw g < 2 ^ 64) ->
  window_inv 32 (g_32aw g) (activations r l) t (ch_32aw s r).
Proof.
  intros g l t s Hg Hf Hgd H r. induction H as [|l t s q H IH|l t t' s H IH Ht|l t s c c' s' H IH Hr Hs]; intro Hlt.
  - exists [], []. cbn. repeat split; try lia; auto. intros l1 x l2 y l3 E. destruct l1; discriminate.
  - exact (IH Hlt).
  - eapply window_time; [exact (IH Hlt)|exact Ht].
  - rewrite activations_app in Hlt. rewrite activations_app.
    destruct (chan_inv_issue _ _ _ _ _ _ Hg (ctrace_inv _ _ _ _ Hg H) Hr) as (s1 & E1 & _ & _ & _ & Hfaw). rewrite Hs in E1. injection E1 as <-. rewrite Hfaw, Hgd, andb_true_r.
    destruct (ctype_eqb (c_type c') ACT && (r =? a_rank (c_addr c'))) eqn:E.
    + rewrite andb_true_iff, Z.eqb_eq, ctype_eqb_eq in E. destruct E as [E1 E2]. subst r.
      apply window_step; [lia| | |].
      * pose proof (ci_time _ _ _ _ (ctrace_inv _ _ _ _ Hg H)) as [T _]. split; [lia|]. apply Hlt. apply in_or_app. right. left. reflexivity.
      * apply IH. intros x Hx. apply Hlt. apply in_or_app. left. exact Hx.
      * pose proof (is_act _ _ _ _ (chan_ready_ok _ _ _ _ _ Hg Hr) E1) as Ha. unfold act_ok in Ha. rewrite Hgd in Ha. destruct (window_ready 4 _ _); [exact Ha|discriminate].
    + rewrite app_nil_r in *. apply IH. exact Hlt.
Qed.

(** ** Runs are traces *)
Lemma first_ready_from : forall g x clk rest prev y, first_ready g x clk prev rest = Some (Some y) ->
  exists c, In c rest /\ chan_ready g x c clk = Some (Some y).
Proof.
  induction rest as [|c r IH]; intros prev y H; cbn [first_ready] in H; [discriminate|].
  destruct (chan_ready g x c clk) as [[rc|]|] eqn:E; [| |discriminate].
  - destruct (match c_type rc with PRE => _ | _ => _ end).
    + destruct (IH _ _ H) as (c' & Hin & Hc). exists c'. split; [right; exact Hin|exact Hc].
    + injection H as <-. exists c. split; [left; reflexivity|exact E].
  - destruct (IH _ _ H) as (c' & Hin & Hc). exists c'. split; [right; exact Hin|exact Hc].
Qed.
Lemma command_loop_from : forall c x clk ir ri n q i q' i' y, command_loop c x clk ir ri n q i = Some (q', i', Some y) ->
  exists c0, chan_ready (k_g c) x c0 clk = Some (Some y).
Proof.
  induction n as [|n IH]; intros q i q' i' y H; cbn [command_loop] in H; [discriminate|].
  destruct (ir && _); [eapply IH; exact H|]. destruct (first_ready _ _ _ _ _) as [[z|]|] eqn:E; [| |discriminate].
  - destruct (first_ready_from _ _ _ _ _ _ E) as (c0 & _ & Hc). exists c0.
    destruct (is_rw (c_type z)); [destruct (erase_rw c q z); [|discriminate]|]; injection H as _ _ <-; exact Hc.
  - eapply IH. exact H.
Qed.
Lemma get_command_from : forall c s s' y, get_command c s = Some (s', y) -> s_ch s' = s_ch s /\ s_clk s' = s_clk s /\
  (forall z, y = Some z -> exists c0, chan_ready (k_g c) (s_ch s) c0 (s_clk s) = Some (Some z)).
Proof.
  intros c s s' y H. unfold get_command in H. destruct (command_loop _ _ _ _ _ _ _ _) as [[[q i] z]|] eqn:E; [|discriminate]. injection H as <- <-.
  split; [reflexivity|]. split; [reflexivity|]. intros w ->. eapply command_loop_from. exact E.
Qed.
Lemma pick_from : forall c s s' y, pick c s = Some (s', y) -> s_ch s' = s_ch s /\ s_clk s' = s_clk s /\
  (forall z, y = Some z -> exists c0, chan_ready (k_g c) (s_ch s) c0 (s_clk s) = Some (Some z)).
Proof.
  intros c s s' y H. unfold pick in H. destruct (ch_refq (s_ch s)) as [|ref q]; [apply get_command_from; exact H|].
  unfold finish_refresh in H.
  assert (E1 : forall q i b x w, s_ch (with_q s q i b x w) = s_ch s /\ s_clk (with_q s q i b x w) = s_clk s) by (intros; split; reflexivity).
  destruct (s_inref s).
  - destruct (chan_ready _ _ ref _) as [[z|]|] eqn:E; [| |discriminate].
    + injection H as <- <-. destruct (is_refresh (c_type z)); (split; [reflexivity|]; split; [reflexivity|]; intros w Ew; injection Ew as <-; exists ref; exact E).
    + apply get_command_from in H. exact H.
  - cbn [s_ch s_clk with_q] in H. destruct (chan_ready _ _ ref _) as [[z|]|] eqn:E; [| |discriminate].
    + injection H as <- <-. destruct (is_refresh (c_type z)); (split; [reflexivity|]; split; [reflexivity|]; intros w Ew; injection Ew as <-; exists ref; exact E).
    + apply get_command_from in H. exact H.
Qed.
Lemma issue_from : forall c s y s', issue c s y = Some s' -> s_clk s' = s_clk s /\ chan_issue (k_g c) y (s_clk s) (s_ch s) = Some (s_ch s').
Proof.
  intros c s y s' H. unfold issue in H.
  destruct (is_read (c_type y)); [destruct (has_addr _ _); [|discriminate]|destruct (is_write (c_type y)); [destruct (has_addr _ _); [|discriminate]|]]; cbn [s_clk s_ch with_trans] in H;
  (destruct (chan_issue _ _ _ _) eqn:E; [|discriminate]); injection H as <-; auto.
Qed.
Definition at_clk (t : Z) (l : list cmd) : list (Z * cmd) := map (fun y => (t, y)) l.
Lemma ctrace_issue : forall c s l y c0 s', ctrace (k_g c) l (s_clk s) (s_ch s) -> chan_ready (k_g c) (s_ch s) c0 (s_clk s) = Some (Some y) -> issue c s y = Some s' ->
  s_clk s' = s_clk s /\ ctrace (k_g c) (l ++ at_clk (s_clk s) [y]) (s_clk s') (s_ch s').
Proof.
  intros c s l y c0 s' H Hr Hi. destruct (issue_from _ _ _ _ Hi) as [E1 E2]. split; [exact E1|]. rewrite E1. eapply ct_issue; eauto.
Qed.
Lemma ctrace_issue_cmds : forall c s l y c0 s' ys, ctrace (k_g c) l (s_clk s) (s_ch s) -> chan_ready (k_g c) (s_ch s) c0 (s_clk s) = Some (Some y) -> issue_cmds c s y = Some (s', ys) ->
  s_clk s' = s_clk s /\ ctrace (k_g c) (l ++ at_clk (s_clk s) ys) (s_clk s') (s_ch s').
Proof.
  intros c s l y c0 s' ys H Hr Hi. unfold issue_cmds in Hi. destruct (issue c s y) as [s1|] eqn:E; [|discriminate].
  destruct (ctrace_issue _ _ _ _ _ _ H Hr E) as [C1 C2]. destruct (k_dual c); [|injection Hi as <- <-; auto].
  destruct (get_command c s1) as [[s2 [z|]]|] eqn:Eg; [| |discriminate].
  - destruct (get_command_from _ _ _ _ Eg) as (G1 & G2 & G3). destruct (G3 _ eq_refl) as (c1 & Hc1).
    destruct (negb _).
    + destruct (issue c s2 z) as [s3|] eqn:E3; [|discriminate]. injection Hi as <- <-.
      rewrite <- G1, <- G2 in C2, Hc1. destruct (ctrace_issue _ _ _ _ _ _ C2 Hc1 E3) as [D1 D2]. split; [congruence|].
      rewrite G2, C1 in D2. rewrite D1, G2, C1. rewrite D1, G2, C1 in D2. rewrite <- app_assoc in D2. exact D2.
    + injection Hi as <- <-. rewrite G1, G2. auto.
  - injection Hi as <- <-. destruct (get_command_from _ _ _ _ Eg) as (G1 & G2 & _). rewrite G1, G2. auto.
Qed.
Lemma ctrace_self_refresh : forall c ranks s l s' ys, ctrace (k_g c) l (s_clk s) (s_ch s) -> self_refresh c s ranks = Some (s', ys) ->
  s_clk s' = s_clk s /\ ctrace (k_g c) (l ++ at_clk (s_clk s) ys) (s_clk s') (s_ch s').
Proof.
  induction ranks as [|i r IH]; intros s l s' ys H Hi; cbn [self_refresh] in Hi.
  - injection Hi as <- <-. cbn. rewrite app_nil_r. auto.
  - assert (Hc : forall t, match chan_ready (k_g c) (s_ch s) {| c_type := t; c_addr := {| a_rank := i; a_bg := -1; a_bank := -1; a_row := -1; a_col := -1 |}; c_hex := -1 |} (s_clk s) with
      | None => None | Some None => self_refresh c s r | Some (Some y) => match issue c s y with None => None | Some s' => Some (s', [y]) end end = Some (s', ys) ->
      s_clk s' = s_clk s /\ ctrace (k_g c) (l ++ at_clk (s_clk s) ys) (s_clk s') (s_ch s')).
    { intros t Ht. match type of Ht with context [chan_ready ?gg ?xx ?yy ?zz] => destruct (chan_ready gg xx yy zz) as [[y|]|] eqn:E end; [| |discriminate].
      - destruct (issue c s y) as [s1|] eqn:E1; [|discriminate]. injection Ht as <- <-. eapply ctrace_issue; eauto.
      - eapply IH; eauto. }
    destruct (ch_sref (s_ch s) i).
    + destruct (negb _); [eapply Hc; exact Hi|eapply IH; eauto].
    + destruct (_ && _); [eapply Hc; exact Hi|eapply IH; eauto].
Qed.
Lemma schedule_ch : forall c s, s_ch (schedule c s) = s_ch s /\ s_clk (schedule c s) = s_clk s.
Proof.
  intros c s. assert (Ha : forall s y, s_ch (add_command c s y) = s_ch s /\ s_clk (add_command c s y) = s_clk s) by (intros; unfold add_command; destruct (_ <? _); auto).
  unfold schedule. repeat first [destruct (find_trans _ _ _ _) as [[? ?]|] | match goal with |- context [if ?b then _ else _] => destruct b end]; auto;
  match goal with |- context [add_command c ?x ?y] => destruct (Ha x y) as [-> ->] end; auto.
Qed.
Lemma refresh_tick_ch : forall c s s', refresh_tick c s = Some s' -> s_clk s' = s_clk s /\ exists q, s_ch s' = with_refq (s_ch s) q.
Proof.
  intros c s s' H. unfold refresh_tick in H. destruct (refresh_interval c) as [i|]; [|discriminate]. destruct (i =? 0); [discriminate|]. injection H as <-.
  assert (Hs : exists q, s_ch s = with_refq (s_ch s) q) by (exists (ch_refq (s_ch s)); destruct (s_ch s); reflexivity).
  assert (Hn : forall s, s_ch (iterate_next c s) = s_ch s /\ s_clk (iterate_next c s) = s_clk s).
  { intro x. unfold iterate_next. destruct (k_policy c); auto. cbn zeta. destruct (_ =? 0); auto. destruct (_ =? 0); auto. }
  destruct (_ && _); [|auto]. unfold insert_refresh. destruct (k_policy c).
  - destruct (find _ _); [|auto]. split; [reflexivity|]. eexists. reflexivity.
  - match goal with |- context [iterate_next c ?x] => destruct (Hn x) as [-> ->] end. destruct (ch_sref _ _); [auto|]. split; [reflexivity|]. eexists. reflexivity.
  - match goal with |- context [iterate_next c ?x] => destruct (Hn x) as [-> ->] end. destruct (ch_sref _ _); [auto|]. split; [reflexivity|]. eexists. reflexivity.
Qed.
Lemma ctrace_clock_tick : forall c s l s' ys, ctrace (k_g c) l (s_clk s) (s_ch s) -> clock_tick c s = Some (s', ys) ->
  s_clk s' = s_clk s + 1 /\ ctrace (k_g c) (l ++ at_clk (s_clk s) ys) (s_clk s') (s_ch s').
Proof.
  intros c s l s' ys H Hi. unfold clock_tick in Hi.
  destruct (refresh_tick c s) as [s0|] eqn:E0; [|discriminate]. destruct (refresh_tick_ch _ _ _ E0) as (R1 & q & R2).
  assert (H0 : ctrace (k_g c) l (s_clk s0) (s_ch s0)) by (rewrite R1, R2; apply ct_refq; exact H).
  destruct (pick c s0) as [[s1 y]|] eqn:E1; [|discriminate]. destruct (pick_from _ _ _ _ E1) as (P1 & P2 & P3).
  rewrite <- P1, <- P2 in H0, P3.
  destruct (match y with None => _ | Some y => _ end) as [[s2 ys2]|] eqn:E2; [|discriminate].
  assert (H2 : s_clk s2 = s_clk s1 /\ ctrace (k_g c) (l ++ at_clk (s_clk s1) ys2) (s_clk s2) (s_ch s2)).
  { destruct y as [y|].
    - destruct (P3 _ eq_refl) as (c0 & Hc0). eapply ctrace_issue_cmds; eauto.
    - injection E2 as <- <-. cbn. rewrite app_nil_r. auto. }
  destruct H2 as [C2 H2].
  set (s3 := with_clk s2 (s_clk s2) (idle_cycles c s2)) in Hi.
  destruct (if k_selfref c && _ then _ else _) as [[s4 ys4]|] eqn:E4; [|discriminate].
  assert (H4 : s_clk s4 = s_clk s3 /\ ctrace (k_g c) ((l ++ at_clk (s_clk s1) ys2) ++ at_clk (s_clk s3) ys4) (s_clk s4) (s_ch s4)).
  { destruct (_ && _).
    - eapply ctrace_self_refresh; [|exact E4]. exact H2.
    - injection E4 as <- <-. cbn. rewrite app_nil_r. auto. }
  destruct H4 as [C4 H4]. injection Hi as <- <-. cbn [s_clk s_ch with_clk]. destruct (schedule_ch c s4) as [-> ->].
  cbn [s_clk with_clk s3] in C4, H4. split; [lia|]. rewrite C2, P2, R1 in *. rewrite C4 in *.
  eapply ct_time; [|instantiate (1 := s_clk s); lia]. unfold at_clk in *. rewrite map_app, app_assoc. exact H4.
Qed.
Lemma ctrace_run : forall c os s h s' h', ctrace (k_g c) (h_cmds h) (s_clk s) (s_ch s) -> drun_from c os s h = Some (s', h') ->
  ctrace (k_g c) (h_cmds h') (s_clk s') (s_ch s').
Proof.
  intros c. induction os as [|o os IH]; intros s h s' h' H Hr; cbn [drun_from] in Hr; [injection Hr as <- <-; exact H|].
  destruct (dstep c o s h) as [[s1 h1]|] eqn:E; [|discriminate]. eapply IH; [|exact Hr]. clear IH Hr.
  unfold dstep in E. destruct o as [a w|].
  - destruct (will_accept c s w) eqn:Ew.
    + unfold dram_add in E. rewrite Ew in E. injection E as <- <-. cbn [h_cmds].
      replace (s_clk (add_trans c s a w)) with (s_clk s) by (unfold add_trans; destruct w; repeat match goal with |- context [if ?b then _ else _] => destruct b end; reflexivity).
      replace (s_ch (add_trans c s a w)) with (s_ch s) by (unfold add_trans; destruct w; repeat match goal with |- context [if ?b then _ else _] => destruct b end; reflexivity).
      exact H.
    + injection E as <- <-. exact H.
  - unfold dram_tick in E. destruct (drain _ _ _) as [ret q] eqn:Ed. destruct (clock_tick _ _) as [[s2 y]|] eqn:Ec; [|discriminate]. injection E as <- <-. cbn [h_cmds].
    eapply ctrace_clock_tick in Ec; [|exact H]. apply Ec.
Qed.
Lemma drun_trace : forall c os s h, drun c os = Some (s, h) -> ctrace (k_g c) (h_cmds h) (s_clk s) (s_ch s).
Proof. intros c os s h H. eapply ctrace_run; [|exact H]. apply ct_init. Qed.
