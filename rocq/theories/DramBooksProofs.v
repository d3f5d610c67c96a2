(** Transactions are neither lost nor repeated, and writes are returned in order. *)
From Coq Require Import ZArith Bool List Lia Permutation.
From Verif Require Import DramBankModel DramCtrlModel DramSpec DramBankProofs DramTraceProofs DramCtrlProofs.
Import ListNotations.
Local Open Scope Z_scope.

Lemma filter_perm : forall {A} (p : A -> bool) l, Permutation l (filter p l ++ filter (fun x => negb (p x)) l).
Proof.
  induction l as [|x l IH]; [constructor|]. cbn [filter]. destruct (p x); cbn [negb app].
  - constructor. exact IH.
  - apply Permutation_cons_app. exact IH.
Qed.
Lemma map_key_completes : forall l x, map key (map (fun t => completes t x) l) = map key l.
Proof. intros. rewrite map_map. apply map_ext. intros []. reflexivity. Qed.
(** What is kept of the transactions. *)
Definition books (s : ctrl) : list (Z * Z * bool) := map key (s_ret s ++ s_prd s).
(** The writes to be returned. *)
Definition wr (l : list trans) : list trans := filter t_write l.

(** Reads that are completed do not disturb the writes. *)
Record same_books (s s' : ctrl) : Prop := {
  sb_perm : Permutation (books s) (books s');
  sb_wr : wr (s_ret s') = wr (s_ret s);
  sb_prd : (forall t, In t (s_prd s) -> t_write t = false) -> forall t, In t (s_prd s') -> t_write t = false;
  sb_clk : s_clk s' = s_clk s }.
Lemma same_books_eq : forall s s', s_ret s' = s_ret s -> s_prd s' = s_prd s -> s_clk s' = s_clk s -> same_books s s'.
Proof. intros s s' E1 E2 E3. constructor; unfold books; rewrite ?E1, ?E2; auto. Qed.
Lemma same_books_trans : forall s1 s2 s3, same_books s1 s2 -> same_books s2 s3 -> same_books s1 s3.
Proof. intros s1 s2 s3 [] []. constructor; [etransitivity; eauto|congruence|auto|congruence]. Qed.
Lemma issue_books : forall c s y s', (forall t, In t (s_prd s) -> t_write t = false) -> issue c s y = Some s' -> same_books s s'.
Proof.
  intros c s y s' Hp H. unfold issue in H.
  destruct (is_read (c_type y)).
  - destruct (has_addr _ _); [|discriminate]. destruct (chan_issue _ _ _ _) as [x|]; [|discriminate]. injection H as <-. constructor.
    + unfold books. cbn [with_ch with_trans s_ret s_prd]. rewrite !map_app, map_key_completes, <- app_assoc. apply Permutation_app_head. rewrite <- map_app. apply Permutation_map. apply filter_perm.
    + unfold wr. cbn [with_ch with_trans s_ret]. rewrite filter_app.
      rewrite <- (app_nil_r (filter t_write (s_ret s))) at 2. f_equal.
      assert (Hx : forall l, (forall t, In t l -> t_write t = false) -> filter t_write (map (fun t => completes t (u64 (s_clk s + k_read_delay c))) l) = []).
      { induction l as [|t l IH]; intros Hl; cbn [map filter]; [reflexivity|]. cbn [completes t_write]. rewrite (Hl t) by (left; reflexivity). apply IH. intros; apply Hl; right; assumption. }
      apply Hx. intros t Ht. apply filter_In in Ht. apply Hp. apply Ht.
    + intros _ t Ht. cbn [with_ch with_trans s_prd] in Ht. apply filter_In in Ht. apply Hp. apply Ht.
    + reflexivity.
  - destruct (is_write (c_type y)); [destruct (has_addr _ _); [|discriminate]|]; (destruct (chan_issue _ _ _ _) as [x|]; [|discriminate]); injection H as <-; apply same_books_eq; reflexivity.
Qed.
Lemma get_command_books : forall c s s' y, get_command c s = Some (s', y) -> same_books s s'.
Proof. intros c s s' y H. unfold get_command in H. destruct (command_loop _ _ _ _ _ _ _ _) as [[[q i] z]|]; [|discriminate]. injection H as <- <-. apply same_books_eq; reflexivity. Qed.
Lemma pick_books : forall c s s' y, pick c s = Some (s', y) -> same_books s s'.
Proof.
  intros c s s' y H. unfold pick in H. destruct (ch_refq (s_ch s)) as [|ref q]; [eapply get_command_books; exact H|].
  unfold finish_refresh in H. set (s1 := if s_inref s then s else _) in H.
  assert (H1 : same_books s s1) by (apply same_books_eq; unfold s1; destruct (s_inref s); reflexivity). clearbody s1.
  destruct (chan_ready _ _ ref _) as [[z|]|]; [| |discriminate].
  - injection H as <- <-. eapply same_books_trans; [exact H1|]. apply same_books_eq; destruct (is_refresh _); reflexivity.
  - eapply same_books_trans; [exact H1|eapply get_command_books; exact H].
Qed.
Lemma issue_cmds_books : forall c s y s' ys, (forall t, In t (s_prd s) -> t_write t = false) -> issue_cmds c s y = Some (s', ys) -> same_books s s'.
Proof.
  intros c s y s' ys Hp H. unfold issue_cmds in H. destruct (issue c s y) as [s1|] eqn:E1; [|discriminate].
  pose proof (issue_books _ _ _ _ Hp E1) as B1. destruct (k_dual c); [|injection H as <- <-; exact B1].
  destruct (get_command c s1) as [[s2 [z|]]|] eqn:E2; [| |discriminate]; pose proof (get_command_books _ _ _ _ E2) as B2; pose proof (same_books_trans _ _ _ B1 B2) as B3.
  - destruct (negb _); [|injection H as <- <-; exact B3]. destruct (issue c s2 z) as [s3|] eqn:E3; [|discriminate]. injection H as <- <-.
    eapply same_books_trans; [exact B3|]. eapply issue_books; [|exact E3]. apply (sb_prd _ _ B3). exact Hp.
  - injection H as <- <-. exact B3.
Qed.
Lemma self_refresh_books : forall c ranks s s' ys, (forall t, In t (s_prd s) -> t_write t = false) -> self_refresh c s ranks = Some (s', ys) -> same_books s s'.
Proof.
  induction ranks as [|i r IH]; intros s s' ys Hp H; cbn [self_refresh] in H.
  - injection H as <- <-. apply same_books_eq; reflexivity.
  - assert (Hc : forall t, match chan_ready (k_g c) (s_ch s) {| c_type := t; c_addr := {| a_rank := i; a_bg := -1; a_bank := -1; a_row := -1; a_col := -1 |}; c_hex := -1 |} (s_clk s) with
      | None => None | Some None => self_refresh c s r | Some (Some y) => match issue c s y with None => None | Some s' => Some (s', [y]) end end = Some (s', ys) -> same_books s s').
    { intros t Ht. match type of Ht with context [chan_ready ?gg ?xx ?yy ?zz] => destruct (chan_ready gg xx yy zz) as [[y|]|] eqn:E end; [| |discriminate].
      - destruct (issue c s y) as [s1|] eqn:E1; [|discriminate]. injection Ht as <- <-. eapply issue_books; eauto.
      - eapply IH; eauto. }
    destruct (ch_sref (s_ch s) i).
    + destruct (negb _); [eapply Hc; exact H|eapply IH; eauto].
    + destruct (_ && _); [eapply Hc; exact H|eapply IH; eauto].
Qed.
Lemma schedule_books : forall c s, same_books s (schedule c s).
Proof.
  intros c s. assert (Ha : forall s y, s_ret (add_command c s y) = s_ret s /\ s_prd (add_command c s y) = s_prd s /\ s_clk (add_command c s y) = s_clk s)
    by (intros; unfold add_command; destruct (_ <? _); auto).
  unfold schedule. repeat first [destruct (find_trans _ _ _ _) as [[? ?]|] | match goal with |- context [if ?b then _ else _] => destruct b end];
  try (apply same_books_eq; reflexivity);
  match goal with |- context [add_command c ?x ?y] => destruct (Ha x y) as (E1 & E2 & E3) end; apply same_books_eq; rewrite ?E1, ?E2, ?E3; reflexivity.
Qed.
Lemma refresh_tick_books : forall c s s', refresh_tick c s = Some s' -> same_books s s'.
Proof.
  intros c s s' H. unfold refresh_tick in H. destruct (refresh_interval c) as [i|]; [|discriminate]. destruct (i =? 0); [discriminate|]. injection H as <-.
  assert (Hn : forall s, same_books s (iterate_next c s)).
  { intro x. unfold iterate_next. destruct (k_policy c); try (apply same_books_eq; reflexivity). cbn zeta. destruct (_ =? 0); [destruct (_ =? 0)|]; apply same_books_eq; reflexivity. }
  destruct (_ && _); [|apply same_books_eq; reflexivity]. unfold insert_refresh. destruct (k_policy c).
  - destruct (find _ _); apply same_books_eq; reflexivity.
  - eapply same_books_trans; [|apply Hn]. destruct (ch_sref _ _); apply same_books_eq; reflexivity.
  - eapply same_books_trans; [|apply Hn]. destruct (ch_sref _ _); apply same_books_eq; reflexivity.
Qed.
Lemma clock_tick_books : forall c s s' y, (forall t, In t (s_prd s) -> t_write t = false) -> clock_tick c s = Some (s', y) ->
  Permutation (books s) (books s') /\ wr (s_ret s') = wr (s_ret s) /\ (forall t, In t (s_prd s') -> t_write t = false) /\ s_clk s' = s_clk s + 1.
Proof.
  intros c s s' ys Hp H. unfold clock_tick in H.
  destruct (refresh_tick c s) as [s0|] eqn:E0; [|discriminate]. pose proof (refresh_tick_books _ _ _ E0) as B0.
  destruct (pick c s0) as [[s1 y]|] eqn:E1; [|discriminate]. pose proof (same_books_trans _ _ _ B0 (pick_books _ _ _ _ E1)) as B1.
  destruct (match y with None => _ | Some y => _ end) as [[s2 ys2]|] eqn:E2; [|discriminate].
  assert (B2 : same_books s s2).
  { destruct y as [y|]; [|injection E2 as <- <-; exact B1]. eapply same_books_trans; [exact B1|]. eapply issue_cmds_books; [|exact E2]. apply (sb_prd _ _ B1). exact Hp. }
  set (s3 := with_clk s2 (s_clk s2) (idle_cycles c s2)) in H.
  assert (B3 : same_books s s3) by (eapply same_books_trans; [exact B2|]; apply same_books_eq; reflexivity).
  destruct (if k_selfref c && _ then _ else _) as [[s4 ys4]|] eqn:E4; [|discriminate].
  assert (B4 : same_books s s4).
  { destruct (_ && _); [|injection E4 as <- <-; exact B3]. eapply same_books_trans; [exact B3|]. eapply self_refresh_books; [|exact E4]. apply (sb_prd _ _ B3). exact Hp. }
  pose proof (same_books_trans _ _ _ B4 (schedule_books c s4)) as B5. injection H as <- <-. cbn [with_clk s_ret s_prd s_clk].
  split; [apply (sb_perm _ _ B5)|]. split; [apply (sb_wr _ _ B5)|]. split; [apply (sb_prd _ _ B5); exact Hp|]. rewrite (sb_clk _ _ B5). reflexivity.
Qed.

(** ** Returning *)
Lemma return_done_ok : forall clk q t q', return_done clk q = Some (t, q') ->
  exists l r, q = l ++ t :: r /\ q' = l ++ r /\ t_complete t <= clk /\ (forall x, In x l -> clk < t_complete x).
Proof.
  induction q as [|x q IH]; intros t q' H; cbn [return_done] in H; [discriminate|]. destruct (t_complete x <=? clk) eqn:E.
  - injection H as <- <-. exists [], q. apply Z.leb_le in E. repeat split; auto. intros y [].
  - destruct (return_done clk q) as [[y r']|] eqn:Er; [|discriminate]. injection H as <- <-. destruct (IH _ _ eq_refl) as (l & r & -> & -> & H1 & H2).
    exists (x :: l), r. apply Z.leb_gt in E. repeat split; auto. intros z [<-|Hz]; auto.
Qed.
(** Writes complete in the order in which they are kept. *)
Fixpoint in_order (l : list trans) : Prop :=
  match l with [] => True | t :: r => (t_write t = true -> forall x, In x r -> t_write x = true -> t_complete t <= t_complete x) /\ in_order r end.
Lemma in_order_app : forall l r, in_order (l ++ r) <-> in_order l /\ in_order r /\ (forall t x, In t l -> In x r -> t_write t = true -> t_write x = true -> t_complete t <= t_complete x).
Proof.
  induction l as [|t l IH]; intros r; cbn [app in_order]; [cbn; intuition|]. rewrite IH. setoid_rewrite in_app_iff. split.
  - intros (H1 & H2 & H3 & H4). split; [split; [|exact H2]; intros; apply H1; auto|]. split; [exact H3|]. intros a b [<-|Ha] Hb Wa Wb; [apply H1; auto|eapply H4; eauto].
  - intros ((H1 & H2) & H3 & H4). split; [|split; [exact H2|split; [exact H3|]]].
    + intros Wt x [Hx|Hx] Wx; [apply H1; auto|]. eapply H4; eauto. left. reflexivity.
    + intros a b Ha Hb. apply H4; [right; exact Ha|exact Hb].
Qed.
Lemma wr_app : forall l r, wr (l ++ r) = wr l ++ wr r.
Proof. intros. apply filter_app. Qed.
Lemma drain_ok : forall n clk q l q', drain n clk q = (l, q') -> in_order q -> Permutation q (l ++ q') /\ wr q = wr (l ++ q') /\ in_order q'.
Proof.
  induction n as [|n IH]; intros clk q l q' H Ho; cbn [drain] in H.
  - injection H as <- <-. cbn. auto.
  - destruct (return_done clk q) as [[t q1]|] eqn:E; [|injection H as <- <-; cbn; auto].
    destruct (drain n clk q1) as [l1 q2] eqn:Ed. injection H as <- <-.
    destruct (return_done_ok _ _ _ _ E) as (a & b & -> & -> & H1 & H2).
    assert (Ho1 : in_order (a ++ b)) by (apply in_order_app in Ho; apply in_order_app; destruct Ho as (O1 & [_ O2] & O3); split; [exact O1|]; split; [exact O2|]; intros; eapply O3; eauto; right; assumption).
    destruct (IH _ _ _ _ Ed Ho1) as (I1 & I2 & I3). split; [|split; [|exact I3]].
    + cbn [app]. rewrite <- I1. symmetry. apply Permutation_middle.
    + cbn [app]. rewrite wr_app. unfold wr at 2 3. cbn [filter]. fold (wr b) (wr (l1 ++ q2)). rewrite <- I2, wr_app. destruct (t_write t) eqn:Ew; [|reflexivity].
      assert (Ha : wr a = []).
      { apply in_order_app in Ho. destruct Ho as (_ & _ & O3). unfold wr. clear - O3 Ew H1 H2. induction a as [|x a IHa]; [reflexivity|]. cbn [filter].
        destruct (t_write x) eqn:Ex; [exfalso|apply IHa; intros; [eapply O3|apply H2]; eauto; right; assumption].
        specialize (O3 x t (or_introl eq_refl) (or_introl eq_refl) Ex Ew). specialize (H2 x (or_introl eq_refl)). lia. }
      rewrite Ha. reflexivity.
Qed.

(** ** Runs *)
Record binv (s : ctrl) (h : hist) : Prop := {
  bi_perm : Permutation (h_added h) (map key (h_ret h) ++ books s);
  bi_wr : filter snd (h_added h) = map key (wr (h_ret h ++ s_ret s));
  bi_order : in_order (s_ret s);
  bi_done : forall t, In t (s_ret s) -> t_write t = true -> t_complete t <= s_clk s + 1;
  bi_prd : forall t, In t (s_prd s) -> t_write t = false }.
Lemma binv0 : binv ctrl0 hist0.
Proof. constructor; cbn; auto; try contradiction. Qed.
Lemma wr_in_order : forall l, in_order (wr l) <-> in_order l.
Proof.
  induction l as [|t l IH]; [tauto|]. unfold wr. cbn [filter]. fold (wr l). destruct (t_write t) eqn:E; cbn [in_order]; rewrite IH.
  - split; intros [H1 H2]; (split; [|exact H2]); intros W x Hx Wx; apply H1; auto; [|apply filter_In in Hx; apply Hx]. apply filter_In. auto.
  - split; [intro H; split; [congruence|exact H]|intros [_ H]; exact H].
Qed.
Lemma add_trans_books : forall c s a w, let t := {| t_addr := a; t_added := s_clk s; t_complete := 0; t_write := w |} in
  (s_ret (add_trans c s a w) = s_ret s ++ [completes t (s_clk s + 1)] /\ s_prd (add_trans c s a w) = s_prd s \/
   w = false /\ s_ret (add_trans c s a w) = s_ret s /\ s_prd (add_trans c s a w) = s_prd s ++ [t]) /\ s_clk (add_trans c s a w) = s_clk s.
Proof. intros c s a w t. unfold add_trans. destruct w; repeat match goal with |- context [if ?b then _ else _] => destruct b end; cbn; auto. Qed.
Lemma binv_step : forall c o s h s' h', binv s h -> dstep c o s h = Some (s', h') -> binv s' h'.
Proof.
  intros c o s h s' h' Hb H. unfold dstep in H. destruct o as [a w|].
  - destruct (will_accept c s w) eqn:Ew; [|injection H as <- <-; exact Hb]. unfold dram_add in H. rewrite Ew in H. injection H as <- <-.
    destruct (add_trans_books c s a w) as [[[E1 E2]|(Ew2 & E1 & E2)] E3]; destruct Hb; constructor; cbn [h_added h_ret]; unfold books in *; rewrite ?E1, ?E2, ?E3.
    + rewrite bi_perm0. rewrite !map_app. cbn [map]. unfold key at 4. cbn [completes t_addr t_added t_write]. rewrite <- !app_assoc. do 2 apply Permutation_app_head. apply Permutation_app_comm.
    + rewrite filter_app, bi_wr0. cbn [filter snd]. rewrite app_assoc, (wr_app (h_ret h ++ s_ret s)), map_app. f_equal. unfold wr. cbn [filter completes t_write]. destruct w; reflexivity.
    + apply in_order_app. split; [exact bi_order0|]. split; [cbn; split; [intros _ x []|exact I]|]. intros t x Ht [<-|[]] Wt Wx. cbn [completes t_complete]. apply bi_done0; assumption.
    + intros t Ht Wt. apply in_app_iff in Ht. destruct Ht as [Ht|[<-|[]]]; [apply bi_done0; assumption|cbn; lia].
    + exact bi_prd0.
    + rewrite bi_perm0. rewrite !map_app. cbn [map]. unfold key at 4. cbn [t_addr t_added t_write]. rewrite <- !app_assoc. apply Permutation_refl.
    + rewrite filter_app, bi_wr0. cbn [filter snd]. subst w. rewrite app_nil_r. reflexivity.
    + exact bi_order0.
    + exact bi_done0.
    + intros t Ht. apply in_app_iff in Ht. destruct Ht as [Ht|[<-|[]]]; [apply bi_prd0; assumption|exact Ew2].
  - unfold dram_tick in H. destruct (drain _ _ _) as [ret q] eqn:Ed. destruct (clock_tick _ _) as [[s2 y]|] eqn:Ec; [|discriminate]. injection H as <- <-.
    destruct (drain_ok _ _ _ _ _ Ed (bi_order _ _ Hb)) as (D1 & D2 & D3). apply clock_tick_books in Ec; [|exact (bi_prd _ _ Hb)].
    destruct Ec as (B1 & B2 & B3 & B4). cbn [with_trans s_ret s_clk] in B2, B4. unfold books in B1. cbn [with_trans s_ret s_prd] in B1.
    destruct Hb. constructor; cbn [h_added h_ret].
    + rewrite bi_perm0. unfold books. rewrite <- B1. rewrite !map_app. rewrite <- !app_assoc. apply Permutation_app_head. rewrite !app_assoc. apply Permutation_app_tail. rewrite <- map_app. apply Permutation_map. exact D1.
    + rewrite bi_wr0. f_equal. rewrite <- app_assoc. rewrite !(wr_app (h_ret h)). f_equal. rewrite wr_app, B2, <- wr_app. exact D2.
    + apply wr_in_order. rewrite B2. apply wr_in_order. exact D3.
    + intros t Ht Wt. rewrite B4. assert (Hin : In t (s_ret s)).
      { assert (Hw : In t (wr (s_ret s2))) by (apply filter_In; auto). rewrite B2 in Hw. apply filter_In in Hw. destruct Hw as [Hw _]. eapply Permutation_in; [symmetry; exact D1|]. apply in_or_app. right. exact Hw. }
      specialize (bi_done0 _ Hin Wt). lia.
    + exact B3.
Qed.
Lemma binv_run : forall c os s h s' h', binv s h -> drun_from c os s h = Some (s', h') -> binv s' h'.
Proof.
  induction os as [|o os IH]; intros s h s' h' Hb H; cbn [drun_from] in H; [injection H as <- <-; exact Hb|].
  destruct (dstep c o s h) as [[s1 h1]|] eqn:E; [|discriminate]. eapply IH; [|exact H]. eapply binv_step; eauto.
Qed.
