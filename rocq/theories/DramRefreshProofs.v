(** Refreshes are asked for in turn, and what is asked for is issued in order. *)
From Coq Require Import ZArith Bool List Lia Permutation.
From Verif Require Import DramBankModel DramCtrlModel DramSpec DramBankProofs DramTraceProofs DramCtrlProofs.
Import ListNotations.
Local Open Scope Z_scope.

(** ** Arithmetic *)
(** The intervals that have ended before a cycle. *)
Definition ins (i t : Z) : Z := if t <=? 0 then 0 else (t - 1) / i.
Lemma ins_next : forall i t, 0 < i -> 0 <= t -> ins i (t + 1) = ins i t + (if (0 <? t) && (t mod i =? 0) then 1 else 0) /\
  ((0 <? t) && (t mod i =? 0) = true -> ins i t = t / i - 1).
Proof.
  intros i t Hi Ht. unfold ins. destruct (t + 1 <=? 0) eqn:E1; [apply Z.leb_le in E1; lia|]. replace (t + 1 - 1) with t by lia.
  destruct (t <=? 0) eqn:E2.
  - apply Z.leb_le in E2. assert (t = 0) by lia. subst t. cbn [Z.ltb Z.compare andb]. rewrite Z.div_0_l by lia. split; [reflexivity|discriminate].
  - apply Z.leb_gt in E2. rewrite (proj2 (Z.ltb_lt 0 t)) by lia. cbn [andb]. pose proof (Z.div_mod t i ltac:(lia)) as D. pose proof (Z.mod_pos_bound t i Hi) as M.
    destruct (t mod i =? 0) eqn:Em.
    + apply Z.eqb_eq in Em. assert (Hq : (t - 1) / i = t / i - 1).
      { symmetry. apply Z.div_unique with (i - 1); lia. }
      split; [lia|intros _; exact Hq].
    + apply Z.eqb_neq in Em. assert (Hq : (t - 1) / i = t / i).
      { symmetry. apply Z.div_unique with (t mod i - 1); lia. }
      split; [lia|discriminate].
Qed.
Definition pos (g : geom) (r j k : Z) : Z := g_bgs g * (g_bpg g * r + k) + j.
Lemma nth_pos : forall g r j k, geom_ok g -> bank_in g r j k -> nth_bank g (pos g r j k) = (r, j, k) /\ 0 <= pos g r j k < g_ranks g * (g_bgs g * g_bpg g).
Proof.
  intros g r j k [G1 G2 G3] (H1 & H2 & H3). unfold nth_bank, pos.
  assert (Eq : (g_bgs g * (g_bpg g * r + k) + j) / g_bgs g = g_bpg g * r + k) by (symmetry; apply Z.div_unique with j; lia).
  assert (Em : (g_bgs g * (g_bpg g * r + k) + j) mod g_bgs g = j) by (symmetry; apply Z.mod_unique with (g_bpg g * r + k); lia).
  assert (Ek : (g_bpg g * r + k) mod g_bpg g = k) by (symmetry; apply Z.mod_unique with r; lia).
  assert (Er : (g_bpg g * r + k) / g_bpg g = r) by (symmetry; apply Z.div_unique with k; lia).
  rewrite <- Z.div_div by lia. rewrite Eq, Em, Ek, Er. split; [reflexivity|].
  assert (B1 : g_bpg g * r + k <= g_bpg g * (g_ranks g - 1) + (g_bpg g - 1)) by (assert (g_bpg g * r <= g_bpg g * (g_ranks g - 1)) by (apply Z.mul_le_mono_nonneg_l; lia); lia).
  assert (B2 : 0 <= g_bpg g * r) by (apply Z.mul_nonneg_nonneg; lia).
  assert (B3 : g_bgs g * (g_bpg g * r + k) <= g_bgs g * (g_bpg g * (g_ranks g - 1) + (g_bpg g - 1))) by (apply Z.mul_le_mono_nonneg_l; lia).
  assert (B4 : 0 <= g_bgs g * (g_bpg g * r + k)) by (apply Z.mul_nonneg_nonneg; lia).
  split; [lia|]. replace (g_ranks g * (g_bgs g * g_bpg g)) with (g_bgs g * (g_bpg g * (g_ranks g - 1) + (g_bpg g - 1)) + g_bgs g) by ring. lia.
Qed.
Lemma pos_nth : forall g x, geom_ok g -> 0 <= x < g_ranks g * (g_bgs g * g_bpg g) -> exists r j k, nth_bank g x = (r, j, k) /\ bank_in g r j k /\ x = pos g r j k.
Proof.
  intros g x [G1 G2 G3] Hx. unfold nth_bank. exists (x / (g_bgs g * g_bpg g)), (x mod g_bgs g), ((x / g_bgs g) mod g_bpg g). split; [reflexivity|].
  assert (Hgb : 0 < g_bgs g * g_bpg g) by (apply Z.mul_pos_pos; lia).
  split.
  - split; [|split; apply Z.mod_pos_bound; assumption]. split; [apply Z.div_pos; lia|]. apply Z.div_lt_upper_bound; [lia|]. rewrite Z.mul_comm. lia.
  - unfold pos. rewrite <- Z.div_div by lia. rewrite <- Z.div_mod by lia. apply Z.div_mod. lia.
Qed.
Lemma next_pos : forall g r j k, geom_ok g -> bank_in g r j k ->
  let bg := (j + 1) mod g_bgs g in let ba := (k + 1) mod g_bpg g in
  (if bg =? 0 then if ba =? 0 then pos g ((r + 1) mod g_ranks g) bg ba else pos g r bg ba else pos g r bg k) = (pos g r j k + 1) mod (g_ranks g * (g_bgs g * g_bpg g)).
Proof.
  intros g r j k Hg Hb bg ba. pose proof (nth_pos g r j k Hg Hb) as [_ Hp]. destruct Hg as [G1 G2 G3]. destruct Hb as (H1 & H2 & H3).
  assert (Hgb : 0 < g_bgs g * g_bpg g) by (apply Z.mul_pos_pos; lia).
  set (N := g_ranks g * (g_bgs g * g_bpg g)) in *.
  destruct (Z.eq_dec (j + 1) (g_bgs g)) as [Ej|Ej].
  - assert (Eb : bg = 0) by (unfold bg; rewrite Ej; apply Z.mod_same; lia). rewrite Eb. cbn [Z.eqb].
    destruct (Z.eq_dec (k + 1) (g_bpg g)) as [Ek|Ek].
    + assert (Ea : ba = 0) by (unfold ba; rewrite Ek; apply Z.mod_same; lia). rewrite Ea. cbn [Z.eqb].
      destruct (Z.eq_dec (r + 1) (g_ranks g)) as [Er|Er].
      * rewrite Er, Z.mod_same by lia. assert (Ex : pos g r j k + 1 = N) by (unfold pos, N; replace j with (g_bgs g - 1) by lia; replace k with (g_bpg g - 1) by lia; replace r with (g_ranks g - 1) by lia; ring).
        rewrite Ex, Z.mod_same by lia. unfold pos. ring.
      * rewrite (Z.mod_small (r + 1)) by lia. assert (Ex : pos g (r + 1) 0 0 = pos g r j k + 1) by (unfold pos; replace j with (g_bgs g - 1) by lia; replace k with (g_bpg g - 1) by lia; ring).
        rewrite <- Ex. symmetry. apply Z.mod_small. pose proof (nth_pos g (r + 1) 0 0 ltac:(constructor; assumption) ltac:(unfold bank_in; lia)) as [_ X]. exact X.
    + assert (Ea : ba = k + 1) by (unfold ba; apply Z.mod_small; lia). rewrite Ea. assert (Ez : k + 1 =? 0 = false) by (apply Z.eqb_neq; lia). rewrite Ez.
      assert (Ex : pos g r 0 (k + 1) = pos g r j k + 1) by (unfold pos; replace j with (g_bgs g - 1) by lia; ring).
      rewrite <- Ex. symmetry. apply Z.mod_small. pose proof (nth_pos g r 0 (k + 1) ltac:(constructor; assumption) ltac:(unfold bank_in; lia)) as [_ X]. exact X.
  - assert (Eb : bg = j + 1) by (unfold bg; apply Z.mod_small; lia). rewrite Eb. assert (Ez : j + 1 =? 0 = false) by (apply Z.eqb_neq; lia). rewrite Ez.
    assert (Ex : pos g r (j + 1) k = pos g r j k + 1) by (unfold pos; ring).
    rewrite <- Ex. symmetry. apply Z.mod_small. pose proof (nth_pos g r (j + 1) k ltac:(constructor; assumption) ltac:(unfold bank_in; lia)) as [_ X]. exact X.
Qed.
Lemma zseq_succ : forall t, 0 <= t -> zseq (t + 1) = zseq t ++ [t].
Proof.
  intros t Ht. unfold zseq. replace (Z.to_nat (t + 1)) with (S (Z.to_nat t)) by lia. rewrite seq_S, map_app. cbn [map Nat.add]. rewrite Z2Nat.id by assumption. reflexivity.
Qed.
Lemma zseq_zero_first : forall n, 0 < n -> exists l, zseq n = 0 :: l.
Proof. intros n Hn. unfold zseq. destruct (Z.to_nat n) as [|m] eqn:E; [lia|]. cbn [seq map Z.of_nat]. eauto. Qed.

(** ** Rounds *)
Lemma nodup_map_on : forall {A B} (f : A -> B) l, NoDup l -> (forall x y, In x l -> In y l -> f x = f y -> x = y) -> NoDup (map f l).
Proof.
  induction l as [|x l IH]; intros Hd Hf; cbn [map]; [constructor|]. inversion Hd as [|? ? Hn Hd']; subst. constructor.
  - intro Hin. apply in_map_iff in Hin. destruct Hin as (y & E & Hy). apply Hf in E; [|right; exact Hy|left; reflexivity]. subst y. tauto.
  - apply IH; [exact Hd'|]. intros; apply Hf; auto; right; assumption.
Qed.
Lemma shift_perm : forall n m, 0 < n -> Permutation (map (fun x => (m + x) mod n) (zseq n)) (zseq n).
Proof.
  intros n m Hn. apply NoDup_Permutation_bis.
  - apply nodup_map_on; [apply zseq_nodup|]. intros x y Hx Hy E. apply in_zseq in Hx, Hy.
    assert (Hd : (x - y) mod n = 0) by (replace (x - y) with ((m + x) - (m + y)) by lia; rewrite Zminus_mod, E, Z.sub_diag; apply Z.mod_0_l; lia).
    apply Z.mod_divide in Hd; [|lia]. destruct Hd as (q & Hq). assert (q = 0) by nia. lia.
  - rewrite map_length. lia.
  - intros z Hz. apply in_map_iff in Hz. destruct Hz as (x & <- & _). apply in_zseq. apply Z.mod_pos_bound. exact Hn.
Qed.
Lemma in_all_banks : forall g r j k, In (r, j, k) (all_banks g) <-> bank_in g r j k.
Proof.
  intros. unfold all_banks, bank_in. rewrite in_flat_map. split.
  - intros (r' & Hr & H). apply in_flat_map in H. destruct H as (j' & Hj & H). apply in_map_iff in H. destruct H as (k' & E & Hk). injection E as -> -> ->. apply in_zseq in Hr, Hj, Hk. auto.
  - intros (H1 & H2 & H3). exists r. split; [apply in_zseq; exact H1|]. apply in_flat_map. exists j. split; [apply in_zseq; exact H2|]. apply in_map_iff. exists k. split; [reflexivity|apply in_zseq; exact H3].
Qed.
Lemma all_banks_nodup : forall g, NoDup (all_banks g).
Proof.
  intro g. unfold all_banks.
  assert (E : forall l, flat_map (fun r => flat_map (fun j => map (fun k => (r, j, k)) (zseq (g_bpg g))) (zseq (g_bgs g))) l =
              map (fun x : Z * (Z * Z) => (fst x, fst (snd x), snd (snd x))) (flat_map (fun r => map (fun p => (r, p)) (rank_banks g)) l)).
  { induction l as [|r l IH]; cbn [flat_map map]; [reflexivity|]. rewrite map_app, <- IH. f_equal. rewrite map_map. unfold rank_banks. cbn [fst snd].
    generalize (zseq (g_bgs g)). induction l0 as [|j l0 IH0]; cbn [flat_map map]; [reflexivity|]. rewrite map_app, <- IH0. f_equal. rewrite map_map. reflexivity. }
  rewrite E. apply nodup_map_on; [apply nodup_pairs; [apply rank_banks_nodup|apply zseq_nodup]|]. intros [a [b d]] [a' [b' d']] _ _ H. cbn [fst snd] in H. congruence.
Qed.
Lemma due_at : forall c i x, 0 < i -> 0 < x -> due c i (x * i) =
    match k_policy c with
    | RANK_SIMULTANEOUS => [ref_rank 0]
    | RANK_STAGGERED => [ref_rank ((x - 1) mod g_ranks (k_g c))]
    | BANK_STAGGERED => [ref_bank (nth_bank (k_g c) ((x - 1) mod (g_ranks (k_g c) * (g_bgs (k_g c) * g_bpg (k_g c)))))]
    end.
Proof.
  intros c i x Hi Hx. unfold due. assert (E1 : 0 <? x * i = true) by (apply Z.ltb_lt; nia). rewrite E1, Z.mod_mul by lia. cbn [andb Z.eqb]. rewrite Z.div_mul by lia. reflexivity.
Qed.
Lemma round_map : forall c i m n, 0 < i -> 0 <= m -> round c i m n =
  flat_map (fun x => match k_policy c with
    | RANK_SIMULTANEOUS => [ref_rank 0]
    | RANK_STAGGERED => [ref_rank ((m + x) mod g_ranks (k_g c))]
    | BANK_STAGGERED => [ref_bank (nth_bank (k_g c) ((m + x) mod (g_ranks (k_g c) * (g_bgs (k_g c) * g_bpg (k_g c)))))]
    end) (zseq n).
Proof.
  intros c i m n Hi Hm. unfold round. rewrite flat_map_concat_map, map_map, <- flat_map_concat_map. apply flat_map_ext_in. intros x Hx. apply in_zseq in Hx. rewrite due_at by lia.
  replace (m + 1 + x - 1) with (m + x) by lia. reflexivity.
Qed.
Lemma flat_map_single : forall {A B} (f : A -> B) l, flat_map (fun x => [f x]) l = map f l.
Proof. induction l as [|x l IH]; cbn; congruence. Qed.
Theorem round_ranks : forall c i m, geom_ok (k_g c) -> k_policy c = RANK_STAGGERED -> 0 < i -> 0 <= m -> Permutation (round c i m (g_ranks (k_g c))) (map ref_rank (all_ranks (k_g c))).
Proof.
  intros c i m [G1 _ _] Hp Hi Hm. rewrite round_map by assumption. rewrite Hp, flat_map_single.
  rewrite <- (map_map (fun x => (m + x) mod g_ranks (k_g c)) ref_rank). apply Permutation_map. apply shift_perm. exact G1.
Qed.
Theorem round_banks : forall c i m, geom_ok (k_g c) -> k_policy c = BANK_STAGGERED -> 0 < i -> 0 <= m ->
  Permutation (round c i m (g_ranks (k_g c) * (g_bgs (k_g c) * g_bpg (k_g c)))) (map ref_bank (all_banks (k_g c))).
Proof.
  intros c i m Hg Hp Hi Hm. pose proof Hg as [G1 G2 G3]. rewrite round_map by assumption. rewrite Hp, flat_map_single.
  set (N := g_ranks (k_g c) * (g_bgs (k_g c) * g_bpg (k_g c))). assert (HN : 0 < N) by (unfold N; repeat apply Z.mul_pos_pos; assumption).
  rewrite <- (map_map (fun x => (m + x) mod N) (fun x => ref_bank (nth_bank (k_g c) x))). rewrite <- (map_map (nth_bank (k_g c)) ref_bank). apply Permutation_map.
  etransitivity; [apply Permutation_map; apply shift_perm; exact HN|].
  apply NoDup_Permutation; [|apply all_banks_nodup|].
  - apply nodup_map_on; [apply zseq_nodup|]. intros x y Hx Hy E. apply in_zseq in Hx, Hy.
    destruct (pos_nth _ _ Hg Hx) as (r & j & k & E1 & _ & X1). destruct (pos_nth _ _ Hg Hy) as (r' & j' & k' & E2 & _ & X2). congruence.
  - intros [[r j] k]. rewrite in_all_banks, in_map_iff. split.
    + intros (x & E & Hx). apply in_zseq in Hx. destruct (pos_nth _ _ Hg Hx) as (r' & j' & k' & E1 & Hb & _). congruence.
    + intros Hb. destruct (nth_pos _ _ _ _ Hg Hb) as [E Hr]. exists (pos (k_g c) r j k). split; [exact E|apply in_zseq; exact Hr].
Qed.

(** ** Requests of a run *)
Record rinv (i : Z) (c : kcfg) (s : ctrl) (done : list (Z * cmd)) (t : Z) : Prop := {
  ri_next : match k_policy c with
            | RANK_SIMULTANEOUS => True
            | RANK_STAGGERED => s_nrank s = ins i t mod g_ranks (k_g c)
            | BANK_STAGGERED => pos (k_g c) (s_nrank s) (s_nbg s) (s_nbank s) = ins i t mod (g_ranks (k_g c) * (g_bgs (k_g c) * g_bpg (k_g c)))
            end;
  ri_log : refreshes done ++ map ref_key (ch_refq (s_ch s)) = map ref_key (flat_map (due c i) (zseq t)) }.
Lemma refresh_tick_r : forall i b c s done, cfg_ok c -> refresh_interval c = Some i -> 0 < i < 2 ^ 64 -> 0 <= s_clk s -> kinv b c s [] -> rinv i c s done (s_clk s) ->
  forall s', refresh_tick c s = Some s' -> rinv i c s' done (s_clk s + 1).
Proof.
  intros i b c s done Hc Hint Hi Ht Hk Hr s' H. unfold refresh_tick in H. rewrite Hint in H. destruct (i =? 0); [discriminate|]. injection H as <-.
  rewrite u64_id by lia. destruct (ins_next i (s_clk s) ltac:(lia) Ht) as [I1 I2]. pose proof (co_geom _ Hc) as [G1 G2 G3].
  assert (HN : g_ranks (k_g c) * (g_bgs (k_g c) * g_bpg (k_g c)) <> 0) by (apply Z.neq_sym, Z.lt_neq; repeat apply Z.mul_pos_pos; assumption).
  destruct Hr as [R1 R2]. rewrite (andb_comm (s_clk s mod i =? 0)).
  assert (Hdue : map ref_key (flat_map (due c i) (zseq (s_clk s + 1))) = map ref_key (flat_map (due c i) (zseq (s_clk s))) ++ map ref_key (due c i (s_clk s))).
  { rewrite zseq_succ by assumption. rewrite flat_map_app, map_app. cbn [flat_map]. rewrite app_nil_r. reflexivity. }
  unfold due in Hdue at 3.
  destruct ((0 <? s_clk s) && (s_clk s mod i =? 0)) eqn:Ed.
  - specialize (I2 eq_refl). unfold insert_refresh. destruct (k_policy c) eqn:Ep.
    + destruct (zseq_zero_first _ G1) as (l & El). rewrite El. cbn [find]. rewrite (ki_sref _ _ _ _ Hk 0). cbn [negb]. constructor; [rewrite Ep; exact I|].
      cbn [with_ch s_ch with_refq ch_refq]. unfold rank_need_refresh. rewrite map_app, app_assoc, R2, Hdue. reflexivity.
    + rewrite (ki_sref _ _ _ _ Hk). unfold iterate_next. rewrite Ep. constructor.
      * rewrite Ep. cbn [with_next s_nrank with_ch]. rewrite R1, I1, Z.add_mod_idemp_l by lia. reflexivity.
      * cbn [with_next with_ch s_ch with_refq ch_refq]. unfold rank_need_refresh. rewrite map_app, app_assoc, R2, Hdue. rewrite R1, I2. reflexivity.
    + rewrite (ki_sref _ _ _ _ Hk). pose proof (ki_next _ _ _ _ Hk) as Hb.
      assert (Hn : nth_bank (k_g c) (ins i (s_clk s) mod (g_ranks (k_g c) * (g_bgs (k_g c) * g_bpg (k_g c)))) = (s_nrank s, s_nbg s, s_nbank s)).
      { rewrite <- R1. apply nth_pos; [apply Hc|exact Hb]. }
      set (s1 := with_ch s (with_refq (s_ch s) (bank_need_refresh (s_nrank s) (s_nbg s) (s_nbank s) true (ch_refq (s_ch s))))).
      constructor.
      * rewrite Ep. rewrite I1, <- Z.add_mod_idemp_l by exact HN. rewrite <- R1. rewrite <- (next_pos _ _ _ _ (co_geom _ Hc) Hb). cbn zeta.
        unfold iterate_next. rewrite Ep. cbn zeta. cbn [s1 with_ch s_nrank s_nbg s_nbank].
        destruct ((s_nbg s + 1) mod g_bgs (k_g c) =? 0); [destruct ((s_nbank s + 1) mod g_bpg (k_g c) =? 0)|]; reflexivity.
      * replace (ch_refq (s_ch (iterate_next c s1))) with (ch_refq (s_ch s1)) by
          (unfold iterate_next; rewrite Ep; cbn zeta; destruct ((s_nbg s1 + 1) mod g_bgs (k_g c) =? 0); [destruct ((s_nbank s1 + 1) mod g_bpg (k_g c) =? 0)|]; reflexivity).
        cbn [s1 with_ch s_ch with_refq ch_refq]. unfold bank_need_refresh. rewrite map_app, app_assoc, R2, Hdue. rewrite <- I2, Hn. reflexivity.
  - constructor.
    + destruct (k_policy c); [exact I| |]; rewrite I1, Z.add_0_r; exact R1.
    + rewrite R2, Hdue. cbn [map]. rewrite app_nil_r. reflexivity.
Qed.
Definition keeps (s s' : ctrl) : Prop := s_nrank s' = s_nrank s /\ s_nbg s' = s_nbg s /\ s_nbank s' = s_nbank s.
Lemma keeps_trans : forall a b c, keeps a b -> keeps b c -> keeps a c.
Proof. unfold keeps. intros a b c (?&?&?) (?&?&?). repeat split; congruence. Qed.
Lemma chan_issue_refq_eq : forall g y clk s s', chan_issue g y clk s = Some s' ->
  ch_refq s' = match c_type y with REF => rank_need_refresh (a_rank (c_addr y)) false (ch_refq s)
                                 | REF_BANK => bank_need_refresh (a_rank (c_addr y)) (a_bg (c_addr y)) (a_bank (c_addr y)) false (ch_refq s)
                                 | _ => ch_refq s end.
Proof.
  intros g c clk s s' H. unfold chan_issue in H. destruct (chan_update g c s) as [s1|] eqn:E; [|discriminate]. injection H as <-.
  unfold chan_timing. cbn [ch_refq]. assert (Hq : ch_refq (if ctype_eqb (c_type c) ACT then act_times g (a_rank (c_addr c)) clk s1 else s1) = ch_refq s1) by (destruct (ctype_eqb _ _); reflexivity).
  rewrite Hq. clear Hq. unfold chan_update in E. destruct (c_type c) eqn:Et; cbn [is_rank is_refresh] in E;
  (destruct (update_banks _ _ _) || destruct (bank_update _ _)); try discriminate; injection E as <-; reflexivity.
Qed.
Lemma issue_refq : forall c s y s', issue c s y = Some s' -> keeps s s' /\
  (is_refresh (c_type y) = false -> ch_refq (s_ch s') = ch_refq (s_ch s)) /\
  (is_refresh (c_type y) = true -> forall ref q, ch_refq (s_ch s) = ref :: q -> ref_key ref = ref_key y -> ch_refq (s_ch s') = q).
Proof.
  intros c s y s' H. assert (Hk : keeps s s').
  { unfold issue in H. destruct (is_read (c_type y)); [destruct (has_addr _ _); [|discriminate]|destruct (is_write (c_type y)); [destruct (has_addr _ _); [|discriminate]|]];
    (destruct (chan_issue _ _ _ _); [|discriminate]); injection H as <-; repeat split. }
  split; [exact Hk|]. destruct (issue_from _ _ _ _ H) as [_ E]. apply chan_issue_refq_eq in E. rewrite E. split.
  - intro Hn. destruct (c_type y); try discriminate; reflexivity.
  - intros Hy ref q Eq Ek. unfold ref_key in Ek. injection Ek as E1 E2. destruct (c_type y); try discriminate; rewrite Eq; unfold bank_need_refresh, rank_need_refresh; cbn [erase_first];
      rewrite E2, !Z.eqb_refl; reflexivity.
Qed.
Lemma ready_refresh : forall c s x clk y, geom_ok (k_g c) -> chan_ready (k_g c) s x clk = Some (Some y) -> is_refresh (c_type y) = true -> ref_key y = ref_key x.
Proof.
  intros c s x clk y Hg H Hy. unfold ref_key. destruct (is_rank (c_type x)) eqn:E.
  - unfold chan_ready in H. rewrite E in H. destruct (in_range _ _); [|discriminate].
    destruct (rank_ready_ok _ _ _ _ E _ _ _ _ H ltac:(discriminate)) as [(j & k & _ & Ht & _)|(_ & _ & Ht & Ha)]; [rewrite Ht in Hy; discriminate|congruence].
  - destruct (chan_ready_bank _ _ _ _ _ E H) as (_ & Ea & _ & [Ht|[Ht|[Ht|Ht]]]); [congruence| | |]; rewrite Ht in Hy; discriminate.
Qed.
Lemma get_command_keeps : forall c s s' y, get_command c s = Some (s', y) -> keeps s s'.
Proof. intros c s s' y H. unfold get_command in H. destruct (command_loop _ _ _ _ _ _ _ _) as [[[q i] z]|]; [|discriminate]. injection H as <- <-. repeat split. Qed.
Lemma get_command_norefresh : forall b c s s' y, cfg_ok c -> kinv b c s [] -> get_command c s = Some (s', Some y) -> is_refresh (c_type y) = false.
Proof.
  intros b c s s' y Hc Hk H. unfold get_command in H.
  assert (Hl : forall n q i q' i' z, (forall i x, In x (q i) -> from_trans c x /\ queue_index c (c_addr x) = i) ->
     command_loop c (s_ch s) (s_clk s) (s_inref s) (s_refidx s) n q i = Some (q', i', Some z) -> is_refresh (c_type z) = false).
  { induction n as [|n IH]; intros q i q' i' z Hq E; cbn [command_loop] in E; [discriminate|].
    destruct (_ && _); [eapply IH; eauto|]. destruct (first_ready _ _ _ _ _) as [[w|]|] eqn:Ef; [|eapply IH; eauto|discriminate].
    destruct (first_ready_from _ _ _ _ _ _ Ef) as (c0 & Hin & Hr). destruct (Hq _ _ Hin) as [(t & Et) _].
    assert (Hw : is_refresh (c_type w) = false).
    { destruct (is_refresh (c_type w)) eqn:Er; [|reflexivity]. pose proof (ready_refresh _ _ _ _ _ (co_geom _ Hc) Hr Er) as Ek. injection Ek as E1 E2.
      destruct (trans_cmd_rw c t) as (T1 & _). rewrite <- Et, <- E1 in T1. destruct (c_type w); discriminate. }
    destruct (is_rw (c_type w)); [destruct (erase_rw c q w); [|discriminate]|]; injection E as _ _ <-; exact Hw. }
  destruct (command_loop _ _ _ _ _ _ _ _) as [[[q i] z]|] eqn:E; [|discriminate]. injection H as <- ->. eapply Hl; [|exact E]. apply (ki_q _ _ _ _ Hk).
Qed.
Lemma pick_refresh : forall b c s s' y, cfg_ok c -> kinv b c s [] -> pick c s = Some (s', y) -> keeps s s' /\
  (forall z, y = Some z -> is_refresh (c_type z) = true -> exists ref q, ch_refq (s_ch s) = ref :: q /\ ref_key ref = ref_key z).
Proof.
  intros b c s s' y Hc Hk H. unfold pick in H. destruct (ch_refq (s_ch s)) as [|ref q] eqn:Eq.
  - split; [eapply get_command_keeps; exact H|]. intros z -> Hz. rewrite (get_command_norefresh _ _ _ _ _ Hc Hk H) in Hz. discriminate.
  - unfold finish_refresh in H. set (s1 := if s_inref s then s else _) in H.
    assert (H1 : keeps s s1) by (unfold s1; destruct (s_inref s); repeat split).
    assert (Hk1 : kinv b c s1 []).
    { eapply kinv_ext; [exact Hk| | | | | | | | | | |]; unfold s1; destruct (s_inref s); try reflexivity; try (apply (ki_sref _ _ _ _ Hk)); apply incl_refl. } clearbody s1.
    destruct (chan_ready _ _ ref _) as [[z|]|] eqn:Er; [| |discriminate].
    + injection H as <- <-. split; [destruct (is_refresh _); exact H1|]. intros w Ew Hw. injection Ew as <-. exists ref, q. split; [reflexivity|]. symmetry. eapply ready_refresh; eauto. apply Hc.
    + split; [eapply keeps_trans; [exact H1|eapply get_command_keeps; exact H]|]. intros z -> Hz. rewrite (get_command_norefresh _ _ _ _ _ Hc Hk1 H) in Hz. discriminate.
Qed.
Lemma refreshes_app : forall l m, refreshes (l ++ m) = refreshes l ++ refreshes m.
Proof. intros. unfold refreshes. rewrite map_app, filter_app, map_app. reflexivity. Qed.
Lemma schedule_keeps : forall c s, keeps s (schedule c s).
Proof.
  intros c s. assert (Ha : forall s y, keeps s (add_command c s y)) by (intros; unfold add_command; destruct (_ <? _); repeat split).
  unfold schedule. repeat first [destruct (find_trans _ _ _ _) as [[? ?]|] | match goal with |- context [if ?b then _ else _] => destruct b end];
  try (repeat split; fail); match goal with |- keeps _ (add_command c ?x ?y) => eapply keeps_trans; [|apply (Ha x y)]; repeat split end.
Qed.
Lemma clock_tick_r : forall i b c s done s' ys, cfg_ok c -> k_selfref c = false -> refresh_interval c = Some i -> 0 < i < 2 ^ 64 -> 0 <= s_clk s -> good c s -> kinv b c s [] -> rinv i c s done (s_clk s) ->
  clock_tick c s = Some (s', ys) -> rinv i c s' (done ++ at_clk (s_clk s) ys) (s_clk s + 1).
Proof.
  intros i b c s done s' ys Hc Hsr Hint Hi Ht Hg Hk Hr H. unfold clock_tick in H.
  destruct (refresh_tick_ok _ _ _ Hc Hg Hk) as (s0 & E0 & Hk0 & Hg0 & C0). rewrite E0 in H.
  pose proof (refresh_tick_r _ _ _ _ _ Hc Hint Hi Ht Hk Hr _ E0) as R0.
  destruct (pick_ok _ _ _ Hc Hg0 Hk0) as (s1 & y & E1 & X1 & C1 & Hk1 & Hy). rewrite E1 in H.
  destruct (pick_refresh _ _ _ _ _ Hc Hk0 E1) as [K1 P1]. rewrite <- X1 in P1.
  assert (R1 : rinv i c s1 done (s_clk s + 1)).
  { destruct R0 as [A B]. destruct K1 as (K1 & K2 & K3). constructor; [rewrite K1, K2, K3; exact A|rewrite X1; exact B]. }
  assert (Hg1 : good c s1) by (destruct Hg0 as (l0 & Hl0); exists l0; rewrite X1, C1; exact Hl0).
  destruct (match y with None => Some (s1, []) | Some y => issue_cmds c s1 y end) as [[s2 ys2]|] eqn:E2; [|discriminate].
  rewrite Hsr in H. cbn [andb] in H. injection H as <- <-. rewrite app_nil_r.
  assert (Hiss : forall sa done y sb, rinv i c sa done (s_clk s + 1) -> issue c sa y = Some sb ->
            (is_refresh (c_type y) = true -> exists ref q, ch_refq (s_ch sa) = ref :: q /\ ref_key ref = ref_key y) -> rinv i c sb (done ++ at_clk (s_clk s) [y]) (s_clk s + 1)).
  { intros sa d yy sb [A B] E P. destruct (issue_refq _ _ _ _ E) as ((K1' & K2 & K3) & N & Y). constructor; [rewrite K1', K2, K3; exact A|].
    rewrite <- B. rewrite refreshes_app. unfold refreshes at 2, at_clk. cbn [map snd filter]. destruct (is_refresh (c_type yy)) eqn:Ey.
    - destruct (P eq_refl) as (ref & q & Eq & Ek). rewrite (Y eq_refl _ _ Eq Ek), Eq. cbn [map]. rewrite Ek, <- app_assoc. reflexivity.
    - rewrite (N eq_refl). cbn [map]. rewrite app_nil_r. reflexivity. }
  assert (R2 : rinv i c s2 (done ++ at_clk (s_clk s) ys2) (s_clk s + 1)).
  { destruct y as [y|]; [|injection E2 as <- <-; cbn; rewrite app_nil_r; exact R1].
    unfold issue_cmds in E2. destruct (Hy _ eq_refl) as (c0 & Hrd & Ha). rewrite <- X1, <- C1 in Hrd.
    destruct (issue_ok b c s1 y c0 Hc Hg1 Hk1 Hrd Ha) as (sa & Ea & Hka & Hga & _). rewrite Ea in E2.
    pose proof (Hiss _ _ _ _ R1 Ea (P1 _ eq_refl)) as Ra. destruct (k_dual c); [|injection E2 as <- <-; exact Ra].
    destruct (get_command c sa) as [[sb z]|] eqn:Eb; [|discriminate].
    assert (Rb : rinv i c sb (done ++ at_clk (s_clk s) [y]) (s_clk s + 1)).
    { destruct Ra as [A B]. destruct (get_command_keeps _ _ _ _ Eb) as (K1' & K2 & K3). destruct (get_command_from _ _ _ _ Eb) as (Xb & _). constructor; [rewrite K1', K2, K3; exact A|rewrite Xb; exact B]. }
    destruct z as [z|]; [|injection E2 as <- <-; exact Rb]. destruct (negb _); [|injection E2 as <- <-; exact Rb].
    destruct (issue c sb z) as [sd|] eqn:Ed; [|discriminate]. injection E2 as <- <-.
    assert (Rd : rinv i c sd ((done ++ at_clk (s_clk s) [y]) ++ at_clk (s_clk s) [z]) (s_clk s + 1)).
    { eapply Hiss; [exact Rb|exact Ed|]. rewrite (get_command_norefresh _ _ _ _ _ Hc Hka Eb). discriminate. }
    rewrite <- app_assoc in Rd. exact Rd. }
  destruct R2 as [A B]. destruct (schedule_keeps c (with_clk s2 (s_clk s2) (idle_cycles c s2))) as (K1' & K2 & K3). cbn [with_clk s_nrank s_nbg s_nbank] in K1', K2, K3.
  constructor; cbn [with_clk s_nrank s_nbg s_nbank s_ch]; [rewrite K1', K2, K3; exact A|]. destruct (schedule_ch c (with_clk s2 (s_clk s2) (idle_cycles c s2))) as [-> _]. exact B.
Qed.
Lemma rinv0 : forall i c, cfg_ok c -> rinv i c ctrl0 [] 0.
Proof.
  intros i c Hc. destruct (co_geom _ Hc) as [G1 G2 G3]. constructor; [|reflexivity].
  unfold ins. cbn [Z.leb Z.compare]. destruct (k_policy c); [exact I| |]; rewrite Z.mod_0_l.
  - reflexivity.
  - lia.
  - unfold pos. cbn [ctrl0 s_nrank s_nbg s_nbank]. ring.
  - apply Z.neq_sym, Z.lt_neq. repeat apply Z.mul_pos_pos; assumption.
Qed.
Lemma rinv_run : forall i c, cfg_ok c -> k_selfref c = false -> refresh_interval c = Some i -> 0 < i < 2 ^ 64 ->
  forall os s h s' h', 0 <= s_clk s -> good c s -> kinv false c s [] -> rinv i c s (h_cmds h) (s_clk s) -> drun_from c os s h = Some (s', h') -> rinv i c s' (h_cmds h') (s_clk s').
Proof.
  intros i c Hc Hsr Hint Hi. induction os as [|o os IH]; intros s h s' h' Ht Hg Hk Hr H; cbn [drun_from] in H; [injection H as <- <-; exact Hr|].
  destruct (dstep c o s h) as [[s1 h1]|] eqn:E; [|discriminate].
  assert (Hs : 0 <= s_clk s1 /\ good c s1 /\ kinv false c s1 [] /\ rinv i c s1 (h_cmds h1) (s_clk s1)).
  { unfold dstep in E. destruct o as [a w|].
    - destruct (will_accept c s w) eqn:Ew; [|injection E as <- <-; auto]. unfold dram_add in E. rewrite Ew in E. injection E as <- <-. cbn [h_cmds].
      assert (Ex : s_ch (add_trans c s a w) = s_ch s /\ s_clk (add_trans c s a w) = s_clk s /\ keeps s (add_trans c s a w)).
      { unfold add_trans, keeps; destruct w; repeat match goal with |- context [if ?b then _ else _] => destruct b end; auto. }
      destruct Ex as (E1 & E2 & K1 & K2 & K3). rewrite E2. split; [exact Ht|]. split; [destruct Hg as (l & Hl); exists l; rewrite E1, E2; exact Hl|].
      split; [apply add_trans_ok; exact Hk|]. destruct Hr as [A B]. constructor; [rewrite K1, K2, K3; exact A|rewrite E1; exact B].
    - unfold dram_tick in E. destruct (drain _ _ _) as [ret q].
      match type of E with context [clock_tick c ?x] => set (sx := x) in E end.
      assert (Hkx : kinv false c sx []).
      { eapply kinv_ext; [exact Hk| | |reflexivity|reflexivity|reflexivity|reflexivity|reflexivity|reflexivity|reflexivity|reflexivity|reflexivity]; [apply (ki_sref _ _ _ _ Hk)|apply incl_refl]. }
      destruct (clock_tick_ok false c sx Hc Hsr ltac:(discriminate) Hg Hkx) as (s2 & y & E2 & Hk2 & Hg2 & C2). rewrite E2 in E. injection E as <- <-. cbn [h_cmds].
      assert (Hrx : rinv i c sx (h_cmds h) (s_clk sx)) by (destruct Hr as [A B]; constructor; assumption).
      pose proof (clock_tick_r i false c sx (h_cmds h) s2 y Hc Hsr Hint Hi Ht Hg Hkx Hrx E2) as R2. rewrite C2. change (s_clk sx) with (s_clk s) in *. split; [lia|]. auto. }
  destruct Hs as (S1 & S2 & S3 & S4). eapply IH; eauto.
Qed.
