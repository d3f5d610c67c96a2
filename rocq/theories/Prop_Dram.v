(** C46-C50: the DRAM simulator issues legal commands at legal times, refreshes in turn and keeps every transaction. *)
From Coq Require Import ZArith Bool List Lia Permutation.
From Verif Require Import DramBankModel DramCtrlModel DramTimingModel DramSpec DramBankProofs DramTraceProofs DramCtrlProofs DramBooksProofs DramRefreshProofs.
Import ListNotations.
Local Open Scope Z_scope.

(** ** Time *)
Lemma drun_clk : forall c os s h s' h', drun_from c os s h = Some (s', h') -> s_clk s' <= s_clk s + Z.of_nat (length os).
Proof.
  intros c. induction os as [|o os IH]; intros s h s' h' H; cbn [drun_from length] in *; [injection H as <- <-; lia|].
  destruct (dstep c o s h) as [[s1 h1]|] eqn:E; [|discriminate]. apply IH in H.
  assert (Hc : s_clk s1 <= s_clk s + 1); [|lia]. unfold dstep in E. destruct o as [a w|].
  - destruct (will_accept c s w) eqn:Ew; [|injection E as <- <-; lia]. unfold dram_add in E. rewrite Ew in E. injection E as <- <-.
    destruct (add_trans_books c s a w) as [_ E]. lia.
  - unfold dram_tick in E. destruct (drain _ _ _) as [ret q]. destruct (clock_tick _ _) as [[s2 y]|] eqn:Ec; [|discriminate]. injection E as <- <-.
    unfold clock_tick in Ec. destruct (refresh_tick _ _) as [s0|] eqn:E0; [|discriminate]. apply refresh_tick_ch in E0. destruct E0 as [C0 _].
    destruct (pick c s0) as [[s3 z]|] eqn:E1; [|discriminate]. apply pick_from in E1. destruct E1 as (_ & C1 & _).
    destruct (match z with None => _ | Some z => _ end) as [[s4 ys]|] eqn:E2; [|discriminate].
    assert (C2 : s_clk s4 = s_clk s3).
    { destruct z as [z|]; [|injection E2 as <- <-; reflexivity]. unfold issue_cmds in E2. destruct (issue c s3 z) as [s5|] eqn:E5; [|discriminate]. apply issue_from in E5. destruct E5 as [C5 _].
      destruct (k_dual c); [|injection E2 as <- <-; exact C5]. destruct (get_command c s5) as [[s6 [w|]]|] eqn:E6; [| |discriminate]; apply get_command_from in E6; destruct E6 as (_ & C6 & _).
      - destruct (negb _); [|injection E2 as <- <-; congruence]. destruct (issue c s6 w) as [s7|] eqn:E7; [|discriminate]. apply issue_from in E7. destruct E7 as [C7 _]. injection E2 as <- <-. congruence.
      - injection E2 as <- <-. congruence. }
    match type of Ec with context [self_refresh c ?x ?l] => destruct (if k_selfref c && _ then self_refresh c x l else Some (x, [])) as [[s8 y8]|] eqn:E8; [|discriminate] end.
    assert (C8 : s_clk s8 = s_clk s4).
    { assert (Hs : forall l x x' ys, self_refresh c x l = Some (x', ys) -> s_clk x' = s_clk x).
      { induction l as [|i l IHl]; intros x x' ys' Hx; cbn [self_refresh] in Hx; [injection Hx as <- <-; reflexivity|].
        assert (Hq : forall r, match r with None => None | Some None => self_refresh c x l | Some (Some y) => match issue c x y with None => None | Some s' => Some (s', [y]) end end = Some (x', ys') -> s_clk x' = s_clk x).
        { intros [[yy|]|] Hr; [| |discriminate]. - destruct (issue c x yy) as [xx|] eqn:Ei; [|discriminate]. apply issue_from in Ei. injection Hr as <- <-. apply Ei. - eapply IHl; exact Hr. }
        destruct (ch_sref (s_ch x) i); [destruct (negb (s_rank_empty x i))|destruct (s_rank_empty x i && (k_sref_threshold c <=? s_idle x i))]; try (eapply IHl; exact Hx); eapply Hq; exact Hx. }
      destruct (_ && _); [apply Hs in E8; exact E8|injection E8 as <- <-; reflexivity]. }
    injection Ec as <- <-. cbn [with_clk s_clk]. destruct (schedule_ch c s8) as [_ ->]. cbn [with_trans s_clk] in C0. lia.
Qed.
Lemma issue_time : forall c os s h t y, geom_ok (k_g c) -> drun c os = Some (s, h) -> In (t, y) (h_cmds h) -> 0 <= t <= Z.of_nat (length os).
Proof.
  intros c os s h t y Hg H Hin. pose proof (drun_clk _ _ _ _ _ _ H) as Hc. cbn [ctrl0 s_clk] in Hc.
  destruct (ci_time _ _ _ _ (ctrace_inv _ _ _ _ Hg (drun_trace _ _ _ _ H))) as [_ T]. specialize (T _ _ Hin). lia.
Qed.

(** ** Configurations for the examples *)
(** The timing of HBM2_8Gb_x128. *)
Definition ex_params : params := {| p_burst := 2; p_ccd_l := 2; p_ccd_s := 1; p_rtrs := 2; p_AL := 0; p_CL := 14; p_CWL := 4; p_rtp := 5; p_rp := 14; p_wtr_l := 8; p_wtr_s := 6;
  p_wr := 16; p_tppd := 0; p_rrd_l := 6; p_rrd_s := 4; p_ras := 34; p_rcd := 10; p_rcdrd := 14; p_rcdwr := 14; p_refi := 3900; p_rfc := 260; p_rfcb := 20;
  p_ckesr := 12; p_xs := 268; p_bgs := 4; p_split_rcd := true; p_ppd := false |}.
(** The same with a shorter interval between refreshes. *)
Definition ex_fast : params := {| p_burst := 2; p_ccd_l := 2; p_ccd_s := 1; p_rtrs := 2; p_AL := 0; p_CL := 14; p_CWL := 4; p_rtp := 5; p_rp := 14; p_wtr_l := 8; p_wtr_s := 6;
  p_wr := 16; p_tppd := 0; p_rrd_l := 6; p_rrd_s := 4; p_ras := 34; p_rcd := 10; p_rcdrd := 14; p_rcdwr := 14; p_refi := 40; p_rfc := 30; p_rfcb := 20;
  p_ckesr := 12; p_xs := 268; p_bgs := 4; p_split_rcd := true; p_ppd := false |}.
Definition ex_geom (p : params) (gddr : bool) (r j k : Z) : geom := {| g_ranks := r; g_bgs := j; g_bpg := k; g_t := make_timing p; g_faw := 30; g_32aw := 330; g_gddr := gddr |}.
Definition ex_decode (g : geom) (a : Z) : addr :=
  {| a_rank := a mod g_ranks g; a_bg := (a / g_ranks g) mod g_bgs g; a_bank := (a / (g_ranks g * g_bgs g)) mod g_bpg g; a_row := a / (g_ranks g * g_bgs g * g_bpg g); a_col := 0 |}.
Definition ex_cfg (g : geom) (pol : rpolicy) (sr unified : bool) : kcfg :=
  {| k_g := g; k_decode := ex_decode g; k_per_bank := true; k_cmdq := 8; k_transq := 32; k_unified := unified; k_close_page := false; k_policy := pol;
     k_refi := 40; k_refib := 40; k_selfref := sr; k_sref_threshold := 5; k_dual := true; k_read_delay := 16 |}.
Definition ticks (n : nat) : list dop := repeat DTick n.
Lemma ex_cfg_ok : forall p gd r j k pol sr u, 0 < r <= 4 -> 0 < j -> 0 < k -> cfg_ok (ex_cfg (ex_geom p gd r j k) pol sr u).
Proof.
  intros p gd r j k pol sr u Hr Hj Hk. constructor.
  - constructor; cbn [ex_cfg ex_geom k_g g_ranks g_bgs g_bpg]; lia.
  - intro a. apply in_geom_ok. cbn [ex_cfg k_decode k_g ex_decode a_rank a_bg a_bank ex_geom g_ranks g_bgs g_bpg]. unfold bank_in. cbn [g_ranks g_bgs g_bpg]. split; [|split]; apply Z.mod_pos_bound; cbn; lia.
  - intros i Hi. unfold refresh_interval in Hi. cbn [ex_cfg k_policy k_refi k_refib k_g ex_geom g_ranks] in Hi. destruct pol; try (injection Hi as <-; discriminate).
    destruct (r =? 0) eqn:E; [apply Z.eqb_eq in E; lia|]. injection Hi as <-. rewrite Z.quot_div_nonneg by lia. assert (1 <= 40 / r) by (apply Z.div_le_lower_bound; lia). lia.
Qed.
Definition ex1 : kcfg := ex_cfg (ex_geom ex_params false 1 4 4) RANK_STAGGERED false false.
Definition ex1_ops : list dop := [DOffer 0 false; DOffer 16 false; DOffer 4 false; DOffer 1 false; DOffer 5 false; DOffer 9 false; DOffer 1 true; DOffer 1 false] ++ ticks 120.
Definition cmds_of (x : option (ctrl * hist)) : list (Z * ctype * Z) :=
  match x with None => [] | Some (_, h) => map (fun tc => (fst tc, c_type (snd tc), a_row (c_addr (snd tc)))) (h_cmds h) end.

Lemma run_is : forall (A : Type) (x : option (ctrl * hist)) (f : ctrl -> hist -> A) v, match x with Some (s, h) => Some (f s h) | None => None end = Some v -> exists s h, x = Some (s, h) /\ f s h = v.
Proof. intros A [[s h]|] f v H; [|discriminate]. injection H as H. exists s, h. auto. Qed.

(** ** C46 *)
(** Every command issued is legal in the state that the commands before it have put each bank into. *)
Theorem C46_legal : forall c os s h, geom_ok (k_g c) -> drun c os = Some (s, h) ->
  forall l1 t y l2, h_cmds h = l1 ++ (t, y) :: l2 ->
  forall r j k, bank_in (k_g c) r j k -> concerns y r j k = true -> legal y (status_of l1 r j k).
Proof. intros c os s h Hg H l1 t y l2 E r j k Hb Hc. eapply ctrace_legal; eauto. eapply drun_trace. exact H. Qed.
Print Assumptions C46_legal.
Example C46_legal_ex : exists s h, drun ex1 ex1_ops = Some (s, h) /\
  cmds_of (Some (s, h)) = [(1, ACT, 0); (5, ACT, 0); (9, ACT, 0); (13, ACT, 0); (15, READ, 0); (19, READ, 0); (23, READ, 0); (27, READ, 0); (31, ACT, 0); (35, PRE, 1);
     (40, PRE, -1); (43, PRE, -1); (47, PRE, -1); (65, PRE, -1); (79, REF, -1)].
Proof. apply (run_is _ _ (fun s h => cmds_of (Some (s, h)))). vm_compute. reflexivity. Qed.
(** No bank aborts the simulation, and no other check does, when ranks are not put to sleep. *)
Theorem C46_no_abort : forall c os, cfg_ok c -> k_selfref c = false -> drun c os <> None.
Proof.
  intros c os Hc Hs. destruct (drun_from_ok false c Hc Hs os ctrl0 hist0 ltac:(discriminate) (good0 c) (kinv0 false c Hc)) as (s & h & E & _). unfold drun. congruence.
Qed.
Print Assumptions C46_no_abort.
Example C46_no_abort_ex : cfg_ok ex1 /\ k_selfref ex1 = false /\ (length (match drun ex1 ex1_ops with Some (_, h) => h_ret h | None => [] end) = 6)%nat.
Proof. split; [apply ex_cfg_ok; lia|]. split; [reflexivity|vm_compute; reflexivity]. Qed.
(** A rank that is asleep when a transaction arrives is asked for SREF_EXIT as for a command to be made ready, which aborts. *)
Theorem C46_refuted : exists c os, cfg_ok c /\ k_selfref c = true /\ drun c os = None.
Proof.
  exists (ex_cfg (ex_geom ex_params false 1 1 1) RANK_STAGGERED true false), (ticks 8 ++ [DOffer 0 false; DTick; DTick]).
  split; [apply ex_cfg_ok; lia|]. split; [reflexivity|vm_compute; reflexivity].
Qed.
Print Assumptions C46_refuted.

(** ** C47 *)
(** A command waits for every delay that an earlier command has imposed on a bank it needs. *)
Theorem C47_delay : forall c os s h, geom_ok (k_g c) -> drun c os = Some (s, h) ->
  forall l1 t1 y1 l2 t2 y2 l3, h_cmds h = l1 ++ (t1, y1) :: l2 ++ (t2, y2) :: l3 ->
  forall r j k d, bank_in (k_g c) r j k -> waits_for y2 r j k -> In (c_type y2, d) (delays_on (g_t (k_g c)) y1 r j k) ->
  0 <= t1 + d -> Z.of_nat (length os) + d < 2 ^ 64 -> t1 + d <= t2.
Proof.
  intros c os s h Hg H l1 t1 y1 l2 t2 y2 l3 E r j k d Hb Hw Hd H0 H1.
  assert (Ht : 0 <= t1 <= Z.of_nat (length os)) by (eapply issue_time; eauto; rewrite E; apply in_or_app; right; left; reflexivity).
  rewrite <- (u64_id (t1 + d)) by lia. eapply ctrace_delay; eauto. eapply drun_trace. exact H.
Qed.
Print Assumptions C47_delay.
(** In the run of C46_legal_ex the read waits for tRCDRD after the activation of its bank, another read of a bank of the group for tCCD_L. *)
Example C47_delay_ex : let y1 := {| c_type := ACT; c_addr := ex_decode (k_g ex1) 0; c_hex := 0 |} in let y2 := {| c_type := READ; c_addr := ex_decode (k_g ex1) 0; c_hex := 0 |} in
  exists s h l2 l3, drun ex1 ex1_ops = Some (s, h) /\ h_cmds h = (1, y1) :: l2 ++ (15, y2) :: l3 /\ bank_in (k_g ex1) 0 0 0 /\ waits_for y2 0 0 0 /\
    In (READ, 14) (delays_on (g_t (k_g ex1)) y1 0 0 0).
Proof.
  cbn zeta. destruct (run_is _ (drun ex1 ex1_ops) (fun _ h => h_cmds h) _ ltac:(vm_compute; reflexivity)) as (s & h & E & F).
  exists s, h, (firstn 3 (skipn 1 (h_cmds h))), (skipn 5 (h_cmds h)). split; [exact E|].
  split; [rewrite F; reflexivity|]. split; [unfold bank_in; cbn; lia|]. split; [split; [reflexivity|auto]|vm_compute; auto].
Qed.
(** The delay tRFCb after the refresh of a bank is put into the table for commands to ranks, which is not consulted for a command to a bank. *)
Theorem C47_refuted : exists c os s h l1 t1 y1 l2 t2 y2 l3 d, cfg_ok c /\ drun c os = Some (s, h) /\ h_cmds h = l1 ++ (t1, y1) :: l2 ++ (t2, y2) :: l3 /\
  c_type y1 = REF_BANK /\ c_type y2 = ACT /\ same_bank (c_addr y1) (c_addr y2) = true /\ In (c_type y2, d) (t_rank (g_t (k_g c)) (c_type y1)) /\ t2 < t1 + d.
Proof.
  set (c := ex_cfg (ex_geom ex_params false 1 1 1) BANK_STAGGERED false false). set (os := ticks 40 ++ [DTick; DOffer 0 false; DTick; DTick]).
  destruct (run_is _ (drun c os) (fun _ h => h_cmds h) _ ltac:(vm_compute; reflexivity)) as (s & h & E & F).
  exists c, os, s, h, [], 40, (ref_bank (0, 0, 0)), [], 42, {| c_type := ACT; c_addr := ex_decode (k_g c) 0; c_hex := 0 |}, [], 20.
  split; [apply ex_cfg_ok; lia|]. split; [exact E|]. split; [exact F|]. split; [reflexivity|]. split; [reflexivity|]. split; [reflexivity|]. split; [vm_compute; auto|reflexivity].
Qed.
Print Assumptions C47_refuted.

(** ** C48 *)
(** The fifth activation of a rank comes no earlier than tFAW after the first. *)
Theorem C48_faw : forall c os s h, geom_ok (k_g c) -> drun c os = Some (s, h) -> 0 <= g_faw (k_g c) -> Z.of_nat (length os) + g_faw (k_g c) < 2 ^ 64 ->
  forall r l1 x l2 y l3, activations r (h_cmds h) = l1 ++ x :: l2 ++ y :: l3 -> length l2 = 3%nat -> x + g_faw (k_g c) <= y.
Proof.
  intros c os s h Hg H H0 H1 r l1 x l2 y l3 E El.
  destruct (ctrace_faw _ _ _ _ Hg H0 (drun_trace _ _ _ _ H) r) as (P & W & _ & _ & _ & _ & HS).
  - intros z Hz. apply activations_in in Hz. destruct Hz as (y0 & Hz). pose proof (issue_time _ _ _ _ _ _ Hg H Hz). lia.
  - eapply HS; eauto.
Qed.
Print Assumptions C48_faw.
Example C48_faw_ex : exists s h, drun ex1 ex1_ops = Some (s, h) /\ activations 0 (h_cmds h) = [] ++ 1 :: [5; 9; 13] ++ 31 :: [].
Proof. apply (run_is _ _ (fun _ h => activations 0 (h_cmds h))). vm_compute. reflexivity. Qed.
(** With GDDR the 33rd activation of a rank comes no earlier than t32AW after the first. *)
Theorem C48_32aw : forall c os s h, geom_ok (k_g c) -> g_gddr (k_g c) = true -> drun c os = Some (s, h) -> 0 <= g_32aw (k_g c) -> Z.of_nat (length os) + g_32aw (k_g c) < 2 ^ 64 ->
  forall r l1 x l2 y l3, activations r (h_cmds h) = l1 ++ x :: l2 ++ y :: l3 -> length l2 = 31%nat -> x + g_32aw (k_g c) <= y.
Proof.
  intros c os s h Hg Hgd H H0 H1 r l1 x l2 y l3 E El.
  destruct (ctrace_32aw _ _ _ _ Hg H0 Hgd (drun_trace _ _ _ _ H) r) as (P & W & _ & _ & _ & _ & HS).
  - intros z Hz. apply activations_in in Hz. destruct Hz as (y0 & Hz). pose proof (issue_time _ _ _ _ _ _ Hg H Hz). lia.
  - eapply HS; eauto.
Qed.
Print Assumptions C48_32aw.
(** 33 banks of a rank are activated; without the second window the last would be 240 cycles after the first. *)
Definition ex2 : kcfg := let g := ex_geom ex_params true 1 4 9 in
  {| k_g := g; k_decode := ex_decode g; k_per_bank := true; k_cmdq := 8; k_transq := 64; k_unified := false; k_close_page := false; k_policy := RANK_STAGGERED;
     k_refi := 4000; k_refib := 40; k_selfref := false; k_sref_threshold := 5; k_dual := false; k_read_delay := 16 |}.
Definition ex2_ops : list dop := map (fun n => DOffer (Z.of_nat n) false) (seq 0 33) ++ ticks 345.
Example C48_32aw_ex : geom_ok (k_g ex2) /\ g_gddr (k_g ex2) = true /\ exists s h x l2 y, drun ex2 ex2_ops = Some (s, h) /\ activations 0 (h_cmds h) = [] ++ x :: l2 ++ y :: [] /\ length l2 = 31%nat /\ y = x + 330.
Proof.
  split; [constructor; cbn; lia|]. split; [reflexivity|]. 
  destruct (run_is _ (drun ex2 ex2_ops) (fun _ h => activations 0 (h_cmds h)) _ ltac:(vm_compute; reflexivity)) as (s & h & E & F).
  exists s, h, 1, (firstn 31 (skipn 1 (activations 0 (h_cmds h)))), 331. split; [exact E|]. rewrite F. vm_compute. auto.
Qed.

(** ** C49 *)
(** What was asked for is what was issued and then what is still in the queue, in order, and it is asked for as due. *)
Theorem C49_served : forall c os s h i, cfg_ok c -> k_selfref c = false -> refresh_interval c = Some i -> 0 < i < 2 ^ 64 -> drun c os = Some (s, h) ->
  refreshes (h_cmds h) ++ map ref_key (ch_refq (s_ch s)) = map ref_key (flat_map (due c i) (zseq (s_clk s))).
Proof.
  intros c os s h i Hc Hs Hint Hi H. apply (ri_log i c s (h_cmds h) (s_clk s)).
  eapply (rinv_run i c Hc Hs Hint Hi os ctrl0 hist0); [cbn; lia|apply good0|apply kinv0; exact Hc|apply rinv0; exact Hc|exact H].
Qed.
Print Assumptions C49_served.
Example C49_served_ex : let c := ex_cfg (ex_geom ex_fast false 1 2 2) BANK_STAGGERED false false in
  cfg_ok c /\ refresh_interval c = Some 40 /\ exists s h, drun c (ticks 170) = Some (s, h) /\
  refreshes (h_cmds h) = map ref_key (map ref_bank [(0, 0, 0); (0, 1, 0); (0, 0, 1); (0, 1, 1)]).
Proof. cbn zeta. split; [apply ex_cfg_ok; lia|]. split; [reflexivity|]. apply (run_is _ _ (fun _ h => refreshes (h_cmds h))). vm_compute. reflexivity. Qed.
(** Staggered over ranks: as many intervals as ranks ask each rank once. *)
Theorem C49_ranks : forall c i m, geom_ok (k_g c) -> k_policy c = RANK_STAGGERED -> 0 < i -> 0 <= m ->
  Permutation (round c i m (g_ranks (k_g c))) (map ref_rank (all_ranks (k_g c))).
Proof. exact round_ranks. Qed.
Print Assumptions C49_ranks.
Example C49_ranks_ex : round (ex_cfg (ex_geom ex_params false 4 1 1) RANK_STAGGERED false false) 10 2 4 = map ref_rank [2; 3; 0; 1].
Proof. reflexivity. Qed.
(** Staggered over banks: as many intervals as banks ask each bank once. *)
Theorem C49_banks : forall c i m, geom_ok (k_g c) -> k_policy c = BANK_STAGGERED -> 0 < i -> 0 <= m ->
  Permutation (round c i m (g_ranks (k_g c) * (g_bgs (k_g c) * g_bpg (k_g c)))) (map ref_bank (all_banks (k_g c))).
Proof. exact round_banks. Qed.
Print Assumptions C49_banks.
Example C49_banks_ex : round (ex_cfg (ex_geom ex_params false 2 2 2) BANK_STAGGERED false false) 40 3 8 =
  map ref_bank [(0, 1, 1); (1, 0, 0); (1, 1, 0); (1, 0, 1); (1, 1, 1); (0, 0, 0); (0, 1, 0); (0, 0, 1)].
Proof. reflexivity. Qed.
(** The simultaneous policy asks only the first rank. *)
Theorem C49_refuted : forall c os s h i, cfg_ok c -> k_selfref c = false -> k_policy c = RANK_SIMULTANEOUS -> refresh_interval c = Some i -> 0 < i < 2 ^ 64 -> drun c os = Some (s, h) ->
  forall t y, In (t, y) (h_cmds h) -> is_refresh (c_type y) = true -> a_rank (c_addr y) = 0.
Proof.
  intros c os s h i Hc Hs Hp Hint Hi H t y Hin Hy. pose proof (C49_served _ _ _ _ _ Hc Hs Hint Hi H) as E.
  assert (Hk : In (ref_key y) (map ref_key (flat_map (due c i) (zseq (s_clk s))))).
  { rewrite <- E. apply in_or_app. left. unfold refreshes. apply in_map. apply filter_In. split; [|exact Hy]. apply in_map_iff. exists (t, y). auto. }
  apply in_map_iff in Hk. destruct Hk as (z & Ez & Hz). apply in_flat_map in Hz. destruct Hz as (u & _ & Hz). unfold due in Hz. rewrite Hp in Hz. destruct (_ && _); [|destruct Hz].
  destruct Hz as [<-|[]]. unfold ref_key in Ez. injection Ez as _ Ez. rewrite <- Ez. reflexivity.
Qed.
Print Assumptions C49_refuted.
Example C49_refuted_ex : let c := ex_cfg (ex_geom ex_params false 2 1 1) RANK_SIMULTANEOUS false false in
  cfg_ok c /\ exists s h, drun c (ticks 400) = Some (s, h) /\ refreshes (h_cmds h) = map ref_key [ref_rank 0; ref_rank 0].
Proof. cbn zeta. split; [apply ex_cfg_ok; lia|]. apply (run_is _ _ (fun _ h => refreshes (h_cmds h))). vm_compute. reflexivity. Qed.

(** Refreshes of different banks of a rank are tREFI apart, although they are asked for every tREFIb. *)
Theorem C49_spacing : forall p c os s h, geom_ok (k_g c) -> g_t (k_g c) = make_timing p -> 0 <= p_refi p -> Z.of_nat (length os) + p_refi p < 2 ^ 64 -> drun c os = Some (s, h) ->
  forall l1 t1 y1 l2 t2 y2 l3, h_cmds h = l1 ++ (t1, y1) :: l2 ++ (t2, y2) :: l3 -> c_type y1 = REF_BANK -> c_type y2 = REF_BANK -> in_geom (k_g c) (c_addr y2) = true ->
  a_rank (c_addr y1) = a_rank (c_addr y2) -> (a_bg (c_addr y1), a_bank (c_addr y1)) <> (a_bg (c_addr y2), a_bank (c_addr y2)) -> t1 + p_refi p <= t2.
Proof.
  intros p c os s h Hg Ht H0 H1 H l1 t1 y1 l2 t2 y2 l3 E E1 E2 Hin Er Hne.
  assert (Ht1 : 0 <= t1 <= Z.of_nat (length os)) by (eapply issue_time; eauto; rewrite E; apply in_or_app; right; left; reflexivity).
  eapply (C47_delay c os s h Hg H _ _ _ _ _ _ _ E (a_rank (c_addr y2)) (a_bg (c_addr y2)) (a_bank (c_addr y2))); [apply in_geom_ok; exact Hin|split; auto| |lia|lia].
  unfold delays_on. rewrite E1, E2, Ht, Er, Z.eqb_refl. cbn [is_rank].
  destruct (Z.eqb_spec (a_bg (c_addr y2)) (a_bg (c_addr y1))) as [Eb|Eb]; [destruct (Z.eqb_spec (a_bank (c_addr y2)) (a_bank (c_addr y1))) as [Ek|Ek]|];
    [exfalso; apply Hne; congruence| |]; cbn [make_timing t_same_group t_same_rank_bg]; right; left; reflexivity.
Qed.
Print Assumptions C49_spacing.
(** After twelve intervals one refresh of a bank has been issued and eleven are waiting. *)
Theorem C49_lag_refuted : exists c s h i, cfg_ok c /\ k_selfref c = false /\ k_policy c = BANK_STAGGERED /\ refresh_interval c = Some i /\ drun c (ticks 500) = Some (s, h) /\
  s_clk s / i = 12 /\ length (refreshes (h_cmds h)) = 1%nat /\ length (ch_refq (s_ch s)) = 11%nat.
Proof.
  set (c := ex_cfg (ex_geom ex_params false 1 2 2) BANK_STAGGERED false false).
  destruct (run_is _ (drun c (ticks 500)) (fun s h => (s_clk s / 40, length (refreshes (h_cmds h)), length (ch_refq (s_ch s)))) _ ltac:(vm_compute; reflexivity)) as (s & h & E & F).
  injection F as F1 F2 F3. exists c, s, h, 40. split; [apply ex_cfg_ok; lia|]. auto 10.
Qed.
Print Assumptions C49_lag_refuted.
Example C49_spacing_ex : let c := ex_cfg (ex_geom ex_fast false 1 2 2) BANK_STAGGERED false false in
  exists s h, drun c (ticks 170) = Some (s, h) /\ map (fun tc => (fst tc, c_addr (snd tc))) (h_cmds h) = map (fun tb => (fst tb, c_addr (ref_bank (snd tb)))) [(40, (0, 0, 0)); (80, (0, 1, 0)); (120, (0, 0, 1)); (160, (0, 1, 1))].
Proof. cbn zeta. apply (run_is _ _ (fun _ h => map (fun tc => (fst tc, c_addr (snd tc))) (h_cmds h))). vm_compute. reflexivity. Qed.

(** ** C50 *)
(** Every transaction accepted has been returned, is waiting to be returned, or is a read that is pending: once. *)
Theorem C50_conservation : forall c os s h, drun c os = Some (s, h) -> Permutation (h_added h) (map key (h_ret h ++ s_ret s ++ s_prd s)).
Proof. intros c os s h H. rewrite map_app. apply (bi_perm _ _ (binv_run _ _ _ _ _ _ binv0 H)). Qed.
Print Assumptions C50_conservation.
Example C50_conservation_ex : exists s h, drun ex1 ex1_ops = Some (s, h) /\ length (h_added h) = 8%nat /\ map key (h_ret h) = [(1, 0, true); (1, 0, false); (0, 0, false); (1, 0, false); (4, 0, false); (5, 0, false)] /\
   map key (s_prd s) = [(16, 0, false); (9, 0, false)].
Proof.
  destruct (run_is _ (drun ex1 ex1_ops) (fun s h => (length (h_added h), map key (h_ret h), map key (s_prd s))) _ ltac:(vm_compute; reflexivity)) as (s & h & E & F).
  injection F as F1 F2 F3. exists s, h. auto.
Qed.
(** Writes are returned in the order in which they were accepted. *)
Theorem C50_writes : forall c os s h, drun c os = Some (s, h) -> filter snd (h_added h) = map key (filter t_write (h_ret h ++ s_ret s)).
Proof. intros c os s h H. apply (bi_wr _ _ (binv_run _ _ _ _ _ _ binv0 H)). Qed.
Print Assumptions C50_writes.
Example C50_writes_ex : let os := [DOffer 0 true; DOffer 16 true; DOffer 7 false; DTick; DOffer 0 true; DTick; DOffer 3 true] in
  exists s h, drun ex1 os = Some (s, h) /\ map key (filter t_write (h_ret h)) = [(0, 0, true); (16, 0, true)] /\ map key (filter t_write (s_ret s)) = [(0, 1, true); (3, 2, true)].
Proof.
  cbn zeta. match goal with |- context [drun ex1 ?os] => destruct (run_is _ (drun ex1 os) (fun s h => (map key (filter t_write (h_ret h)), map key (filter t_write (s_ret s)))) _ ltac:(vm_compute; reflexivity)) as (s & h & E & F) end.
  injection F as F1 F2. exists s, h. auto.
Qed.
(** For each address with a pending transaction there is exactly one transaction or command waiting to be executed, for the others there is none. *)
Theorem C50_served : forall c os s h, cfg_ok c -> k_selfref c = false -> (k_dual c = true -> rw_gap (k_g c)) -> Z.of_nat (length os) < 2 ^ 63 -> drun c os = Some (s, h) ->
  forall w a, entries c s w a = if has_addr a (if w then s_pwr s else s_prd s) then 1%nat else 0%nat.
Proof.
  intros c os s h Hc Hs Hgap Hl H w a.
  destruct (drun_from_ok true c Hc Hs os ctrl0 hist0) as (s' & h' & E & Hk & _).
  - intros _ Hd. split; [apply Hgap; exact Hd|cbn [ctrl0 s_clk]; lia].
  - apply good0.
  - apply kinv0. exact Hc.
  - unfold drun in H. rewrite E in H. injection H as -> ->. rewrite total_entries. pose proof (ki_le _ _ _ _ Hk w a) as H1. pose proof (ki_ge _ _ _ _ Hk eq_refl w a) as H2.
    unfold pending, b2n in *. destruct (has_addr a _); lia.
Qed.
Print Assumptions C50_served.
(** The tables have the gap for one rank. *)
Theorem C50_gap : forall p g, g_t g = make_timing p -> g_ranks g = 1 -> 1 <= p_burst p < 2 ^ 24 -> 1 <= p_CL p - p_CWL p + p_burst p + p_rtrs p -> 1 <= p_AL p + p_CWL p + p_burst p + p_wtr_s p -> 1 <= p_AL p + p_CWL p + p_burst p + p_wtr_l p ->
  (forall x, In x [p_CL p; p_CWL p; p_AL p; p_rtrs p; p_wtr_s p; p_wtr_l p; p_ccd_l p; p_ccd_s p] -> - 2 ^ 24 < x < 2 ^ 24) -> rw_gap g.
Proof.
  intros p g Ht Hr Hb H1 H2 H3 Hx t u Et Eu. rewrite Ht.
  assert (B : forall x, In x [p_CL p; p_CWL p; p_AL p; p_rtrs p; p_wtr_s p; p_wtr_l p; p_ccd_l p; p_ccd_s p] -> - 16777216 < x < 16777216) by (intros x Hi; apply Hx in Hi; lia).
  pose proof (B (p_CL p) ltac:(cbn; tauto)). pose proof (B (p_CWL p) ltac:(cbn; tauto)). pose proof (B (p_AL p) ltac:(cbn; tauto)). pose proof (B (p_rtrs p) ltac:(cbn; tauto)).
  pose proof (B (p_wtr_s p) ltac:(cbn; tauto)). pose proof (B (p_wtr_l p) ltac:(cbn; tauto)). pose proof (B (p_ccd_l p) ltac:(cbn; tauto)). pose proof (B (p_ccd_s p) ltac:(cbn; tauto)). clear B Hx.
  change (2 ^ 24) with 16777216 in Hb.
  assert (Hg : forall l d, In (u, d) l -> 1 <= d < 2 ^ 31 -> gap_in u l) by (intros l d Hi Hd; exists d; auto).
  split; [|split; [|split; [|lia]]].
  - intros [-> | ->]; destruct u; try discriminate; unfold make_timing; cbn [t_same_bank app]; unfold write_delay;
      (eapply Hg; [first [left; reflexivity|right; left; reflexivity|right; right; left; reflexivity|right; right; right; left; reflexivity]|]; destruct (p_bgs p =? 1); lia).
  - intros _. destruct t; try discriminate; destruct u; try discriminate; unfold make_timing; cbn [t_same_group app]; unfold write_delay;
      (eapply Hg; [first [left; reflexivity|right; left; reflexivity|right; right; left; reflexivity|right; right; right; left; reflexivity]|]; destruct (p_bgs p =? 1); lia).
  - intros _. destruct t; try discriminate; destruct u; try discriminate; unfold make_timing; cbn [t_same_rank_bg app]; unfold write_delay;
      (eapply Hg; [first [left; reflexivity|right; left; reflexivity|right; right; left; reflexivity|right; right; right; left; reflexivity]|]; destruct (p_bgs p =? 1); lia).
Qed.
Print Assumptions C50_gap.
Example C50_served_ex : rw_gap (k_g ex1) /\ exists s h, drun ex1 (ex1_ops ++ [DOffer 2 true]) = Some (s, h) /\ entries ex1 s false 16 = 1%nat /\ entries ex1 s true 2 = 1%nat.
Proof.
  split; [apply (C50_gap ex_params); try reflexivity; try (cbn; lia); cbn; intros x Hx; intuition lia|].
  destruct (run_is _ (drun ex1 (ex1_ops ++ [DOffer 2 true])) (fun s h => (entries ex1 s false 16, entries ex1 s true 2)) _ ltac:(vm_compute; reflexivity)) as (s & h & E & F).
  injection F as F1 F2. exists s, h. auto.
Qed.
(** With two ranks, dual commands and a write latency shorter than the read latency, a read is taken out of its queue and not issued. *)
Theorem C50_refuted : exists c os s h a, cfg_ok c /\ k_selfref c = false /\ k_dual c = true /\ drun c os = Some (s, h) /\ has_addr a (s_prd s) = true /\ entries c s false a = 0%nat.
Proof.
  set (p := {| p_burst := 2; p_ccd_l := 2; p_ccd_s := 1; p_rtrs := 2; p_AL := 0; p_CL := 14; p_CWL := 4; p_rtp := 5; p_rp := 14; p_wtr_l := 8; p_wtr_s := 6;
    p_wr := 16; p_tppd := 0; p_rrd_l := 6; p_rrd_s := 4; p_ras := 34; p_rcd := 10; p_rcdrd := 14; p_rcdwr := 15; p_refi := 3900; p_rfc := 260; p_rfcb := 20;
    p_ckesr := 12; p_xs := 268; p_bgs := 4; p_split_rcd := true; p_ppd := false |}).
  set (c := ex_cfg (ex_geom p false 2 1 1) RANK_STAGGERED false true). set (os := [DOffer 0 true; DOffer 1 false] ++ ticks 18).
  destruct (run_is _ (drun c os) (fun s h => (has_addr 1 (s_prd s), entries c s false 1)) _ ltac:(vm_compute; reflexivity)) as (s & h & E & F). injection F as F1 F2.
  exists c, os, s, h, 1. split; [apply ex_cfg_ok; lia|]. auto.
Qed.
Print Assumptions C50_refuted.
