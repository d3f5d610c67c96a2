(** The engine sends every result it owes. *)
From Coq Require Import ZArith Arith Bool List Lia.
From Verif Require Import StreamSpec MvmModel MvmSpec MvmProofs MvmRun.
Import ListNotations.
Open Scope nat_scope.

Section Progress.
Variable P : mparams.
Let n := m_dim P.
Let fsz := m_fifo P.
Variable prog : list inst.
Variable W : list (list vec).
Let depth := m_depth P.
Hypothesis F : fits P prog W.
Notation istep := (istep n depth prog W).
Notation runs := (runs n depth prog W).
Notation faulty := (faulty n depth prog W).
Notation begun := (begun n).
Notation inv := (inv P prog W).
Notation clean := (clean P prog W).

(** ** Instructions are deterministic *)
Lemma runs_det : forall s k' os' st', runs s k' os' st' -> forall k os st, runs s k os st -> k <= k' ->
  (k = k' -> os = os' /\ st = st') /\ (exists q, os' = os ++ q) /\ (k < k' -> exists s1 o, istep st = Go s1 o).
Proof.
  intros s k' os' st' H. induction H as [|k' os' st1 o st' H IH E]; intros k os st R L.
  - assert (k = 0) as -> by lia. inversion R; subst. split; [auto|]. split; [exists []; reflexivity|lia].
  - destruct (Nat.eq_dec k (S k')) as [-> |N].
    + inversion R as [|k2 os2 s2 o2 s3 R2 E2]; subst. destruct (IH _ _ _ R2 (Nat.le_refl _)) as [A _]. destruct (A eq_refl) as [-> ->]. rewrite E in E2. injection E2 as <- <-.
      split; [auto|]. split; [exists []; rewrite app_nil_r; reflexivity|lia].
    + destruct (IH k os st R) as [A [[q B] C]]; [lia|]. split; [lia|]. split; [exists (q ++ o); rewrite B, app_assoc; reflexivity|]. intros _.
      destruct (Nat.eq_dec k k') as [-> |N2]; [|apply C; lia]. destruct (A eq_refl) as [-> ->]. eauto.
Qed.

(** ** What is under way *)
Definition hot (s : stage) : bool := s_valid s && s_release s.
Definition bits (g : regs) : list bool := map hot (g_pipe g) ++ map r_valid (g_rpipe g).
Definition count (l : list bool) : nat := length (filter (fun b => b) l).
Definition b2n (b : bool) : nat := if b then 1 else 0.
Lemma count_app : forall a b, count (a ++ b) = count a + count b.
Proof. intros. unfold count. rewrite filter_app, app_length. reflexivity. Qed.
Lemma count_one : forall b, count [b] = b2n b.
Proof. intros []; reflexivity. Qed.
Lemma late_count : forall l, length (late l) = count (map r_valid l).
Proof. induction l as [|x l IH]; [reflexivity|]. cbn [late map]. rewrite app_length, IH. unfold due, count. cbn. destruct (r_valid x); cbn; lia. Qed.
Lemma flight_count : forall D p r K O, flight P W D p r K O -> length O = count (map hot p).
Proof.
  induction 1 as [|s p a r K O H IH V L|s p a r K O H IH V L L1 L2 L3 SL]; [reflexivity| |]; cbn [map]; unfold count in *; cbn [filter]; unfold hot at 1; rewrite V; cbn [andb].
  - exact IH.
  - rewrite app_length, IH. destruct (s_release s); cbn; lia.
Qed.
Lemma skip_shift : forall b l j, j < length l -> count (skipn (S j) (b :: removelast l)) + b2n (last l false) = count (skipn j l).
Proof.
  intros b l j H. assert (N : l <> []) by (destruct l; [cbn in H; lia|discriminate]). cbn [skipn].
  assert (L : j <= length (removelast l)). { rewrite (app_removelast_last false N) in H. rewrite app_length in H. cbn in H. lia. }
  rewrite (app_removelast_last false N) at 3. rewrite skipn_app, count_app. replace (j - length (removelast l)) with 0 by lia. cbn [skipn]. rewrite count_one. reflexivity.
Qed.

Lemma removelast_map : forall A B (f : A -> B) l, removelast (map f l) = map f (removelast l).
Proof. intros A B f. induction l as [|x [|y l] IH]; [reflexivity|reflexivity|]. cbn [map removelast] in *. rewrite IH. reflexivity. Qed.
Lemma last_map : forall A B (f : A -> B) (d : A) (e : B) l, l <> [] -> last (map f l) e = f (last l d).
Proof. intros A B f d e. induction l as [|x [|y l] IH]; intros H; [congruence|reflexivity|]. cbn [map last] in *. apply IH. discriminate. Qed.
Lemma last_app2 : forall A (d : A) a b, b <> [] -> last (a ++ b) d = last b d.
Proof. intros A d a b H. rewrite (app_removelast_last d H) at 1. rewrite app_assoc. apply last_last. Qed.

(** ** What an edge does *)
Lemma fifo_tick_len : forall cap af w ren wen wd f f', fifo_tick cap af w ren wen wd f = Some f' -> f_mem f' = popped ren (f_mem f) ++ pushed wen wd.
Proof.
  intros cap af w ren wen wd f f' H. unfold fifo_tick in H.
  destruct ren; [destruct (f_mem f) as [|x q] eqn:M; [discriminate|]|]; cbn [popped tl]; destruct wen; cbn [pushed]; rewrite ?app_nil_r;
  repeat match type of H with context [if ?b then _ else _] => destruct b end; try discriminate; injection H as <-; try reflexivity.
Qed.

Lemma cycle_facts : forall s e' s', cycle P s e' = Some s' ->
  let g := t_regs s in let c := t_wires s in let g' := t_regs s' in
  g_pipe g' = shift (issue P g c) (g_pipe g) /\ (exists res, g_rpipe g' = shift (hand_on (final stage0 (g_pipe g)) res (g_rpipe g)) (g_rpipe g)) /\
  g_iwen g' = takes c (t_env s) 3 /\ g_rwen g' = takes c (t_env s) 2 /\
  f_mem (g_ofifo g') = popped (c_oren c) (f_mem (g_ofifo g)) ++ pushed (c_owen c) (c_owdata c).
Proof.
  intros s e' s' H. unfold cycle in H. destruct (tick P (t_regs s) (t_wires s) (t_files s) (t_env s)) as [g'|] eqn:T; [|discriminate].
  destruct (files_settle P (t_regs s) g' 0 (x_mem (t_files s)) (x_rdata (t_files s))) as [[ms rows]|]; [|discriminate].
  destruct (if woken (t_regs s) g' (t_env s) e' || e_poke e' then settle P g' e' (t_wires s) else Some (t_wires s)) as [c'|]; [|discriminate]. injection H as <-. cbn [t_regs].
  unfold tick in T. destruct (compute P _ _ _) as [[res acc]|]; [|discriminate]. destruct (imem_write _ _ _) as [im|]; [|discriminate].
  destruct (fifo_tick _ _ _ _ _ _ (g_ififo (t_regs s))) as [fi|]; [|discriminate]. destruct (fifo_tick _ _ _ _ _ _ (g_rfifo (t_regs s))) as [fr|]; [|discriminate].
  destruct (fifo_tick _ _ _ _ _ _ (g_ofifo (t_regs s))) as [fo|] eqn:FO; [|discriminate]. destruct (fifo_tick _ _ _ _ _ _ (g_lfifo (t_regs s))) as [fl|]; [|discriminate].
  destruct (fifo_tick _ _ _ _ _ _ (g_mfifo (t_regs s))) as [fm|]; [|discriminate]. destruct (_ && _); [|discriminate]. injection T as <-. cbn [g_pipe g_rpipe g_iwen g_rwen g_ofifo].
  split; [reflexivity|]. split; [exists res; reflexivity|]. split; [reflexivity|]. split; [reflexivity|]. eapply fifo_tick_len. exact FO.
Qed.

Lemma idle_none : forall s, quiet (t_env s) -> rx_event s = [] /\ takes (t_wires s) (t_env s) 3 = false /\ takes (t_wires s) (t_env s) 2 = false.
Proof. intros s [V _]. unfold rx_event, takes, rx_taken. rewrite V. auto. Qed.

Lemma bits_shift : forall g g' x y, g_pipe g <> [] -> g_rpipe g <> [] -> g_pipe g' = shift x (g_pipe g) -> g_rpipe g' = shift y (g_rpipe g) -> r_valid y = hot (final stage0 (g_pipe g)) ->
  bits g' = hot x :: removelast (bits g) /\ last (bits g) false = r_valid (final rstage0 (g_rpipe g)).
Proof.
  intros g g' x y N1 N2 E1 E2 V. unfold bits. rewrite E1, E2. unfold shift. cbn [map]. split.
  - rewrite removelast_app by (destruct (g_rpipe g); [congruence|discriminate]). rewrite removelast_map, V. unfold final.
    rewrite (app_removelast_last stage0 N1) at 3. rewrite map_app. cbn [map app]. rewrite <- app_assoc. reflexivity.
  - rewrite last_app2 by (destruct (g_rpipe g); [congruence|discriminate]). unfold final. apply last_map. exact N2.
Qed.

(** ** Steps to go *)
Variables (rx : list (Z * Z)) (k0 : nat) (os0 : list result) (st0 : istate).
Hypothesis GOAL : runs (begun rx) k0 os0 st0.
Hypothesis NF : ~ faulty (begun rx).
Hypothesis CL : clean rx.
Let m := length os0.
Let span := m_rd P + m_comp P.

Definition load (g : regs) (R : list result) : nat := length R + length (late (g_rpipe g)) + valids (g_pipe g).
Inductive togo (s : mstate) (k : nat) (R Sd : list result) : nat -> Prop :=
| tg_issue N : k < k0 -> 2 * (k0 - k) + load (t_regs s) R + b2n (g_iwen (t_regs s)) + b2n (g_rwen (t_regs s)) + (span + fsz) <= N -> togo s k R Sd N
| tg_move j N : j <= span -> m <= length Sd + length R + count (skipn j (bits (t_regs s))) -> span - j + fsz <= N -> togo s k R Sd N
| tg_drain N : m <= length Sd + length R -> m <= length Sd + N -> togo s k R Sd N.

Lemma togo_end : forall s k R Sd, 0 < fsz -> togo s k R Sd 0 -> m <= length Sd.
Proof. intros s k R Sd Z H. remember 0 as z. destruct H; subst; lia. Qed.

Lemma togo_start : forall out s k os st D O R Sd, inv rx out s k os st D O R Sd -> togo s k R Sd (2 * k0 + 2 * fsz + span).
Proof.
  intros out s k os st D O R Sd I. pose proof (f_size _ _ _ F) as FS. fold fsz in FS. destruct (lt_dec k k0) as [L|L].
  - apply tg_issue; [exact L|]. pose proof (iv_room _ _ _ _ _ _ _ _ _ _ _ _ _ I) as RM. fold fsz in RM. unfold load. destruct (g_iwen (t_regs s)), (g_rwen (t_regs s)); cbn [b2n]; lia.
  - apply tg_move with (j := 0); [lia| |lia]. cbn [skipn].
    destruct (runs_det _ _ _ _ (iv_run _ _ _ _ _ _ _ _ _ _ _ _ _ I) _ _ _ GOAL) as [_ [[q Q] _]]; [lia|].
    pose proof (iv_out _ _ _ _ _ _ _ _ _ _ _ _ _ I) as OU. apply (f_equal (@length result)) in OU. rewrite Q, !app_length, late_count, (flight_count _ _ _ _ _ (iv_fl _ _ _ _ _ _ _ _ _ _ _ _ _ I)) in OU.
    unfold bits. rewrite count_app. fold m in OU. lia.
Qed.

Lemma togo_step : forall out s e' k os st D O R Sd N, inv rx out s k os st D O R Sd -> data_only (t_env s) -> quiet (t_env s) -> togo s k R Sd (S N) ->
  exists s' k' os' st' D' O' R' Sd', cycle P s e' = Some s' /\ t_env s' = e' /\ rx_event s = [] /\ inv rx (out ++ tx_event s) s' k' os' st' D' O' R' Sd' /\ togo s' k' R' Sd' N.
Proof.
  intros out s e' k os st D O R Sd N I DO Q T. destruct (idle_none s Q) as [RX [T3 T2]].
  destruct (step_ok P prog W F rx out s e' k os st D O R Sd I DO) as [s' [k' [st1 [o [C [E [J [D' [O' [R' I']]]]]]]]]]; [rewrite RX, app_nil_r; exact NF|rewrite RX, app_nil_r; exact CL|].
  rewrite RX, app_nil_r in I'. exists s', k'. eexists. eexists. exists D', O', R'. eexists. split; [exact C|]. split; [exact E|]. split; [exact RX|]. split; [exact I'|].
  set (Sd' := Sd ++ if c_oren (t_wires s) then firstn 1 R else []) in *.
  destruct (cycle_facts _ _ _ C) as [CP [[res CR] [CI [CW CO]]]]. rewrite T3 in CI. rewrite T2 in CW. clear C.
  pose proof (iv_wires _ _ _ _ _ _ _ _ _ _ _ _ _ I) as V. destruct (tx_ok P prog W F _ _ _ _ _ _ _ _ _ _ I) as [TV [TR _]].
  assert (OR : c_oren (t_wires s) = negb (f_empty (g_ofifo (t_regs s)))). { rewrite (wo_oren _ _ _ _ V). destruct Q as [_ Q]. rewrite Q, andb_true_r. exact TV. }
  pose proof (iv_of _ _ _ _ _ _ _ _ _ _ _ _ _ I) as OF. pose proof (iv_of _ _ _ _ _ _ _ _ _ _ _ _ _ I') as OF'.
  rewrite (fo_empty _ _ _ (iv_fo _ _ _ _ _ _ _ _ _ _ _ _ _ I)) in OR. rewrite OF in OR.
  assert (NP : g_pipe (t_regs s) <> []) by (eapply (some_len P); [apply (iv_lpipe _ _ _ _ _ _ _ _ _ _ _ _ _ I)|apply (f_rd _ _ _ F)]).
  assert (NRP : g_rpipe (t_regs s) <> []) by (eapply (some_len P); [apply (iv_lrpipe _ _ _ _ _ _ _ _ _ _ _ _ _ I)|apply (f_comp _ _ _ F)]).
  destruct (bits_shift _ _ _ _ NP NRP CP CR eq_refl) as [BS BL].
  rewrite (wo_owen _ _ _ _ V) in CO. set (lastb := r_valid (final rstage0 (g_rpipe (t_regs s)))) in *.
  assert (LR : length R' = length R - b2n (c_oren (t_wires s)) + b2n lastb /\ length Sd' = length Sd + b2n (c_oren (t_wires s)) /\ (c_oren (t_wires s) = true <-> R <> [])).
  { apply (f_equal (@length vec)) in CO. rewrite OF', app_length, OF, map_length in CO. unfold Sd'. rewrite app_length. rewrite OR in CO |- *. destruct R as [|r R]; cbn in CO |- *; unfold pushed in CO; destruct lastb; cbn in CO |- *; rewrite ?map_length in CO; (split; [lia|]); (split; [lia|]); split; congruence. }
  destruct LR as [LR [LS OC]].
  assert (SUM : length Sd' + length R' = length Sd + length R + b2n lastb).
  { destruct (c_oren (t_wires s)); cbn [b2n] in LR, LS; [|lia]. destruct R; [destruct OC as [OC _]; specialize (OC eq_refl); congruence|]. cbn [length] in *. lia. }
  assert (LB : length (bits (t_regs s)) = span). { unfold bits, span. rewrite app_length, !map_length, (iv_lpipe _ _ _ _ _ _ _ _ _ _ _ _ _ I), (iv_lrpipe _ _ _ _ _ _ _ _ _ _ _ _ _ I). reflexivity. }
  assert (RLEN : length R <= fsz). { pose proof (iv_room _ _ _ _ _ _ _ _ _ _ _ _ _ I) as RM. fold fsz in RM. lia. }
  assert (DRAIN : forall M, m <= length Sd + length R -> m <= length Sd + S M -> togo s' k' R' Sd' M).
  { intros M A1 A2. apply tg_drain; [lia|]. destruct (c_oren (t_wires s)) eqn:OE; cbn [b2n] in LS; [lia|]. destruct R; [cbn in A1; lia|]. destruct OC as [_ OC]. rewrite OC in OE; discriminate. }
  remember (S N) as N1. destruct T as [N1 LK LE|j N1 LJ LE LN|N1 L1 L2]; subst N1.
  - (* instructions to go *)
    destruct (runs_det _ _ _ _ GOAL _ _ _ (iv_run _ _ _ _ _ _ _ _ _ _ _ _ _ I)) as [_ [_ G]]; [lia|]. destruct (G LK) as [sg [og GO]]. clear G.
    pose proof (valids_shift P (issue P (t_regs s) (t_wires s)) _ NP) as VS. rewrite <- CP in VS.
    pose proof (f_equal (@length result) (late_shift (hand_on (final stage0 (g_pipe (t_regs s))) res (g_rpipe (t_regs s))) _ NRP)) as LSH. rewrite <- CR, !app_length in LSH.
    assert (DU : length (due (final rstage0 (g_rpipe (t_regs s)))) = b2n lastb) by (unfold due; fold lastb; destruct lastb; reflexivity).
    assert (DH : length (due (hand_on (final stage0 (g_pipe (t_regs s))) res (g_rpipe (t_regs s)))) <= b2n (s_valid (final stage0 (g_pipe (t_regs s))))).
    { unfold due, hand_on. cbn [r_valid]. destruct (s_valid _); cbn; [destruct (s_release _); cbn; lia|lia]. }
    assert (LD : load (t_regs s') R' + b2n (c_oren (t_wires s)) <= load (t_regs s) R + b2n (s_valid (issue P (t_regs s) (t_wires s)))).
    { unfold load. unfold b2n in DH at 1 |- *. unfold b2n in LR, DU. assert (length R >= if c_oren (t_wires s) then 1 else 0). { destruct (c_oren (t_wires s)); [|lia]. destruct R; [destruct OC as [OC _]; specialize (OC eq_refl); congruence|cbn; lia]. }
      destruct (s_valid (issue P (t_regs s) (t_wires s))), (s_valid (final stage0 (g_pipe (t_regs s)))), (c_oren (t_wires s)), lastb; cbn [b2n] in *; lia. }
    destruct J as [[GO2 ->]|[[-> ->] [-> [WA|[BJ B]]]]].
    + destruct (Nat.eq_dec (S k) k0) as [EQ|NE].
      * apply tg_move with (j := 0); [lia| |]. 2: lia. cbn [skipn]. pose proof (iv_out _ _ _ _ _ _ _ _ _ _ _ _ _ I') as OU. apply (f_equal (@length result)) in OU.
        destruct (runs_det _ _ _ _ (iv_run _ _ _ _ _ _ _ _ _ _ _ _ _ I') _ _ _ GOAL) as [_ [[q Z] _]]; [lia|]. rewrite Z, !app_length, late_count, (flight_count _ _ _ _ _ (iv_fl _ _ _ _ _ _ _ _ _ _ _ _ _ I')) in OU.
        unfold bits. rewrite count_app. fold m in OU. lia.
      * apply tg_issue; [lia|]. rewrite CI, CW. cbn [b2n]. assert (b2n (s_valid (issue P (t_regs s) (t_wires s))) <= 1) by (destruct (s_valid (issue P (t_regs s) (t_wires s))); cbn; lia). lia.
    + fold n depth in WA. congruence.
    + assert (IV : s_valid (issue P (t_regs s) (t_wires s)) = false).
      { unfold issue. rewrite (wo_dotr _ _ _ _ V), (wo_dot _ _ _ _ V). unfold can_dotr, can_dot. destruct B as [B|[[B1 B2]|B]].
        - rewrite B. cbn. reflexivity.
        - rewrite B1, B2. cbn. rewrite !andb_false_r. reflexivity.
        - rewrite B. cbn. rewrite !andb_false_r. cbn. reflexivity. }
      rewrite IV in LD. cbn [b2n] in LD. apply tg_issue; [lia|]. rewrite CI, CW. cbn [b2n].
      assert (DEC : load (t_regs s') R' < load (t_regs s) R + b2n (g_iwen (t_regs s)) + b2n (g_rwen (t_regs s))); [|lia].
      pose proof (wo_inst _ _ _ _ V) as IN. rewrite (iv_imem _ _ _ _ _ _ _ _ _ _ _ _ _ I), (iv_pc _ _ _ _ _ _ _ _ _ _ _ _ _ I) in IN.
      unfold MvmSpec.istep in GO. rewrite IN, BJ in GO. destruct (depth <=? i_raddr (c_inst (t_wires s))); [discriminate|]. destruct (negb (i_en (c_inst (t_wires s)))); [discriminate|].
      rewrite (iv_ins _ _ _ _ _ _ _ _ _ _ _ _ _ I), (iv_reds _ _ _ _ _ _ _ _ _ _ _ _ _ I) in GO. destruct B as [B|[[B1 B2]|B]].
      * rewrite (fo_empty _ _ _ (iv_fi _ _ _ _ _ _ _ _ _ _ _ _ _ I)) in B. destruct (f_mem (g_ififo (t_regs s))); [|discriminate]. cbn [app] in GO. destruct (g_iwen (t_regs s)); [cbn [b2n]; lia|]. cbn in GO. discriminate.
      * rewrite (fo_empty _ _ _ (iv_fr _ _ _ _ _ _ _ _ _ _ _ _ _ I)) in B1. destruct (f_mem (g_rfifo (t_regs s))); [|discriminate]. cbn [app] in GO. destruct (g_rwen (t_regs s)); [cbn [b2n]; lia|]. rewrite B2 in GO. cbn [pushed] in GO.
        destruct (f_mem (g_ififo (t_regs s)) ++ _); discriminate.
      * rewrite (fo_afull _ _ _ (iv_fo _ _ _ _ _ _ _ _ _ _ _ _ _ I)), OF, map_length in B. apply Nat.leb_le in B. pose proof (f_size _ _ _ F) as FS. unfold ofull in B.
        destruct R as [|r R]; [cbn in B; lia|]. destruct OC as [_ OC]. rewrite OC in LD by discriminate. cbn [b2n] in LD. lia.
  - (* in the pipeline *)
    destruct (Nat.eq_dec j span) as [-> |NE].
    + rewrite skipn_all2 in LE by lia. cbn in LE. apply DRAIN; lia.
    + apply tg_move with (j := S j); [lia| |lia]. rewrite BS. pose proof (skip_shift (hot (issue P (t_regs s) (t_wires s))) (bits (t_regs s)) j) as SK. rewrite BL in SK. lia.
  - apply DRAIN; assumption.
Qed.

Lemma sent_all : forall out s k os st D O R Sd, inv rx out s k os st D O R Sd -> m <= length Sd -> prefix (map (as_sent (m_layer P)) os0) out.
Proof.
  intros out s k os st D O R Sd I L. rewrite (iv_sent _ _ _ _ _ _ _ _ _ _ _ _ _ I).
  assert (X : exists q, Sd = os0 ++ q).
  { pose proof (iv_out _ _ _ _ _ _ _ _ _ _ _ _ _ I) as OU. pose proof (iv_run _ _ _ _ _ _ _ _ _ _ _ _ _ I) as RU.
    assert (Y : exists a b, os0 ++ a = os ++ b).
    { destruct (le_dec k k0).
      - destruct (runs_det _ _ _ _ GOAL _ _ _ RU) as [_ [[q ->] _]]; [assumption|]. exists [], q. rewrite app_nil_r. reflexivity.
      - destruct (runs_det _ _ _ _ RU _ _ _ GOAL) as [_ [[q ->] _]]; [lia|]. exists q, []. rewrite app_nil_r. reflexivity. }
    destruct Y as [a [b Y]]. rewrite OU, <- app_assoc in Y. exists (skipn m Sd). rewrite <- (firstn_skipn m Sd) at 1. f_equal.
    apply (f_equal (firstn m)) in Y. rewrite !firstn_app in Y. unfold m in Y, L. rewrite firstn_all, Nat.sub_diag in Y. replace (length os0 - length Sd) with 0 in Y by lia. cbn [firstn] in Y. rewrite !app_nil_r in Y. unfold m. congruence. }
  destruct X as [q ->]. exists (map (as_sent (m_layer P)) q). rewrite map_app. reflexivity.
Qed.

Lemma quiet_ok : forall es out s k os st D O R Sd, inv rx out s k os st D O R Sd -> data_only (t_env s) -> quiet (t_env s) -> Forall data_only es -> Forall quiet es -> togo s k R Sd (length es) ->
  exists o s', cycles P s es = (o, [], Some s') /\ prefix (map (as_sent (m_layer P)) os0) (out ++ o).
Proof.
  induction es as [|e es IH]; intros out s k os st D O R Sd I DO Q FD FQ T.
  - exists [], s. split; [reflexivity|]. rewrite app_nil_r. eapply sent_all; [exact I|]. eapply togo_end; [|exact T]. pose proof (f_size _ _ _ F). fold fsz in H. lia.
  - cbn [length] in T. destruct (togo_step _ _ e _ _ _ _ _ _ _ _ I DO Q T) as [s' [k' [os' [st' [D' [O' [R' [Sd' [C [E [RX [I' T']]]]]]]]]]]]. inversion_clear FD as [|? ? FD1 FD2]. inversion_clear FQ as [|? ? FQ1 FQ2].
    destruct (IH _ _ _ _ _ _ _ _ _ I') as [o [s2 [C2 PX]]]; try assumption; [rewrite E; assumption|rewrite E; assumption|]. exists (tx_event s ++ o), s2. cbn [cycles]. rewrite C, C2, RX. split; [reflexivity|]. rewrite app_assoc. exact PX.
Qed.
Lemma togo_more : forall s k R Sd N M, N <= M -> togo s k R Sd N -> togo s k R Sd M.
Proof. intros s k R Sd N M L T. destruct T as [N LK LE|j N LJ LE LN|N L1 L2]; [apply tg_issue|apply tg_move with (j := j)|apply tg_drain]; lia. Qed.
End Progress.

Lemma cycles_app : forall P es1 es2 s, cycles P s (es1 ++ es2) =
  match cycles P s es1 with (o, i, Some s') => let '(o2, i2, r) := cycles P s' es2 in (o ++ o2, i ++ i2, r) | (o, i, None) => (o, i, None) end.
Proof.
  intros P. induction es1 as [|e es1 IH]; intros es2 s; cbn [app cycles].
  - destruct (cycles P s es2) as [[o i] r]. reflexivity.
  - destruct (cycle P s e) as [s'|]; [|reflexivity]. rewrite IH. destruct (cycles P s' es1) as [[o i] [s2|]]; [|reflexivity]. destruct (cycles P s2 es2) as [[o2 i2] r]. rewrite !app_assoc. reflexivity.
Qed.

(** ** Instructions up to the first wait *)
Fixpoint walk (n depth : nat) (prog : list inst) (W : list (list vec)) (fuel : nat) (s : istate) : option (list result) :=
  match fuel with
  | 0 => None
  | S f => match istep n depth prog W s with Wait => Some [] | Fault => None | Go s' o => match walk n depth prog W f s' with Some q => Some (o ++ q) | None => None end end
  end.
Lemma runs_first : forall n depth prog W s k os s', runs n depth prog W s k os s' -> k = 0 /\ os = [] /\ s' = s \/ exists k1 s1 o q, istep n depth prog W s = Go s1 o /\ runs n depth prog W s1 k1 q s' /\ os = o ++ q /\ k = S k1.
Proof.
  intros n depth prog W s k os s' H. induction H as [|k os s1 o s2 H IH E]; [auto|]. right. destruct IH as [[-> [-> ->]]|[k1 [s3 [o1 [q [A [B [-> ->]]]]]]]].
  - exists 0, s2, o, []. rewrite app_nil_r. repeat split; auto. constructor.
  - exists (S k1), s3, o1, (q ++ o). split; [exact A|]. split; [econstructor; eauto|]. split; [symmetry; apply app_assoc|reflexivity].
Qed.
Lemma walk_ok : forall n depth prog W fuel s os, walk n depth prog W fuel s = Some os -> ~ faulty n depth prog W s /\ forall k os' s', runs n depth prog W s k os' s' -> exists q, os = os' ++ q.
Proof.
  intros n depth prog W. induction fuel as [|f IH]; intros s os H; [discriminate|]. cbn [walk] in H. destruct (istep n depth prog W s) as [| |s1 o] eqn:E; [|discriminate|].
  - split.
    + intros [k [q [s' [R X]]]]. apply runs_first in R as [[-> [-> ->]]|[k1 [s3 [o1 [q2 [A _]]]]]]; congruence.
    + intros k os' s' R. apply runs_first in R as [[-> [-> ->]]|[k1 [s3 [o1 [q2 [A _]]]]]]; [eexists; reflexivity|congruence].
  - destruct (walk n depth prog W f s1) as [q|] eqn:K; [|discriminate]. injection H as <-. destruct (IH _ _ K) as [A B]. split.
    + intros [k [q2 [s' [R X]]]]. apply runs_first in R as [[-> [-> ->]]|[k1 [s3 [o1 [q3 [A1 [R1 _]]]]]]]; [congruence|]. rewrite E in A1. injection A1 as <- <-. apply A. exists k1, q3, s'. auto.
    + intros k os' s' R. apply runs_first in R as [[-> [-> ->]]|[k1 [s3 [o1 [q3 [A1 [R1 [-> _]]]]]]]]; [eexists; reflexivity|]. rewrite E in A1. injection A1 as <- <-. destruct (B _ _ _ R1) as [z ->]. exists z. apply app_assoc.
Qed.
