From Coq Require Import ZArith Arith Bool List Lia.
From Verif Require Import Bits Fupd ArbiterModel AllocModel AllocSpec BufferModel RouteModel ChannelModel CreditModel IqRouterModel IqRouterSpec NetModel NetSpec NetProgressSpec NetMeshModel NetMeshSpec StreamSpec TermModel TermSpec
  AxisFormatModel AxisSlaveModel AxisSlaveSpec AxisMasterModel AxisMasterSpec EndToEndSpec FlitCode SysModel SysSpec SysProofs SysProgressSpec SysProgress MvmModel AddModel AddSpec AddProofs.
Import ListNotations.
Open Scope nat_scope.

Definition opt {A} (o : option A) : list A := match o with Some x => [x] | None => [] end.

(** ** What a thread can show *)
Lemma delivers_app : forall i a b, delivers i (a ++ b) = delivers i a ++ delivers i b. Proof. intros. apply flat_map_app. Qed.
Lemma out_one_obs : forall c rdy j s s' o i, out_one c rdy j s = Some (s', o) -> delivers i o = [] \/ (i = j /\ length (delivers i o) = 1).
Proof.
  intros c rdy j s s' o i E. unfold out_one in E.
  assert (H : forall a, delivers i [Deliver j a] = [] \/ (i = j /\ length (delivers i [Deliver j a]) = 1)).
  { intros a. cbn. destruct (Nat.eqb_spec j i) as [-> | X]; [right; auto|left; reflexivity]. }
  destruct (port s j) as [a|]; [|injection E as _ <-; auto]. destruct (rdy j); [|injection E as _ <-; auto]. destruct (outq s j) as [|p r]; [discriminate|].
  destruct (Nat.eqb _ _); injection E as _ <-; apply H.
Qed.
Lemma out_loop_obs : forall c rdy l s s' o i, NoDup l -> out_loop c rdy l s = Some (s', o) -> length (delivers i o) <= 1 /\ (~ In i l -> delivers i o = []).
Proof.
  intros c rdy l. induction l as [|j l IH]; intros s s' o i ND E; cbn [out_loop] in E; [injection E as _ <-; cbn; auto|].
  destruct (out_one c rdy j s) as [[s1 o1]|] eqn:E1; [|discriminate]. destruct (out_loop c rdy l s1) as [[s2 o2]|] eqn:E2; [|discriminate]. injection E as _ <-. inversion ND as [|? ? N1 N2]; subst.
  destruct (IH _ _ _ i N2 E2) as [H1 H2]. rewrite delivers_app, app_length. destruct (out_one_obs _ _ _ _ _ _ i E1) as [-> | [-> L]].
  - cbn [length app]. split; [lia|]. intros X. apply H2. intros Y. apply X. right. exact Y.
  - rewrite (H2 N1). cbn [length]. split; [lia|]. intros X. destruct X. left. reflexivity.
Qed.
Lemma eject_obs : forall c a s s' o i, run_eject c a s = Some (s', o) -> delivers i o = [].
Proof.
  intros c a s s' o i E. unfold run_eject in E. destruct (pendfl s) as [f|].
  - destruct (_ && _)%bool; [|discriminate]. destruct (Nat.ltb _ _); injection E as _ <-; reflexivity.
  - destruct a; [destruct (inq s) as [|f r]|]; try (injection E as _ <-; reflexivity). destruct (_ && _)%bool; [|discriminate]. destruct (Nat.ltb _ _); injection E as _ <-; reflexivity.
Qed.
Lemma depk_obs : forall c s s' o i, run_depk c s = Some (s', o) -> delivers i o = [].
Proof.
  intros c s s' o i E. unfold run_depk in E. destruct (prioq s) as [|v0 r]; [discriminate|]. destruct (check _ _ _ _) as [ok0|]; [|discriminate].
  destruct (if depk s then _ else _) as [[[q ok] d]|]; [|discriminate].
  repeat match type of E with context [match ?x with _ => _ end] => destruct x; try discriminate end; injection E as _ <-; reflexivity.
Qed.
Section Obs.
Context {P : bpolicy} (w : netcfg) (rf : nat -> nat -> flit -> list oelem) (cs : Z -> scfg) (ms : nat -> mcfg).
Lemma act_sent : forall g rdy a (s s' : sys P) o n, do_act w rf cs ms g rdy a s = Some (s', o) ->
  (a = AS n TIface -> accepts (of_slave n o) = opt (iface_take (g_inp g n) (rdy n) (s_nif (cs (Z.of_nat n))) (g_id g n))) /\ (a <> AS n TIface -> accepts (of_slave n o) = []).
Proof.
  intros g rdy a s s' o n E. destruct a as [m t|m t|]; cbn [do_act] in E.
  - destruct t.
    + destruct (run_thread _ _ _ _ _) as [sl os] eqn:R. injection E as _ <-. rewrite of_slave_S. unfold run_thread, run_iface in R. cbn [inp new_id seen] in R. destruct (iface_take _ _ _ _) as [e|] eqn:T; injection R as _ <-.
      * split; [intros X; injection X as ->; rewrite Nat.eqb_refl; rewrite T; reflexivity|]. intros X. destruct (Nat.eqb_spec m n) as [-> | Y]; [congruence|reflexivity].
      * split; [intros X; injection X as ->; rewrite Nat.eqb_refl; rewrite T; reflexivity|]. intros X. destruct (m =? n); reflexivity.
    + split; [discriminate|]. intros _. unfold run_thread, run_pack in E.
      assert (X : o = []) by (destruct (infifo (y_sl s m)); [injection E as _ <-; reflexivity|destruct (Nat.ltb _ _); injection E as _ <-; reflexivity]). rewrite X. reflexivity.
    + split; [discriminate|]. intros _. unfold inj_act in E. destruct (term_step _ _ _ _) as [[t o1]|]; [|discriminate]. destruct (run_inj _ _ _) as [sl os] eqn:R. injection E as _ <-.
      rewrite of_slave_app, of_slave_T, of_slave_S. cbn [app]. destruct (m =? n); [|reflexivity]. unfold run_inj in R.
      destruct (match tobe (y_sl s m) with Some f => _ | None => _ end) as [tb q]. destruct tb as [f|]; [|injection R as _ <-; reflexivity]. destruct (can _); injection R as _ <-; reflexivity.
  - split; [discriminate|]. intros _. destruct t.
    + unfold ej_act in E. destruct (match pendfl (y_ma s m) with Some _ => _ | None => _ end) as [[t o1]|]; [|discriminate]. destruct (run_eject _ _ _) as [[m1 om]|]; [|discriminate]. injection E as _ <-. rewrite of_slave_app, of_slave_T, of_slave_M. reflexivity.
    + unfold ma_act in E. destruct (m_thread _ _ _ _) as [[m1 om]|]; [|discriminate]. destruct (free_all _ _ _ _ _) as [t|]; [|discriminate]. injection E as _ <-. rewrite of_slave_M. reflexivity.
    + unfold ma_act in E. destruct (m_thread _ _ _ _) as [[m1 om]|]; [|discriminate]. destruct (free_all _ _ _ _ _) as [t|]; [|discriminate]. injection E as _ <-. rewrite of_slave_M. reflexivity.
  - split; [discriminate|]. intros _. destruct (term_step _ _ _ _) as [[t o1]|]; [|discriminate]. injection E as _ <-. rewrite of_slave_T. reflexivity.
Qed.
Lemma act_seen : forall g rdy a (s s' : sys P) o n i, do_act w rf cs ms g rdy a s = Some (s', o) -> length (seen_at n i o) <= 1 /\ (a <> AM n TOut -> seen_at n i o = []).
Proof.
  intros g rdy a s s' o n i E. unfold seen_at. destruct a as [m t|m t|]; cbn [do_act] in E.
  - assert (X : of_master n o = []); [|rewrite X; cbn; auto]. destruct t.
    + destruct (run_thread _ _ _ _ _) as [sl os]. injection E as _ <-. apply of_master_S.
    + destruct (run_thread _ _ _ _ _) as [sl os]. injection E as _ <-. apply of_master_S.
    + unfold inj_act in E. destruct (term_step _ _ _ _) as [[t o1]|]; [|discriminate]. destruct (run_inj _ _ _) as [sl os] eqn:R. injection E as _ <-. rewrite of_master_app, of_master_T, of_master_S. reflexivity.
  - destruct t.
    + unfold ej_act in E. destruct (match pendfl (y_ma s m) with Some _ => _ | None => _ end) as [[t o1]|]; [|discriminate]. destruct (run_eject _ _ _) as [[m1 om]|] eqn:R; [|discriminate]. injection E as _ <-.
      rewrite of_master_app, of_master_T, of_master_M. cbn [app]. destruct (m =? n); [|cbn; auto]. rewrite (eject_obs _ _ _ _ _ i R). cbn. auto.
    + unfold ma_act in E. destruct (m_thread _ _ _ _) as [[m1 om]|] eqn:R; [|discriminate]. destruct (free_all _ _ _ _ _) as [t|]; [|discriminate]. injection E as _ <-. rewrite of_master_M. destruct (m =? n); [|cbn; auto].
      cbn [m_thread] in R. rewrite (depk_obs _ _ _ _ i R). cbn. auto.
    + unfold ma_act in E. destruct (m_thread _ _ _ _) as [[m1 om]|] eqn:R; [|discriminate]. destruct (free_all _ _ _ _ _) as [t|]; [|discriminate]. injection E as _ <-. rewrite of_master_M. cbn [m_thread] in R.
      destruct (out_loop_obs _ _ _ _ _ _ i (seq_NoDup _ _) R) as [H _]. destruct (Nat.eqb_spec m n) as [-> | X]; [split; [exact H|congruence]|cbn; auto].
  - destruct (term_step _ _ _ _) as [[t o1]|]; [|discriminate]. injection E as _ <-. rewrite of_master_T. cbn. auto.
Qed.
Lemma sent_nat : forall n o, sent_by (Z.of_nat n) o = accepts (of_slave n o).
Proof. intros n o. unfold sent_by. destruct (Z.leb_spec 0 (Z.of_nat n)); [|lia]. rewrite Nat2Z.id. reflexivity. Qed.
Lemma sent_app : forall q a b, sent_by q (a ++ b) = sent_by q a ++ sent_by q b.
Proof. intros q a b. unfold sent_by. destruct (0 <=? q)%Z; [|reflexivity]. rewrite of_slave_app, accepts_app'. reflexivity. Qed.
Lemma seen_app : forall d i a b, seen_at d i (a ++ b) = seen_at d i a ++ seen_at d i b.
Proof. intros d i a b. unfold seen_at. rewrite of_master_app, delivers_app. reflexivity. Qed.
Lemma acts_sent : forall g rdy l (s s' : sys P) o n, NoDup l -> do_acts w rf cs ms g rdy l s = Some (s', o) ->
  accepts (of_slave n o) = if existsb (fun a => match a with AS m TIface => m =? n | _ => false end) l then opt (iface_take (g_inp g n) (rdy n) (s_nif (cs (Z.of_nat n))) (g_id g n)) else [].
Proof.
  intros g rdy l. induction l as [|a l IH]; intros s s' o n ND E; cbn [do_acts] in E; [injection E as _ <-; reflexivity|].
  destruct (do_act w rf cs ms g rdy a s) as [[s1 o1]|] eqn:E1; [|discriminate]. destruct (do_acts w rf cs ms g rdy l s1) as [[s2 o2]|] eqn:E2; [|discriminate]. injection E as _ <-. inversion ND as [|? ? N1 N2]; subst.
  rewrite of_slave_app, accepts_app', (IH _ _ _ n N2 E2). cbn [existsb]. destruct (act_sent _ _ _ _ _ _ n E1) as [H1 H2].
  assert (D : a = AS n TIface \/ a <> AS n TIface /\ (match a with AS m TIface => m =? n | _ => false end) = false).
  { destruct a as [m []|m []|]; try (right; split; [discriminate|reflexivity]). destruct (Nat.eqb_spec m n) as [-> | X]; [left; reflexivity|right; split; [congruence|reflexivity]]. }
  destruct D as [-> | [D1 D2]].
  - rewrite (H1 eq_refl), Nat.eqb_refl. cbn [orb]. destruct (existsb _ l) eqn:X; [|apply app_nil_r]. exfalso. apply existsb_exists in X. destruct X as [y [Y1 Y2]]. destruct y as [m []|m []|]; try discriminate. apply Nat.eqb_eq in Y2. subst m. contradiction.
  - rewrite (H2 D1), D2. reflexivity.
Qed.
Lemma acts_seen : forall g rdy l (s s' : sys P) o n i, NoDup l -> do_acts w rf cs ms g rdy l s = Some (s', o) ->
  length (seen_at n i o) <= 1 /\ (existsb (fun a => match a with AM m TOut => m =? n | _ => false end) l = false -> seen_at n i o = []).
Proof.
  intros g rdy l. induction l as [|a l IH]; intros s s' o n i ND E; cbn [do_acts] in E; [injection E as _ <-; cbn; auto|].
  destruct (do_act w rf cs ms g rdy a s) as [[s1 o1]|] eqn:E1; [|discriminate]. destruct (do_acts w rf cs ms g rdy l s1) as [[s2 o2]|] eqn:E2; [|discriminate]. injection E as _ <-. inversion ND as [|? ? N1 N2]; subst.
  rewrite seen_app, app_length. destruct (IH _ _ _ n i N2 E2) as [I1 I2]. destruct (act_seen _ _ _ _ _ _ n i E1) as [H1 H2]. cbn [existsb].
  assert (D : a = AM n TOut \/ a <> AM n TOut /\ (match a with AM m TOut => m =? n | _ => false end) = false).
  { destruct a as [m []|m []|]; try (right; split; [discriminate|reflexivity]). destruct (Nat.eqb_spec m n) as [-> | X]; [left; reflexivity|right; split; [congruence|reflexivity]]. }
  destruct D as [-> | [D1 D2]].
  - rewrite I2; [cbn [length]; split; [lia|rewrite Nat.eqb_refl; discriminate]|]. destruct (existsb _ l) eqn:X; [|reflexivity]. exfalso. apply existsb_exists in X. destruct X as [y [Y1 Y2]]. destruct y as [m []|m []|]; try discriminate. apply Nat.eqb_eq in Y2. subst m. contradiction.
  - rewrite (H2 D1), D2. cbn [length app orb]. split; [lia|exact I2].
Qed.
Lemma step_obs : forall g (s s' : sys P) o, NoDup (g_acts g) -> sys_step w rf cs ms g s = Some (s', o) ->
  (forall n, accepts (of_slave n o) = if existsb (fun a => match a with AS m TIface => m =? n | _ => false end) (g_acts g) then opt (iface_take (g_inp g n) (granted cs g n (y_sl s n)) (s_nif (cs (Z.of_nat n))) (g_id g n)) else []) /\
  forall n i, length (seen_at n i o) <= 1 /\ (existsb (fun a => match a with AM m TOut => m =? n | _ => false end) (g_acts g) = false -> seen_at n i o = []).
Proof.
  intros g s s' o ND E. unfold sys_step in E. destruct (do_acts _ _ _ _ _ _ _ _) as [[s1 o1]|] eqn:E1; [|discriminate]. injection E as _ <-. split; [intros n; apply (acts_sent _ _ _ _ _ _ n ND E1)|intros n i; apply (acts_seen _ _ _ _ _ _ n i ND E1)].
Qed.
Lemma design_app : forall pl f nums a b (d : design (P := P)), design_run w rf cs ms pl f nums (a ++ b) d = match design_run w rf cs ms pl f nums a d with Some (d1, o1) => match design_run w rf cs ms pl f nums b d1 with Some (d2, o2) => Some (d2, o1 ++ o2) | None => None end | None => None end.
Proof.
  intros pl f nums a b. induction a as [|g a IH]; intros d; cbn [app design_run]; [destruct (design_run w rf cs ms pl f nums b d) as [[d2 o2]|]; reflexivity|].
  destruct (design_step w rf cs ms pl f nums g d) as [[d1 o1]|]; auto. rewrite IH. destruct (design_run w rf cs ms pl f nums a d1) as [[d2 o2]|]; auto. destruct (design_run w rf cs ms pl f nums b d2) as [[d3 o3]|]; auto. rewrite app_assoc. reflexivity.
Qed.
End Obs.

(** ** What the client's interface gets taken *)
Lemma take_in : forall inp rdy n id e, iface_take inp rdy n id = Some e -> inp (e_iface e) = Some (e_txn e) /\ e_iface e < n.
Proof.
  intros inp rdy n id e E. unfold iface_take in E. destruct (find _ _) as [i|] eqn:F; [|discriminate]. apply find_some in F. destruct F as [F _]. apply in_seq in F. destruct (inp i) as [t|] eqn:T; [|discriminate]. injection E as <-. cbn [e_iface e_txn]. split; auto. lia.
Qed.
Definition key (e : entry) : Z * bool := (t_data (e_txn e), t_last (e_txn e)).
Definition key' (a : aout) : Z * bool := (a_data a, a_last a).
Lemma client_done : forall nums c r, cinv nums (tagged nums) c -> client_edge c r = Some c /\ offer c = None.
Proof.
  intros nums c r C. pose proof (offer_hd _ _ _ C) as O. destruct C as [D L EL M AL V]. rewrite <- (app_nil_r (tagged nums)) in AL at 2. apply app_inv_head in AL. apply app_eq_nil in AL. destruct AL as [A1 A2].
  destruct c as [left v d l dq lq]. cbn [k_left k_valid k_data k_last k_dq k_lq] in *. assert (Q : left = []) by (destruct left as [|x q]; [reflexivity|rewrite tagged_cons in A2; discriminate]). subst left.
  destruct v; [destruct (V eq_refl) as [x [q [X _]]]; discriminate|]. assert (Q : q_mem dq = []) by (destruct (q_mem dq), (q_mem lq); try discriminate; reflexivity). rewrite Q in *. assert (Q' : q_mem lq = []) by (destruct (q_mem lq); [reflexivity|discriminate]).
  split; [|rewrite O; reflexivity]. destruct D as [D1 D2 D3], L as [L1 L2 L3]. destruct dq as [m1 e1 a1 r1], lq as [m2 e2 a2 r2]. cbn [q_mem q_empty q_afull q_rdata] in *. subst. reflexivity.
Qed.
Lemma prefix_map' : forall A B (f : A -> B) a b, prefix a b -> prefix (map f a) (map f b).
Proof. intros A B f a b [q ->]. exists (map f q). apply map_app. Qed.
Lemma prefix_trans' : forall A (a b c : list A), prefix a b -> prefix b c -> prefix a c.
Proof. intros A a b c [p ->] [q ->]. exists (p ++ q). apply eq_sym, app_assoc. Qed.
Lemma prefix_in : forall A (a b : list A) x, prefix a b -> In x a -> In x b.
Proof. intros A a b x [q ->] H. apply in_or_app. auto. Qed.

(** A history with one sender and one channel. *)
Lemma one_lane : forall q v (hist : list (nat * (Z * entry))), (forall h, In h hist -> fst h = v /\ fst (snd h) = q) -> map snd hist = map (fun e => (q, e)) (part q v hist).
Proof.
  intros q v hist. induction hist as [|[u [p e]] hist IH]; intros H; [reflexivity|]. destruct (H _ (or_introl eq_refl)) as [H1 H2]. cbn [fst snd] in *. subst u p. unfold part. cbn [filter fst snd]. rewrite Nat.eqb_refl, Z.eqb_refl. cbn [andb map snd]. f_equal. apply IH. intros h Hh. apply H. right. exact Hh.
Qed.

Section Sys.
Variables (P : bpolicy) (mesh nl : bool) (k : Z) (nn : nat) (b : bcfg) (rd : bool) (cd ob : Z) (bz vz : Z) (ch : Z -> nat) (cs : Z -> scfg) (ms : nat -> mcfg) (pl : place) (f : op) (nums : list Z).
Let w := cube mesh nl k nn b rd cd ob.
Let rf := routes_of (dim_order_mesh k nn (k ^ Z.of_nat nn)) (sys_traffic ch).
Let N := w_nodes w.
Hypothesis K : (1 <= k)%Z.
Hypothesis Hb : bz <> 0%Z.
Hypothesis Hv : 0 < bc_vcs b.
Hypothesis EP : new_private (bc_vcs b) bz vz (bc_wait b) = Some (b, P).
Hypothesis FT : fitting N (bc_vcs b) (if bz <? 0 then vz else bz / Z.of_nat (bc_vcs b))%Z ch cs ms.
Hypothesis WP : well_placed N cs ms pl.
Let qc := Z.of_nat (p_client pl).
Let v0 := ch (s_type (cs qc) 0).

Definition as_sent (e : entry) : Prop := e_iface e = 0 /\ t_tid (e_txn e) = 0%Z /\ t_dest (e_txn e) = p_dest pl.
Record DI (gs gs' : list ginst) (d : design (P := P)) (o : list sobs) : Prop := {
  di_run : sys_run w rf cs ms gs' (sys0 w cs ms) = Some (z_sys d, o); di_good : Forall (good_ginst w cs ms) gs';
  di_acts : map g_acts gs' = map g_acts gs; di_clk : map g_clk gs' = map g_clk gs;
  di_c : cinv nums (map key (sent_by qc o)) (z_client d);
  di_other : forall q, q <> qc -> sent_by q o = []; di_sent : forall e, In e (sent_by qc o) -> as_sent e;
  di_a : ainv f nums (map key' (seen_at (p_adder pl) 0 o)) (z_adder d) }.

Lemma flat_acts : forall gs gs' : list ginst, map g_acts gs' = map g_acts gs -> flat_map g_acts gs' = flat_map g_acts gs.
Proof. intros gs gs' E. rewrite !flat_map_concat_map, E. reflexivity. Qed.
Lemma shown_good : forall sent c t, cinv nums sent c -> shown pl c = Some t -> good_txn N cs ms (p_client pl) 0 t /\ offer c = Some (t_data t, t_last t) /\ t_tid t = 0%Z /\ t_dest t = p_dest pl.
Proof.
  intros sent c t C E. unfold shown in E. destruct (offer c) as [[x l]|] eqn:O; [|discriminate]. injection E as <-. cbn [t_data t_last t_tid t_dest]. split; [|auto].
  assert (X : (0 <= x < 2 ^ 128)%Z).
  { rewrite (offer_hd _ _ _ C) in O. destruct (q_mem (k_dq c)) as [|y q] eqn:E1; [discriminate|]. destruct (q_mem (k_lq c)) as [|y' q'] eqn:E2; [discriminate|]. injection O as -> ->. pose proof (ci_all _ _ _ C) as A. rewrite E1, E2 in A. cbn [combine app] in A.
    assert (I : In (x, l) (tagged nums)) by (rewrite <- A; apply in_or_app; right; left; reflexivity). revert I. clear. induction nums as [|z r IH]; [intros []|]. rewrite tagged_cons. intros [I | I]; [injection I as <- _; apply Z.mod_pos_bound; lia|auto]. }
  destruct WP as [W1 W2 W3 W4 W5 W6 W7 W8]. unfold good_txn, fits, target. cbn [e_txn e_iface t_dest t_user t_data t_tid]. rewrite W8, Nat2Z.id, W5. split; [lia|]. split; [exact W7|]. split; [exact X|].
  change (trunc (ifacew (m_w (ms (p_adder pl)))) 0) with 0%Z. cbn [Z.to_nat]. split; [exact W4|exact W6].
Qed.
Lemma to_adder : forall e v, as_sent e -> meant (toward (p_adder pl)) (by_type ch) cs qc v e = (v0 =? v).
Proof.
  intros e v [H1 [H2 H3]]. unfold meant, toward, target, by_type. pose proof (wp_dest _ _ _ _ WP) as W. fold qc in W. rewrite H1, H3, W, Z.eqb_refl. reflexivity.
Qed.
Lemma to_zero : forall e q, as_sent e -> to_iface (ms (p_adder pl)) 0 (q, e) = true.
Proof. intros e q [H1 [H2 H3]]. unfold to_iface. cbn [snd]. rewrite H2. reflexivity. Qed.
Lemma filter_all : forall A (p : A -> bool) l, (forall x, In x l -> p x = true) -> filter p l = l.
Proof. intros A p l H. induction l as [|x l IH]; [reflexivity|]. cbn [filter]. rewrite (H x (or_introl eq_refl)). f_equal. apply IH. intros y Hy. apply H. right. exact Hy. Qed.
Lemma hist_lane : forall (hist : list (nat * (Z * entry))) o, (forall q, q <> qc -> sent_by q o = []) -> (forall e, In e (sent_by qc o) -> as_sent e) ->
  (forall q v, prefix (part q v hist) (filter (meant (toward (p_adder pl)) (by_type ch) cs q v) (sent_by q o))) ->
  map (received (ms (p_adder pl)) cs) (filter (to_iface (ms (p_adder pl)) 0) (map snd hist)) = map (fun e => received (ms (p_adder pl)) cs (qc, e)) (part qc v0 hist).
Proof.
  intros hist o OT SE H.
  assert (L : forall h, In h hist -> fst h = v0 /\ fst (snd h) = qc).
  { intros [v [q e]] Hh. cbn [fst snd]. assert (I : In e (part q v hist)) by (unfold part; apply in_map_iff; exists (v, (q, e)); split; [reflexivity|]; apply filter_In; cbn [fst snd]; rewrite Nat.eqb_refl, Z.eqb_refl; auto).
    pose proof (prefix_in _ _ _ _ (H q v) I) as J. apply filter_In in J. destruct J as [J1 J2]. destruct (Z.eq_dec q qc) as [-> | X]; [|rewrite (OT q X) in J1; destruct J1]. rewrite (to_adder _ _ (SE _ J1)) in J2. apply Nat.eqb_eq in J2. auto. }
  rewrite (one_lane qc v0 hist L), filter_all, map_map; [reflexivity|]. intros x Hx. apply in_map_iff in Hx. destruct Hx as [e [<- He]]. apply to_zero. pose proof (prefix_in _ _ _ _ (H qc v0) He) as J. apply filter_In in J. apply SE. tauto.
Qed.
Lemma own_lane : forall o, (forall e, In e (sent_by qc o) -> as_sent e) -> filter (meant (toward (p_adder pl)) (by_type ch) cs qc v0) (sent_by qc o) = sent_by qc o.
Proof. intros o SE. apply filter_all. intros e He. rewrite (to_adder _ _ (SE _ He)). apply Nat.eqb_refl. Qed.
Lemma arrives : forall gs' (s : sys P) o, Forall (good_ginst w cs ms) gs' -> take_turns N (flat_map g_acts gs') -> sys_run w rf cs ms gs' (sys0 w cs ms) = Some (s, o) ->
  (forall q, q <> qc -> sent_by q o = []) -> (forall e, In e (sent_by qc o) -> as_sent e) ->
  prefix (map key' (seen_at (p_adder pl) 0 o)) (map key (sent_by qc o)) /\ (at_rest w ms (flat_map g_acts gs') s -> map key' (seen_at (p_adder pl) 0 o) = map key (sent_by qc o)).
Proof.
  intros gs' s o G TT E OT SE. destruct (delivered P mesh nl k nn b rd cd ob bz vz ch cs ms K Hb Hv EP FT gs' G TT) as [s' [o' [E' D]]]. assert (EE : Some (s, o) = Some (s', o')) by (etransitivity; [symmetry; exact E|exact E']). injection EE as <- <-.
  destruct (D (p_adder pl) (wp_adder _ _ _ _ WP)) as [hist [H1 [H2 H3]]]. assert (KR : forall l, map key' (map (fun e => received (ms (p_adder pl)) cs (qc, e)) l) = map key l) by (intros l; rewrite map_map; reflexivity). split.
  - specialize (H2 0). rewrite (hist_lane hist o OT SE H1) in H2. apply (prefix_map' _ _ key') in H2. rewrite KR in H2. eapply prefix_trans'; [exact H2|]. apply prefix_map'. rewrite <- (own_lane o SE) at 1. apply H1.
  - intros R. destruct (H3 R) as [h [A1 A2]]. rewrite (A2 0), (hist_lane h o OT SE), KR, A1, (own_lane o SE); [reflexivity|]. intros q v. rewrite A1. exists []. symmetry. apply app_nil_r.
Qed.

Lemma di_zero : DI [] [] (design0 w cs ms f nums) [].
Proof.
  assert (S0 : forall q, sent_by q [] = []) by (intros q; unfold sent_by; destruct (0 <=? q)%Z; reflexivity).
  constructor; cbn [design0 z_sys z_client z_adder map]; try reflexivity.
  - constructor.
  - rewrite S0. apply cinv0.
  - intros. apply S0.
  - rewrite S0. intros e [].
  - apply ainv0.
Qed.
Lemma one_instant : forall gs gs' d o g, DI gs gs' d o -> good_ginst w cs ms g -> take_turns N (flat_map g_acts (gs ++ [g])) ->
  exists d' o', design_step w rf cs ms pl f nums g d = Some (d', o') /\ DI (gs ++ [g]) (gs' ++ [connected pl g (z_client d)]) d' (o ++ o').
Proof.
  intros gs gs' d o g I GG TT. destruct I as [RU GO AC CK CI OT SE AI]. set (g' := connected pl g (z_client d)).
  assert (G' : good_ginst w cs ms g').
  { destruct GG as [A1 A2 A3 A4 A5]. constructor; auto. intros n i t Hn Hi E. cbn [g' connected g_inp] in E. destruct (_ && _)%bool eqn:X; [|discriminate]. apply andb_true_iff in X. destruct X as [X1 X2]. apply Nat.eqb_eq in X1, X2. subst n i. apply (shown_good _ _ _ CI E). }
  assert (AC' : map g_acts (gs' ++ [g']) = map g_acts (gs ++ [g])) by (rewrite !map_app, AC; reflexivity).
  assert (GO' : Forall (good_ginst w cs ms) (gs' ++ [g'])) by (apply Forall_app; split; [exact GO|constructor; [exact G'|constructor]]).
  assert (TT' : take_turns N (flat_map g_acts (gs' ++ [g']))) by (rewrite (flat_acts _ _ AC'); exact TT).
  destruct (delivered P mesh nl k nn b rd cd ob bz vz ch cs ms K Hb Hv EP FT _ GO' TT') as [s2 [o2 [E2 _]]]. fold w in E2. fold rf in E2. pose proof E2 as E3. rewrite sys_run_app, RU in E3. cbn [sys_run] in E3.
  destruct (sys_step w rf cs ms g' (z_sys d)) as [[s1 o1]|] eqn:ES; [|discriminate]. rewrite app_nil_r in E3. injection E3 as -> <-.
  destruct (step_obs w rf cs ms g' _ _ _ (gi_once _ _ _ _ G') ES) as [SS SN]. cbn [g' connected g_acts g_inp g_id] in SS, SN.
  assert (OT' : forall q, q <> qc -> sent_by q (o ++ o1) = []).
  { intros q Hq. rewrite sent_app, (OT q Hq). unfold sent_by. destruct (Z.leb_spec 0 q) as [X|X]; [|reflexivity]. rewrite SS. destruct (existsb _ _); [|reflexivity]. destruct (iface_take _ _ _ _) as [e|] eqn:T; [|reflexivity]. apply take_in in T. destruct T as [T _].
    destruct (Nat.eqb_spec (Z.to_nat q) (p_client pl)) as [Y|Y]; [destruct Hq; unfold qc; rewrite <- Y, Z2Nat.id; auto|discriminate]. }
  pose proof (SS (p_client pl)) as SC. rewrite <- sent_nat in SC. fold qc in SC. fold (client_clock pl (g_acts g)) in SC.
  assert (TK : forall e, In e (sent_by qc o1) -> as_sent e /\ offer (z_client d) = Some (key e)).
  { intros e He. rewrite SC in He. destruct (client_clock pl (g_acts g)); [|destruct He]. destruct (iface_take _ _ _ _) as [e'|] eqn:T; [|destruct He]. destruct He as [-> | []]. apply take_in in T. destruct T as [T _]. rewrite Nat.eqb_refl in T. cbn [andb] in T.
    destruct (Nat.eqb_spec (e_iface e) 0) as [Y|Y]; [|discriminate]. destruct (shown_good _ _ _ CI T) as [_ [Z1 [Z2 Z3]]]. split; [split; auto|exact Z1]. }
  assert (SE' : forall e, In e (sent_by qc (o ++ o1)) -> as_sent e) by (intros e He; rewrite sent_app in He; apply in_app_or in He; destruct He as [He | He]; [auto|apply (TK _ He)]).
  set (taken := match sent_by (Z.of_nat (p_client pl)) o1 with [] => false | _ => true end).
  assert (HD : client_clock pl (g_acts g) = true -> map key (sent_by qc o1) = handed (z_client d) taken).
  { intros CC. unfold handed, taken. fold qc. destruct (sent_by qc o1) as [|e [|e' r]] eqn:Q.
    - reflexivity.
    - rewrite (proj2 (TK e (or_introl eq_refl))). reflexivity.
    - rewrite CC in SC. destruct (iface_take _ _ _ _); discriminate. }
  destruct (client_step _ _ _ taken CI) as [c1 [EC C1]].
  assert (CL : exists c', (if client_clock pl (g_acts g) then client_edge (z_client d) taken else Some (z_client d)) = Some c' /\ cinv nums (map key (sent_by qc (o ++ o1))) c').
  { rewrite sent_app, map_app. destruct (client_clock pl (g_acts g)) eqn:CC; [exists c1; rewrite (HD eq_refl); auto|]. exists (z_client d). rewrite SC. cbn [map]. rewrite app_nil_r. auto. }
  destruct CL as [c' [EC' C']]. destruct (arrives _ _ _ GO' TT' E2 OT' SE') as [PR _]. pose proof (prefix_trans' _ _ _ _ PR (cinv_prefix _ _ _ C')) as PT. destruct (SN (p_adder pl) 0) as [S1 S2].
  set (a' := if adder_clock pl (g_acts g) then adder_edge f nums (z_adder d) (option_map (fun a => (a_data a, a_last a)) (head (seen_at (p_adder pl) 0 o1))) else z_adder d).
  exists (mkD s2 c' a'), o1. split.
  { unfold design_step. fold g'. rewrite ES. fold taken. rewrite EC'. reflexivity. }
  constructor; cbn [z_sys z_client z_adder]; auto.
  - rewrite !map_app, CK. reflexivity.
  - rewrite seen_app, map_app in *. fold (adder_clock pl (g_acts g)) in S2. unfold a'. destruct (adder_clock pl (g_acts g)).
    + destruct (seen_at (p_adder pl) 0 o1) as [|x [|y r]]; [| |cbn in S1; lia]; cbn [map head option_map] in *; [apply (adder_step _ _ _ _ None AI PT)|apply (adder_step _ _ _ _ (Some (key' x)) AI PT)].
    + rewrite (S2 eq_refl) in *. cbn [map]. rewrite app_nil_r. exact AI.
Qed.
Lemma all_instants : forall gs, Forall (good_ginst w cs ms) gs -> take_turns N (flat_map g_acts gs) -> exists d o gs', design_run w rf cs ms pl f nums gs (design0 w cs ms f nums) = Some (d, o) /\ DI gs gs' d o.
Proof.
  intros gs. induction gs as [|g gs IH] using rev_ind; intros G TT; [exists (design0 w cs ms f nums), [], []; split; [reflexivity|apply di_zero]|].
  apply Forall_app in G. destruct G as [G1 G2]. inversion G2 as [|? ? G3 _]; subst. destruct IH as [d [o [gs' [E I]]]]; auto; [rewrite flat_map_app in TT; exact (turns_pre _ _ _ TT)|].
  destruct (one_instant _ _ _ _ _ I G3 TT) as [d' [o' [E' I']]]. exists d', (o ++ o'). eexists. split; [|exact I']. rewrite design_app, E. cbn [design_run]. rewrite E', app_nil_r. reflexivity.
Qed.

(** ** Once the NoC has taken all numbers *)
Lemma quiet_run : forall l (s : sys P) c a, cinv nums (tagged nums) c -> match design_run w rf cs ms pl f nums l (mkD s c a) with
  | Some (d, o) => sys_run w rf cs ms (map (fun g => connected pl g c) l) s = Some (z_sys d, o) /\ z_client d = c | None => True end.
Proof.
  induction l as [|g l IH]; intros s c a C; cbn [design_run map sys_run]; [auto|]. unfold design_step at 1. cbn [z_sys z_client z_adder]. destruct (sys_step w rf cs ms (connected pl g c) s) as [[s1 o1]|]; [|exact I].
  assert (Q : forall r, (if client_clock pl (g_acts g) then client_edge c r else Some c) = Some c) by (intros r; destruct (client_clock pl (g_acts g)); [apply (client_done _ _ r C)|reflexivity]). rewrite Q.
  specialize (IH s1 c (if adder_clock pl (g_acts g) then adder_edge f nums a (option_map (fun a => (a_data a, a_last a)) (head (seen_at (p_adder pl) 0 o1))) else a) C).
  destruct (design_run _ _ _ _ _ _ _ l _) as [[d2 o2]|]; [|exact I]. destruct IH as [IH1 IH2]. rewrite IH1. auto.
Qed.
Lemma prefix_len : forall A (a c : list A), prefix a c -> length a = length c -> a = c.
Proof. intros A a c [q ->] L. rewrite app_length in L. destruct q; [symmetry; apply app_nil_r|cbn in L; lia]. Qed.
Lemma sum_one : forall (h : nat -> nat) m n, (forall x, x <> m -> h x = 0) -> list_sum (map h (seq 0 n)) <= h m.
Proof.
  intros h m n H. assert (G : forall j, list_sum (map h (seq j n)) <= h m /\ (m < j -> list_sum (map h (seq j n)) = 0)); [|apply (G 0)].
  induction n as [|n IH]; intros j; cbn [seq map list_sum fold_right]; [cbn; lia|]. destruct (IH (S j)) as [I1 I2]. change (fold_right Nat.add 0 (map h (seq (S j) n))) with (list_sum (map h (seq (S j) n))).
  destruct (Nat.eq_dec j m) as [-> | X]; [rewrite I2 by lia; lia|]. rewrite (H j X). split; [lia|]. intros Y. rewrite I2; lia.
Qed.
Hypothesis OB : ob <> 0%Z.
Hypothesis RM : roomy N (if bz <? 0 then vz else bz / Z.of_nat (bc_vcs b))%Z cs ms.
Lemma all_seen : exists B, forall gs rs (d1 : design (P := P)) o1, design_run w rf cs ms pl f nums gs (design0 w cs ms f nums) = Some (d1, o1) ->
  Forall (good_ginst w cs ms) (gs ++ concat rs) -> take_turns N (flat_map g_acts (gs ++ concat rs)) -> unhurried N (flat_map g_acts (gs ++ concat rs)) -> growing (SysProgressSpec.cycles (gs ++ concat rs)) ->
  Forall (SysProgressSpec.round N) rs -> Forall (giving w) (concat rs) -> taken_by_noc pl o1 = length nums -> B * (1 + length nums) <= length rs ->
  exists (d : design (P := P)) o, design_run w rf cs ms pl f nums (gs ++ concat rs) (design0 w cs ms f nums) = Some (d, o) /\ map key' (seen_at (p_adder pl) 0 o) = tagged nums.
Proof.
  destruct (empties P mesh nl k nn b rd cd ob bz vz ch cs ms K Hb Hv EP FT RM OB) as [B H]. exists B. intros gs rs d1 o1 E1 G TT UH GR RR HG TA LB.
  pose proof G as G0. apply Forall_app in G0. destruct G0 as [Ga Gb]. assert (TT1 : take_turns N (flat_map g_acts gs)) by (rewrite flat_map_app in TT; exact (turns_pre _ _ _ TT)).
  destruct (all_instants gs Ga TT1) as [d1' [o1' [gs' [X1 I1]]]]. rewrite E1 in X1. injection X1 as <- <-.
  assert (FULL : map key (sent_by qc o1) = tagged nums) by (apply prefix_len; [apply (cinv_prefix _ _ _ (di_c _ _ _ _ I1))|rewrite map_length, tagged_len; exact TA]).
  pose proof (di_c _ _ _ _ I1) as C1. rewrite FULL in C1.
  destruct (all_instants (gs ++ concat rs) G TT) as [d [o [_gs [X2 I2]]]]. exists d, o. split; auto. pose proof X2 as X3. rewrite design_app, E1 in X3.
  pose proof (quiet_run (concat rs) (z_sys d1) (z_client d1) (z_adder d1) C1) as QR. assert (MK : d1 = mkD (z_sys d1) (z_client d1) (z_adder d1)) by (destruct d1; reflexivity). rewrite <- MK in QR.
  destruct (design_run w rf cs ms pl f nums (concat rs) d1) as [[d2 o2]|] eqn:X4; [|discriminate]. injection X3 as <- <-. destruct QR as [QR QC]. set (h := fun g => connected pl g (z_client d1)) in *.
  assert (EQ : concat (map (map h) rs) = map h (concat rs)) by (symmetry; apply concat_map).
  assert (AH : forall l, map g_acts (map h l) = map g_acts l) by (intros l; rewrite map_map; reflexivity).
  assert (AA : map g_acts (gs' ++ concat (map (map h) rs)) = map g_acts (gs ++ concat rs)) by (rewrite EQ, !map_app, AH, (di_acts _ _ _ _ I1); reflexivity).
  assert (KK : map g_clk (gs' ++ concat (map (map h) rs)) = map g_clk (gs ++ concat rs)) by (rewrite EQ, !map_app, (di_clk _ _ _ _ I1); f_equal; rewrite map_map; reflexivity).
  assert (CY : SysProgressSpec.cycles (gs' ++ concat (map (map h) rs)) = SysProgressSpec.cycles (gs ++ concat rs)).
  { unfold SysProgressSpec.cycles. revert AA KK. generalize (gs' ++ concat (map (map h) rs)) (gs ++ concat rs). intros a. induction a as [|x a IH]; intros [|y c] A1 A2; try discriminate; [reflexivity|]. injection A1 as A1 A3. injection A2 as A2 A4. cbn [flat_map]. rewrite A1, A2, (IH _ A3 A4). reflexivity. }
  assert (RUN : sys_run w rf cs ms (gs' ++ concat (map (map h) rs)) (sys0 w cs ms) = Some (z_sys d2, o1 ++ o2)) by (rewrite sys_run_app, (di_run _ _ _ _ I1), EQ, QR; reflexivity).
  assert (QU : shown pl (z_client d1) = None) by (unfold shown; rewrite (proj2 (client_done _ _ true C1)); reflexivity).
  assert (GG : Forall (good_ginst w cs ms) (gs' ++ concat (map (map h) rs))).
  { apply Forall_app. split; [apply (di_good _ _ _ _ I1)|]. rewrite EQ. apply Forall_forall. intros g' Hg. apply in_map_iff in Hg. destruct Hg as [g [<- Hg]]. rewrite Forall_forall in Gb. destruct (Gb g Hg) as [A1 A2 A3 A4 A5].
    constructor; auto. intros n i t _ _ X. cbn [h connected g_inp] in X. rewrite QU in X. destruct (_ && _)%bool; discriminate. }
  assert (TT2 : take_turns N (flat_map g_acts (gs' ++ concat (map (map h) rs)))) by (rewrite (flat_acts _ _ AA); exact TT).
  destruct (H gs' (map (map h) rs) (z_sys d1) o1 (di_run _ _ _ _ I1) GG) as [s [o [E R]]]; auto.
  - rewrite (flat_acts _ _ AA). exact UH.
  - rewrite CY. exact GR.
  - apply Forall_forall. intros r Hr. apply in_map_iff in Hr. destruct Hr as [r0 [<- Hr]]. rewrite Forall_forall in RR. specialize (RR r0 Hr). unfold SysProgressSpec.round in *. rewrite (flat_acts _ _ (AH r0)). exact RR.
  - rewrite EQ. apply Forall_forall. intros g' Hg. apply in_map_iff in Hg. destruct Hg as [g [<- Hg]]. rewrite Forall_forall in HG. constructor; [|reflexivity|exact (HG g Hg)]. intros n i _. cbn [h connected g_inp]. rewrite QU. destruct (_ && _)%bool; reflexivity.
  - rewrite map_length. eapply Nat.le_trans; [|exact LB]. apply Nat.mul_le_mono_l. apply le_n_S. unfold accepted. rewrite <- TA. unfold taken_by_noc.
    apply (sum_one (fun n => length (sent_by (Z.of_nat n) o1)) (p_client pl)). intros x Hx. rewrite (di_other _ _ _ _ I1); [reflexivity|]. unfold qc. lia.
  - assert (EE : Some (s, o) = Some (z_sys d2, o1 ++ o2)) by (etransitivity; [symmetry; exact E|exact RUN]). injection EE as -> ->.
    destruct (arrives _ _ _ GG TT2 RUN (di_other _ _ _ _ I2) (di_sent _ _ _ _ I2)) as [_ A]. rewrite (A R). apply prefix_len; [apply (cinv_prefix _ _ _ (di_c _ _ _ _ I2))|].
    pose proof (cinv_prefix _ _ _ (di_c _ _ _ _ I2)) as [q Hq]. rewrite sent_app, map_app, FULL in *. rewrite app_length. apply (f_equal (@length _)) in Hq. rewrite !app_length in Hq. lia.
Qed.

(** ** Then two edges of the adder bring the verdict *)
Lemma grows : forall gs l (d : design (P := P)) o, Forall (good_ginst w cs ms) (gs ++ l) -> take_turns N (flat_map g_acts (gs ++ l)) -> design_run w rf cs ms pl f nums gs (design0 w cs ms f nums) = Some (d, o) -> map key' (seen_at (p_adder pl) 0 o) = tagged nums -> nums <> [] ->
  exists (d' : design (P := P)) o', design_run w rf cs ms pl f nums (gs ++ l) (design0 w cs ms f nums) = Some (d', o') /\ ainv f nums (tagged nums) (z_adder d') /\
    (1 <= edges pl l -> d_valid (z_adder d') = true) /\ (2 <= edges pl l -> d_verdict (z_adder d') <> None).
Proof.
  intros gs l d o G TT E SA NE. induction l as [|g l IH] using rev_ind.
  - rewrite app_nil_r in *. destruct (all_instants gs G TT) as [d' [o' [gs' [E' I]]]]. rewrite E in E'. injection E' as <- <-. exists d, o. split; auto. pose proof (di_a _ _ _ _ I) as A. rewrite SA in A. split; auto. cbn. split; lia.
  - destruct (all_instants _ G TT) as [d2 [o2 [gs2 [E2 I2]]]]. rewrite app_assoc in *. pose proof G as G0. apply Forall_app in G0. destruct G0 as [Ga _]. assert (TT1 : take_turns N (flat_map g_acts (gs ++ l))) by (rewrite flat_map_app in TT; exact (turns_pre _ _ _ TT)).
    destruct (IH Ga TT1) as [d1 [o1 [E1 [A1 [A2 A3]]]]]. exists d2, o2. split; auto.
    assert (SN : map key' (seen_at (p_adder pl) 0 o2) = tagged nums).
    { assert (TT2 : take_turns N (flat_map g_acts gs2)) by (rewrite (flat_acts _ _ (di_acts _ _ _ _ I2)); exact TT). destruct (arrives _ _ _ (di_good _ _ _ _ I2) TT2 (di_run _ _ _ _ I2) (di_other _ _ _ _ I2) (di_sent _ _ _ _ I2)) as [PR _].
      pose proof (prefix_trans' _ _ _ _ PR (cinv_prefix _ _ _ (di_c _ _ _ _ I2))) as [q Hq]. pose proof E2 as E4. rewrite <- app_assoc, design_app, E in E4. destruct (design_run w rf cs ms pl f nums (l ++ [g]) d) as [[d5 o5]|]; [|discriminate]. injection E4 as _ <-.
      rewrite seen_app, map_app, SA in *. apply (f_equal (@length _)) in Hq. rewrite !app_length in Hq. destruct (map key' (seen_at (p_adder pl) 0 o5)); [apply app_nil_r|cbn in Hq; lia]. }
    pose proof (di_a _ _ _ _ I2) as A. rewrite SN in A. split; auto. rewrite design_app, E1 in E2. cbn [design_run] in E2. unfold design_step in E2. destruct (sys_step _ _ _ _ _ _) as [[s3 o3]|]; [|discriminate]. destruct (if client_clock pl (g_acts g) then _ else _) as [c3|]; [|discriminate]. injection E2 as <- _. cbn [z_adder].
    unfold edges in *. rewrite filter_app, app_length. cbn [filter]. destruct (adder_clock pl (g_acts g)); cbn [length]; [|rewrite Nat.add_0_r; auto].
    assert (FI : d_fin (z_adder d1) = true) by (apply A1; auto). unfold adder_edge. cbn [d_valid d_verdict]. rewrite FI. split; [reflexivity|]. intros L. specialize (A2 ltac:(lia)). rewrite A2. destruct (d_verdict (z_adder d1)); discriminate.
Qed.
End Sys.
