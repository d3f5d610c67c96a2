(** A whole system empties. *)
From Coq Require Import ZArith Arith Bool List Lia Permutation.
From Verif Require Import Bits Fupd ArbiterModel AllocModel AllocSpec BufferModel BufferSpec BufferProofs RouteModel RouteSpec RouteMeshProofs ChannelModel CreditModel IqRouterModel IqRouterSpec IqRouterProofs NetModel NetSpec NetProgressSpec NetProofs NetSum NetPotential NetStuck NetProgress NetMore
  NetMeshModel NetMeshSpec NetMeshProofs NetMeshProgress StreamSpec StreamProofs TermModel TermSpec TermProofs TermFlow AxisFormatModel AxisSlaveModel AxisSlaveSpec AxisSlaveProofs AxisMasterModel AxisMasterSpec AxisMasterProofs EndToEndSpec EndToEndProofs
  FlitCode SysModel SysSpec SysLemmas SysBridge SysProofs SysProgressSpec TermProgress Prop_Net.
Import ListNotations.
Open Scope nat_scope.

(** ** Lists *)
Lemma lens : forall A (f : nat -> list A) n, Z.of_nat (length (flat_map f (seq 0 n))) = total (fun i => Z.of_nat (length (f i))) n.
Proof.
  intros A f n. induction n as [|n IH]; [reflexivity|]. rewrite seq_S, flat_map_app, app_length, total_S, <- IH. cbn [flat_map plus]. rewrite app_nil_r. lia.
Qed.
Lemma total_upd : forall (f g : nat -> Z) n m, n < m -> (forall i, i < m -> i <> n -> g i = f i) -> (total g m = total f m - f n + g n)%Z.
Proof.
  intros f g n m Hn H. rewrite (total_ext g (fupd f n (g n)) m); [rewrite total_fupd by auto; lia|]. intros i Hi. unfold fupd. destruct (Nat.eqb_spec i n) as [->|]; auto.
Qed.
Lemma total_null : forall f n, (forall i, i < n -> (0 <= f i)%Z) -> (total f n <= 0)%Z -> forall i, i < n -> f i = 0%Z.
Proof. intros f n H0 H i Hi. pose proof (total_part f n i H0 Hi). specialize (H0 i Hi). lia. Qed.
Lemma cut : forall A (ps : list (list A)) a b, a ++ b = concat ps ->
  exists ps1, (forall p, In p ps1 -> In p ps) /\ (a = concat ps1 \/ exists p l0 x l1 r, In p ps /\ p = l0 ++ x :: l1 /\ a = concat ps1 ++ l0 /\ b = x :: r).
Proof.
  intros A ps. induction ps as [|p ps IH]; intros a b E; cbn [concat] in E.
  - apply app_eq_nil in E. destruct E as [-> _]. exists []. split; auto.
  - apply app_eq_app in E. destruct E as [l [[-> E]|[-> ->]]].
    + destruct (IH l b (eq_sym E)) as [ps1 [H1 H2]]. exists (p :: ps1). split; [intros q [<-|Hq]; [left|right]; auto|]. cbn [concat]. destruct H2 as [->|(q & l0 & x & l1 & r & Q1 & Q2 & -> & Q4)]; [left; auto|right].
      exists q, l0, x, l1, r. rewrite <- app_assoc. split; [right; auto|auto].
    + destruct l as [|x l]; [exists [a]; cbn [concat]; rewrite !app_nil_r; split; [intros q [<-|[]]; left; auto|auto]|]. exists []. split; [intros q []|]. right. exists (a ++ x :: l), a, x, l, (l ++ concat ps). split; [left; auto|]. auto.
Qed.
Lemma parse_done : forall l, parse l = Some None -> l <> [] -> exists l' f, l = l' ++ [f] /\ IqRouterModel.f_tail f = true.
Proof.
  intros l H Nn. destruct (exists_last Nn) as [l' [f E]]. exists l', f. split; auto. subst l. rewrite IqRouterProofs.parse_snoc in H. unfold pstep in H. destruct (parse l') as [[q|]|]; try discriminate.
  - destruct (IqRouterModel.f_head f); [discriminate|]. destruct (IqRouterModel.f_pid f =? q)%Z; [|discriminate]. destruct (IqRouterModel.f_tail f); [reflexivity|discriminate].
  - destruct (IqRouterModel.f_head f); [|discriminate]. destruct (IqRouterModel.f_tail f); [reflexivity|discriminate].
Qed.
Lemma tails_app : forall a c, tails (a ++ c) = tails a + tails c.
Proof. intros. unfold tails. rewrite filter_app, app_length. reflexivity. Qed.

Lemma pend_empty : forall c s, AxisSlaveProofs.inv c s -> pend c s = [] -> infifo s = [] /\ injfifo s = [] /\ tobe s = None.
Proof.
  intros c s [_ I2] H. pose proof (pend_length c s) as L. rewrite H in L. cbn [length] in L. unfold na, nb, nr in L. destruct (tobe s); [cbn in L; lia|]. destruct (injfifo s); [|cbn in L; lia]. destruct (infifo s); auto. cbn [opt_list length] in L. lia.
Qed.

Lemma no_pair : forall (l : list bool), (forall l1 l2, l <> l1 ++ true :: true :: l2) -> forall l1 l2, l ++ [false] <> l1 ++ true :: true :: l2.
Proof.
  intros l H l1 l2 E. destruct (exists_last (l := true :: true :: l2) ltac:(discriminate)) as [r [z Er]]. rewrite Er, app_assoc in E. apply app_inj_tail in E. destruct E as [E <-]. destruct l2 as [|y l2].
  - destruct r as [|? [|? [|]]]; cbn in Er; discriminate.
  - destruct r as [|x1 [|x2 r]]; cbn in Er; try discriminate. injection Er as <- <- Er. apply (H l1 r E).
Qed.
Lemma new_pair : forall (l : list bool), (forall l1 l2, l <> l1 ++ true :: true :: l2) -> last l false = false -> forall l1 l2, l ++ [true] <> l1 ++ true :: true :: l2.
Proof.
  intros l H La l1 l2 E. destruct l2 as [|y l2].
  - change (l1 ++ [true; true]) with (l1 ++ [true] ++ [true]) in E. rewrite app_assoc in E. apply app_inj_tail in E. destruct E as [-> _]. rewrite last_last in La. discriminate.
  - destruct (exists_last (l := y :: l2) ltac:(discriminate)) as [r [z Er]]. rewrite Er in E. change (l1 ++ true :: true :: r ++ [z]) with (l1 ++ (true :: true :: r) ++ [z]) in E. rewrite app_assoc in E. apply app_inj_tail in E. destruct E as [E _]. apply (H l1 r E).
Qed.
Lemma dep_app : forall n a c, dep_acts n (a ++ c) = dep_acts n a ++ dep_acts n c. Proof. intros. apply flat_map_app. Qed.
Lemma depk_one : forall c s s' o, run_depk c s = Some (s', o) -> o = [] \/ exists v, o = [Free v].
Proof.
  intros c s s' o H. unfold run_depk in H. destruct (prioq s) as [|v0 q0]; [discriminate|]. destruct (check c s v0 _) as [ok0|]; [|discriminate]. destruct (if depk s then _ else _) as [[[q ok] d]|]; [|discriminate].
  destruct (d <? m_nif c); [|discriminate]. destruct ((length (outq s d) <? m_obdepth c) && ok); [|injection H as _ <-; auto]. destruct q as [|v q]; [discriminate|]. destruct (ejf s v) as [|f rest]; [discriminate|].
  destruct (f_tail f); [destruct (S (popc s v) <=? pushc s v); [|discriminate]|]; injection H as _ <-; eauto.
Qed.
Lemma iface_none : forall inp rdy n id, (forall i, inp i = None) -> iface_take inp rdy n id = None.
Proof. intros inp rdy n id H. unfold iface_take. destruct (find _ _) as [i|]; [rewrite H|]; reflexivity. Qed.

Lemma no_accept : forall c ev r t st st' o', (forall i, inp ev i = None) -> t <> TInj -> run_thread c ev r t st = (st', o') -> o' = [].
Proof.
  intros c ev r t st st' o' H Ht R. destruct t; [| |congruence]; cbn [run_thread] in R.
  - unfold run_iface in R. rewrite iface_none in R by auto. injection R as _ <-. reflexivity.
  - unfold run_pack in R. destruct (infifo st); [injection R as _ <-; reflexivity|]. destruct (_ <? _); injection R as _ <-; reflexivity.
Qed.
Lemma eject_plus : forall c x st m om, run_eject c true (load [x] st) = Some (m, om) -> pendfl st = None -> inq st = [] -> meas c m <= meas c st + 4.
Proof.
  intros c x st m om E Hp Hq. unfold run_eject in E. cbn [load pendfl inq ejf] in E. rewrite Hp in E. destruct ((0 <=? b_vc x)%Z && (Z.to_nat (b_vc x) <? m_nvc c)) eqn:C; [|discriminate]. apply andb_prop in C. destruct C as [_ C]. apply Nat.ltb_lt in C.
  destruct (length (ejf st (Z.to_nat (b_vc x))) <? m_ejdepth c); injection E as <- _; unfold meas; cbn [inq pendfl ejf constr]; rewrite Hp, Hq; cbn [length].
  - pose proof (sumf_one (m_nvc c) (fun v => length (ejf st v)) (fun v => length (fupd (ejf st) (Z.to_nat (b_vc x)) (ejf st (Z.to_nat (b_vc x)) ++ [to_sflit c x]) v)) (Z.to_nat (b_vc x)) C ltac:(intros j Hj; cbn beta; rewrite fupd_other; auto)) as SF. cbn beta in SF. rewrite fupd_same, app_length in SF. cbn [length] in SF.
    change (sumf (m_nif c) (wout c {| inq := []; pendfl := None; ejf := fupd (ejf st) (Z.to_nat (b_vc x)) (ejf st (Z.to_nat (b_vc x)) ++ [to_sflit c x]); pushc := pushc st; pushn := if b_tail x then fupd (pushn st) (Z.to_nat (b_vc x)) (S (pushc st (Z.to_nat (b_vc x)))) else pushn st; popc := popc st; prioq := prioq st; depk := depk st; constr := constr st; outq := outq st; chunk := chunk st; port := port st |})) with (sumf (m_nif c) (wout c st)). lia.
  - change (sumf (m_nif c) (wout c {| inq := []; pendfl := Some x; ejf := ejf st; pushc := pushc st; pushn := pushn st; popc := popc st; prioq := prioq st; depk := depk st; constr := constr st; outq := outq st; chunk := chunk st; port := port st |})) with (sumf (m_nif c) (wout c st)). lia.
Qed.
Lemma waiting_idle : forall s, waiting s = None -> AxisSlaveProofs.idle s.
Proof. intros s H. unfold waiting in H. unfold AxisSlaveProofs.idle, na, nb. destruct (tobe s); [discriminate|]. destruct (injfifo s); [|discriminate]. auto. Qed.

Lemma eq_thread_inj : forall t, t = TInj \/ t <> TInj.
Proof. destruct t; [right|right|left]; congruence. Qed.
Lemma eq_thread_ej : forall t, t = TEject \/ t <> TEject.
Proof. destruct t; [left|right|right]; congruence. Qed.

Fixpoint zc (o : Z) (l : list Z) : Prop := match l with [] => True | x :: r => (o < x)%Z /\ zc x r end.
Lemma last_cons : forall (x d : Z) l, last (x :: l) d = last l x.
Proof. intros x d l. revert x d. induction l as [|y l IH]; intros x d; auto. change (last (x :: y :: l) d) with (last (y :: l) d). rewrite !IH. reflexivity. Qed.
Lemma last_app' : forall l m (d : Z), last (l ++ m) d = last m (last l d).
Proof. induction l as [|x l IH]; intros m d; auto. cbn [app]. rewrite !last_cons. apply IH. Qed.
Lemma zc_app : forall l m o, zc o (l ++ m) -> zc o l /\ zc (last l o) m.
Proof. induction l as [|x l IH]; intros m o H; [split; [exact Logic.I|exact H]|]. cbn [app zc] in H. destruct H as [H1 H2]. rewrite last_cons. destruct (IH _ _ H2). split; [split|]; auto. Qed.
Lemma zc_growing : forall l, growing l -> exists o, zc o l.
Proof.
  intros [|x l] H; [exists 0%Z; exact Logic.I|]. exists (x - 1)%Z. split; [lia|]. revert x H. induction l as [|y l IH]; intros x H; [exact Logic.I|]. split; [apply (H [] x y l); reflexivity|]. apply IH. intros l1 a c l2 E. apply (H (x :: l1) a c l2). rewrite E. reflexivity.
Qed.
Lemma unhurried_pre : forall N l m, unhurried N (l ++ m) -> unhurried N l.
Proof. intros N l m H n l1 l2 Hn E. apply (H n l1 (l2 ++ dep_acts n m) Hn). rewrite dep_app, E, <- app_assoc. reflexivity. Qed.

(** A master adapter that holds no whole packet. *)
Lemma still_ma : forall c ps more s dl od v rcv, (forall v, Forall (wf_wide c) (ps v)) -> AxisMasterProofs.inv c ps more s dl od -> depk s = false -> inq s = [] -> pendfl s = None -> tails (ejf s v) = 0 -> rcv ++ more v = concat (ps v) ->
  (more v = [] -> ejf s v = []) /\ (ejf s v = [] \/ exists p, In p (ps v) /\ length (ejf s v) < length p) /\ (ejf s v <> [] -> forall l f, rcv = l ++ [f] -> b_tail f = false).
Proof.
  intros c ps more s dl od v rcv WF IV Dk Hq Hp Tl Er. destruct (i_R _ _ _ _ _ _ IV v) as [R [E1 E2]].
  assert (C0 : cur s v = []) by (unfold cur; rewrite Dk; destruct (prioq s); reflexivity). assert (P0 : pendv s v = []) by (unfold pendv; rewrite Hp; reflexivity). rewrite C0, P0, Hq in E2. cbn [app filter] in E2.
  pose proof (WF v) as W. rewrite E1 in W. apply Forall_app in W. destruct W as [_ W].
  assert (Lg : ejf s v = [] \/ exists p, In p R /\ length (ejf s v) < length p).
  { destruct R as [|p R]; [left; symmetry in E2; apply app_eq_nil in E2; tauto|]. right. exists p. split; [left; auto|]. apply Forall_inv in W. destruct W as (W1 & _ & _ & W4 & _).
    destruct (Nat.lt_ge_cases (length (ejf s v)) (length p)) as [|Lt]; auto. exfalso. cbn [concat] in E2. rewrite map_app in E2. destruct (exists_last W1) as [p0 [x Ex]].
    assert (Tx : b_tail x = true). { apply (W4 (length p0) x); [rewrite Ex, nth_error_app2, Nat.sub_diag; auto|rewrite Ex, app_length; cbn; lia]. }
    assert (In (to_sflit c x) (ejf s v)).
    { apply app_eq_app in E2. destruct E2 as [l [[E2 E3]|[E2 E3]]].
      - assert (l = []). { apply (f_equal (@length _)) in E2. rewrite app_length, map_length in E2. destruct l; auto. cbn in E2. lia. } subst l. rewrite app_nil_r in E2. rewrite <- E2, Ex. apply in_map, in_or_app. right. left. auto.
      - rewrite E2. apply in_or_app. left. apply in_map. rewrite Ex. apply in_or_app. right. left. auto. }
    apply (tails_0_in _ _ Tl) in H. cbn in H. congruence. }
  split; [|split].
  - intros M. destruct Lg as [|[p [Hp' Lt]]]; auto. exfalso. rewrite M in E2. cbn [map] in E2. rewrite app_nil_r in E2. apply (f_equal (@length _)) in E2. rewrite map_length in E2. apply in_split in Hp'. destruct Hp' as [R1 [R2 ->]]. rewrite concat_app, app_length in E2. cbn [concat] in E2. rewrite app_length in E2. lia.
  - destruct Lg as [|[p [Hp' Lt]]]; auto. right. exists p. split; auto. rewrite E1. apply in_or_app. right. auto.
  - intros Ne l f ->. destruct (b_tail f) eqn:Tf; auto. exfalso. rewrite E1, concat_app in Er. set (D := concat (map snd (filter (onp v) dl))) in *.
    assert (Ex : exists X, l ++ [f] = D ++ X /\ concat R = X ++ more v).
    { apply app_eq_app in Er. destruct Er as [X [[A1 A2]|[A1 A2]]]; [exists X; auto|]. exfalso. apply (f_equal (@length _)) in E2. rewrite A2, app_length, !map_length, app_length in E2. destruct (ejf s v); [congruence|cbn [length] in E2; lia]. }
    destruct Ex as [X [X1 X2]]. rewrite X2, map_app in E2. apply app_inv_tail in E2. destruct (exists_last (l := X)) as [X' [y Ey]]; [intros ->; cbn in E2; congruence|]. rewrite Ey, app_assoc in X1. apply app_inj_tail in X1. destruct X1 as [_ <-].
    assert (In (to_sflit c f) (ejf s v)) by (rewrite <- E2, Ey; apply in_map, in_or_app; right; left; auto). apply (tails_0_in _ _ Tl) in H. cbn in H. congruence.
Qed.
Lemma sumf_null : forall n f, (forall i, i < n -> f i = 0) -> sumf n f = 0.
Proof. intros n f H. unfold sumf. rewrite (map_ext_in f (fun _ => 0)) by (intros a Ha; apply H; apply in_seq in Ha; lia). induction (seq 0 n); auto. Qed.
Lemma meas_null : forall c s, inq s = [] -> pendfl s = None -> (forall v, v < m_nvc c -> ejf s v = []) -> constr s = [] -> (forall i, i < m_nif c -> outq s i = []) -> meas c s = 0.
Proof.
  intros c s H1 H2 H3 H4 H5. unfold meas. rewrite H1, H2, H4, (sumf_null (m_nvc c)), (sumf_null (m_nif c)); auto.
  - intros i Hi. unfold wout, todo. rewrite H5 by auto. reflexivity.
  - intros i Hi. rewrite H3 by auto. reflexivity.
Qed.

Lemma sys_run_app : forall P w rf cs ms a r (s : sys P), sys_run w rf cs ms (a ++ r) s = match sys_run w rf cs ms a s with Some (s1, o1) => match sys_run w rf cs ms r s1 with Some (s2, o2) => Some (s2, o1 ++ o2) | None => None end | None => None end.
Proof.
  intros P w rf cs ms a r. induction a as [|g a IH]; intros s; cbn [app sys_run]; [destruct (sys_run w rf cs ms r s) as [[s2 o2]|]; reflexivity|].
  destruct (sys_step w rf cs ms g s) as [[s1 o1]|]; auto. rewrite IH. destruct (sys_run w rf cs ms a s1) as [[s2 o2]|]; auto. destruct (sys_run w rf cs ms r s2) as [[s3 o3]|]; auto. rewrite app_assoc. reflexivity.
Qed.
Lemma total_scale : forall a f N, total (fun n => (a * f n)%Z) N = (a * total f N)%Z.
Proof. intros a f N. induction N as [|N IH]; [cbn; lia|]. rewrite !total_S, IH. lia. Qed.
Lemma total_sum : forall h N, total (fun n => Z.of_nat (h n)) N = Z.of_nat (list_sum (map h (seq 0 N))).
Proof. intros h N. induction N as [|N IH]; auto. rewrite total_S, IH, seq_S, map_app, list_sum_app. cbn [map list_sum fold_right Nat.add]. lia. Qed.
Lemma sumf_part : forall n f i, sumf n f = 0 -> i < n -> f i = 0.
Proof.
  intros n f i H Hi. unfold sumf in H. assert (In i (seq 0 n)) by (apply in_seq; lia). clear Hi. induction (seq 0 n) as [|a l IH]; [contradiction|]. cbn [map list_sum fold_right] in H. destruct H0 as [->|H0]; [lia|]. apply IH; auto. unfold list_sum. lia.
Qed.
Lemma meas_zero : forall c ps more s dl od, AxisMasterProofs.inv c ps more s dl od -> meas c s = 0 -> (forall v, v < m_nvc c -> ejf s v = []) /\ depk s = false /\ forall i, i < m_nif c -> outq s i = [].
Proof.
  intros c ps more s dl od IV M. unfold meas in M. assert (Cz : constr s = []) by (destruct (constr s); auto; cbn [length] in M; lia). split; [|split].
  - intros v Hv. assert (length (ejf s v) = 0) by (apply (sumf_part (m_nvc c) (fun v => length (ejf s v))); auto; lia). destruct (ejf s v); auto; discriminate.
  - destruct (depk s) eqn:D; auto. destruct (i_busy _ _ _ _ _ _ IV D) as (v & q & f & con & _ & E & _). congruence.
  - intros i Hi. assert (W : wout c s i = 0) by (apply (sumf_part (m_nif c) (wout c s)); auto; lia). unfold wout in W. destruct (outq s i) eqn:E; auto. exfalso. pose proof (pv_le _ _ _ _ _ _ i IV). destruct (todo_pos _ _ _ _ _ _ i IV); [congruence|]. lia.
Qed.

Section Sys.
Variables (P : bpolicy) (mesh nl : bool) (k : Z) (nn : nat) (b : bcfg) (rd : bool) (cd ob : Z) (bz vz : Z) (ch : Z -> nat) (cs : Z -> scfg) (ms : nat -> mcfg).
Let w := cube mesh nl k nn b rd cd ob.
Let T := sys_traffic ch.
Let rf := routes_of (dim_order_mesh k nn (k ^ Z.of_nat nn)) T.
Let N := w_nodes w.
Let slots := vc_size w bz vz.
Let ok := head_ok (rf_dor k nn) k nn T (bc_vcs b).
Let dist := cube_rank k nn.
Variable I : bst -> po_st P -> Prop.
Hypothesis K : (1 <= k)%Z.
Hypothesis Hb : bz <> 0%Z.
Hypothesis Hv : 0 < bc_vcs b.
Hypothesis EP : new_private (bc_vcs b) bz vz (bc_wait b) = Some (b, P).
Hypothesis FT : fitting N (bc_vcs b) slots ch cs ms.
Hypothesis RM : roomy N slots cs ms.
Hypothesis OB : ob <> 0%Z.
Hypothesis HP : policy_ok (w_b w) P I.
Hypothesis HS : self_steady P.
Hypothesis HC : forall b0 p, base_ok (w_b w) b0 -> I b0 p -> (b_occ b0 <= bc_size (w_b w))%Z.

Local Notation PIx := (PI P mesh nl k nn b rd cd ob ch cs ms).
Local Notation BIx := (BI P mesh nl k nn b rd cd ob ch cs ms).
Local Notation TXx := (TX P w rf ok I).
Local Notation tkx := (tk P w rf).
Local Notation outsx := (outs P w rf).
Local Notation evsx := (evs P cs).
Local Notation pendx n s := (pend (cs (Z.of_nat n)) (y_sl s n)).

Lemma s_W : wired w. Proof. apply cube_wired. exact K. Qed.
Lemma s_HB : own_buffers (w_b w) P slots. Proof. exists bz, vz. repeat (split; [first [exact Hb|exact Hv|exact EP]|]). reflexivity. Qed.
Lemma s_slots : (0 < slots)%Z. Proof. apply (NetStuck.own_pos _ _ _ s_HB). Qed.
Lemma s_RO : routes_ok w rf ok. Proof. apply dor_routes. exact K. Qed.
Lemma s_HD : descends w ok dist.
Proof. eapply (cube_descends k nn mesh nl b rd cd ob (rf_dor k nn) T); [exact K|intros id _; apply dor_delivers; exact K|intros x y; apply dor_dor_only]. Qed.
Lemma s_HO : forall r, r < w_n w -> c_obuf (w_cfg w r) <> 0%Z. Proof. intros r _. exact OB. Qed.
Lemma s_LE : forall t, t_rf t = rf -> leads w ok t.
Proof.
  intros t E. eapply (cube_leads k nn mesh nl b rd cd ob (rf_dor k nn) T); [exact K|intros id _; apply dor_delivers; exact K|apply dor_one|].
  intros r i f Hh. rewrite E. exists (match dim_order_mesh k nn (k ^ Z.of_nat nn) (NetMeshSpec.asked T r i f) with Some es => Some (es, tt) | None => None end). split; [reflexivity|].
  unfold rf, routes_of. destruct (dim_order_mesh _ _ _ _); reflexivity.
Qed.

Section Inv.
Context {g : ginst} {rdy : nat -> option nat} {sh : nat -> list instant} {mh : nat -> list minstant} {prev don : list act} {cn av : nat -> bool} {es : list tev} {o : list sobs} {s : sys P}.
Hypothesis J : PIx g rdy sh mh prev don cn av es o s.
Hypothesis TT : take_turns N (prev ++ don).
Lemma s_tx : slow es -> exists xs ys hb, TXx es (of_net o) (y_t s) xs ys hb.
Proof.
  intros Sl. apply (TX_all P w rf ok I slots s_W s_HB HP HS HC s_RO s_LE); auto.
  - apply (p_run _ _ _ _ _ _ _ _ _ _ _ _ _ _ _ _ _ _ _ _ _ _ _ J).
  - apply mesh_decent; auto. apply (p_dec _ _ _ _ _ _ _ _ _ _ _ _ _ _ _ _ _ _ _ _ _ _ _ J).
  - eapply turned; eauto.
Qed.
Lemma s_inv : forall n, AxisSlaveProofs.inv (cs (Z.of_nat n)) (y_sl s n).
Proof. intros n. eapply (AxisSlaveProofs.run_step (cs (Z.of_nat n)) (proj1 (ft_s _ _ _ _ _ _ FT _))); [apply AxisSlaveProofs.inv_init|eapply p_srun; eauto]. Qed.

(** The invariant of a master adapter. *)
Lemma minv : NoDup don -> forall d, d < N -> exists ps more dl od,
  (forall v, Forall (wf_wide (ms d)) (ps v)) /\ AxisMasterProofs.inv (ms d) ps more (y_ma s d) dl od /\ (forall v, m_nvc (ms d) <= v -> ps v = []) /\
  (forall v p, In p (ps v) -> (Z.of_nat (length p) <= slots)%Z) /\ (forall v, filter (on_vc v) (map bs_flit (got d (of_net o))) ++ more v = concat (ps v)) /\
  (TermSpec.drained w es (y_t s) -> (forall n, n < N -> pendx n s = []) -> forall v, more v = []) /\
  (don = [] -> meas (ms d) (y_ma s d) <= 5 * length (got d (of_net o))).
Proof.
  intros ND d Hd. pose proof (ft_m _ _ _ _ _ _ FT d Hd) as [GM _].
  pose proof (p_ma _ _ _ _ _ _ _ _ _ _ _ _ _ _ _ _ _ _ _ _ _ _ _ J d) as [o0 [o1 [Eo H]]]. destruct (H []) as [s1 [R E]]. rewrite app_nil_r in R. rewrite load_nil in E by apply (p_q _ _ _ _ _ _ _ _ _ _ _ _ _ _ _ _ _ _ _ _ _ _ _ J).
  destruct (is_noc P mesh nl k nn b rd cd ob bz vz ch cs ms K Hb Hv EP FT J TT d Hd) as [NC NE].
  assert (FI := fun q e => noc_fits P mesh nl k nn b rd cd ob ch cs ms J d q e Hd).
  destruct (arrivals (ms d) cs _ (toward d) (by_type ch) (senders mesh nl k nn b rd cd ob bz vz ch cs ms FT d Hd) FI _ NC) as (Q & Q1 & Q2 & _ & Q4 & Q5).
  set (input := map bs_flit (got d (of_net o))) in *. set (ps := fun v => map (fun q => pkv cs v (fst q) (snd q)) (Q v)) in *.
  destruct (good_wide _ _ _ Q2) as [Hin Hps]. set (more := fun v => skipn (length (filter (on_vc v) input)) (concat (ps v))).
  assert (HM : forall v, filter (on_vc v) input ++ more v = concat (ps v)).
  { intros v. destruct (Hps v) as [_ [m Em]]. unfold more. rewrite <- Em, skipn_app, skipn_all, Nat.sub_diag. reflexivity. }
  assert (WF : forall v, Forall (wf_wide (ms d)) (ps v)) by (intros v; apply (Hps v)).
  pose proof (AxisMasterProofs.inv_init (ms d) ps more input Hin HM) as I0. pose proof (p_mh _ _ _ _ _ _ _ _ _ _ _ _ _ _ _ _ _ _ _ _ _ _ _ J d) as OKM.
  destruct (m_run_step (ms d) GM ps more WF (mh d) _ _ _ OKM I0 (fun _ => eq_refl)) as (s2 & o2 & dl & od & R2 & I2 & _ & _ & F2). rewrite R in R2. injection R2 as <- <-.
  destruct (AxisMasterProofs.threads_step (ms d) GM ps more WF (mseen g d [] (av d)) (mproj d don) s1 dl od (mproj_once d don ND) I2 (fun _ => F2)) as (s3 & o3 & dl' & od' & R3 & I3 & _). rewrite E in R3. injection R3 as <- <-.
  exists ps, more, dl', od'. split; auto. split; auto. split; [intros v Hv'; unfold ps; rewrite (Q4 v Hv'); reflexivity|]. split; [|split; [exact HM|split]].
  - intros v p Hp. apply in_map_iff in Hp. destruct Hp as [[q e] [<- Hq]]. specialize (Q1 v _ Hq). cbn [fst snd] in *. unfold mine in Q1. apply filter_In in Q1. destruct Q1 as [Q1 _]. unfold pkv. rewrite map_length.
    rewrite (trace_sevs P mesh nl k nn b rd cd ob ch cs ms J q) in Q1. destruct (Z.leb_spec 0 q) as [Hq0|]; [|destruct Q1].
    destruct (acc_ok P mesh nl k nn b rd cd ob ch cs ms J (Z.to_nat q) e Q1) as [Ei _].
    destruct (Nat.lt_ge_cases (Z.to_nat q) N) as [HN|HN]; [|destruct (p_out _ _ _ _ _ _ _ _ _ _ _ _ _ _ _ _ _ _ _ _ _ _ _ J _ HN) as [X _]; rewrite X in Q1; destruct Q1].
    pose proof (ro_len _ _ _ _ RM (Z.to_nat q) (e_iface e) HN Ei) as L. rewrite Z2Nat.id in * by auto. rewrite packet_length; auto. apply (ft_s _ _ _ _ _ _ FT).
  - intros DR PN v. assert (ID : forall q, idle (cs q) (sevs (g := g) (sh := sh) (don := don) (cn := cn) q)).
    { intros q. unfold idle, sevs. destruct (Z.leb_spec 0 q) as [Hq0|]; [|cbn; auto]. pose proof (p_srun P mesh nl k nn b rd cd ob ch cs ms J (Z.to_nat q)) as S. rewrite Z2Nat.id in S by auto. rewrite S. cbn [fst].
      destruct (Nat.lt_ge_cases (Z.to_nat q) N) as [HN|HN]; [|apply (p_out _ _ _ _ _ _ _ _ _ _ _ _ _ _ _ _ _ _ _ _ _ _ _ J _ HN)]. specialize (PN _ HN). rewrite Z2Nat.id in PN by auto. pose proof (s_inv (Z.to_nat q)) as SI. rewrite Z2Nat.id in SI by auto. apply (pend_empty _ _ SI PN). }
    destruct (Q5 (NE DR) ID v) as [Q6 _]. fold (ps v) in Q6. unfold more. rewrite Q6. apply skipn_all.
  - intros Dn. rewrite Dn in E. cbn [mproj flat_map m_threads] in E. injection E as <- _. pose proof (run_meas (ms d) GM ps more WF (mh d) _ _ _ _ _ OKM I0 (fun _ => eq_refl) R) as M. rewrite meas_init in M. unfold input in M. rewrite map_length in M. lia.
Qed.
(** The flit a node has to send next when it has sent part of a packet. *)
Lemma next_vc : forall n v q, n < N -> parse (IqRouterSpec.on_vc v (took n (of_net o))) = Some (Some q) -> exists x r, map (to_bflit (cs (Z.of_nat n))) (pendx n s) = x :: r /\ vcn x = v.
Proof.
  intros n v q Hn H. rewrite <- parse_strip, <- on_vc_strip, (p_put _ _ _ _ _ _ _ _ _ _ _ _ _ _ _ _ _ _ _ _ _ _ _ J n) in H. unfold IqRouterSpec.on_vc in H. rewrite filter_map_comm in H.
  pose proof (once P mesh nl k nn b rd cd ob bz vz ch cs ms FT J n) as O. rewrite flat_map_concat_map in O. destruct (cut _ _ _ _ O) as [ps1 [H1 H2]].
  assert (WH : forall p, In p (map (packet_of (cs (Z.of_nat n))) (accepts (of_slave n o))) -> whole b_head b_tail b_pid vcn (fun f => ch (b_type f)) sr ds p).
  { intros p Hp. apply in_map_iff in Hp. destruct Hp as [e [<- He]]. eapply whole_packet; eauto. apply (acc_ok P mesh nl k nn b rd cd ob ch cs ms J n e He). }
  assert (W1 : Forall (whole b_head b_tail b_pid vcn (fun f => ch (b_type f)) sr ds) ps1) by (apply Forall_forall; auto).
  destruct (filter_wholes b_head b_tail b_pid vcn (fun f => ch (b_type f)) sr ds v ps1 W1) as [qs [W2 [_ Eq]]].
  assert (PN : parse (map net_flit (filter (fun f => Nat.eqb (vcn f) v) (concat ps1))) = Some None) by (rewrite Eq; apply (wholes_parse bcode b_head b_tail b_pid vcn (fun f => ch (b_type f)) sr ds qs W2)).
  destruct H2 as [E|(p & l0 & x & l1 & r & Hp & Ep & E & Er)]; rewrite E in H; [change (parse (map net_flit (filter (fun f => Nat.eqb (vcn f) v) (concat ps1))) = Some (Some q)) in H; congruence|].
  exists x, r. split; auto. destruct (WH p Hp) as (_ & _ & x0 & u & t0 & s0 & d0 & WF). assert (Vx : vcn x = u) by (apply WF; rewrite Ep, in_app_iff; right; left; auto). rewrite Vx. destruct (Nat.eq_dec u v) as [|Nu]; auto. exfalso.
  change (parse (map net_flit (filter (fun f => Nat.eqb (vcn f) v) (concat ps1 ++ l0))) = Some (Some q)) in H. rewrite filter_app, (filter_none _ _ l0), app_nil_r in H; [congruence|].
  intros y Hy. apply Nat.eqb_neq. destruct (WF y) as [_ [Vy _]]; [rewrite Ep, in_app_iff; auto|]. congruence.
Qed.

(** Every flit is somewhere. *)
Lemma got_kind : forall d f, d < N -> In f (got d (of_net o)) -> vcn (bs_flit f) = IqRouterModel.f_vc f /\ b_tail (bs_flit f) = IqRouterModel.f_tail f.
Proof.
  intros d f Hd Hf. pose proof (turned P mesh nl k nn b rd cd ob ch cs ms J TT) as U.
  destruct (carried_at P mesh nl k nn b rd cd ob bz vz ch cs ms K Hb Hv EP FT J es (y_t s) (of_net o) (p_run _ _ _ _ _ _ _ _ _ _ _ _ _ _ _ _ _ _ _ _ _ _ _ J) (p_dec _ _ _ _ _ _ _ _ _ _ _ _ _ _ _ _ _ _ _ _ _ _ _ J) U (p_put _ _ _ _ _ _ _ _ _ _ _ _ _ _ _ _ _ _ _ _ _ _ _ J)) as [_ C]. destruct (C d Hd) as [M1 [M2 M3]].
  pose proof (arrived_sent bcode bdecode b_head b_tail b_pid vcn (fun f => ch (b_type f)) sr ds bdecode_code N (bc_vcs b) (fun m => took m (of_net o)) (got d (of_net o)) (fun m => injects (of_slave m o)) d
    (fun m _ => p_put _ _ _ _ _ _ _ _ _ _ _ _ _ _ _ _ _ _ _ _ _ _ _ J m) (own P mesh nl k nn b rd cd ob bz vz ch cs ms Hv FT J) M1 (fun m v Hm Hv' => proj1 (M3 m v Hm Hv')) f Hf) as [A _]. change (dec bdecode f) with (bs_flit f) in A.
  split; [apply (f_equal IqRouterModel.f_vc) in A; symmetry; exact A|apply (f_equal IqRouterModel.f_tail) in A; symmetry; exact A].
Qed.
Lemma pend_vcs : forall n x r, n < N -> map (to_bflit (cs (Z.of_nat n))) (pendx n s) = x :: r -> vcn x < bc_vcs b.
Proof.
  intros n x r Hn E. destruct (flit_facts P mesh nl k nn b rd cd ob bz vz ch cs ms Hv FT J n x Hn) as [_ [B [C _]]].
  - rewrite <- (once P mesh nl k nn b rd cd ob bz vz ch cs ms FT J n), E. apply in_or_app. right. left. reflexivity.
  - unfold vcn. rewrite B, Nat2Z.id. exact C.
Qed.
Lemma balance : forall xs ys hb, TXx es (of_net o) (y_t s) xs ys hb ->
  (total (fun n => Z.of_nat (length (flat_map (packet_of (cs (Z.of_nat n))) (accepts (of_slave n o))))) N =
   total (fun n => Z.of_nat (length (pendx n s))) N + total (fun n => Z.of_nat (length (opt (tm_inj (y_t s) n)))) N + Z.of_nat (length (inside w (tm_net (y_t s)))) +
   total (fun n => Z.of_nat (length (unread n es (y_t s)))) N + total (fun n => Z.of_nat (length (got n (of_net o)))) N)%Z.
Proof.
  intros xs ys hb X. pose proof (tx_ti _ _ _ _ _ _ _ _ _ _ _ X) as Ti. pose proof (put_took _ _ _ _ _ _ _ _ _ _ _ X) as Pt.
  pose proof (net_balance P w ok s_W (own_some _ _ _ s_HB) _ _ _ _ _ (ti_ni _ _ _ _ _ _ _ _ _ _ _ _ Ti)) as B. apply Permutation_length in B. rewrite !map_length, app_length in B. apply (f_equal Z.of_nat) in B. rewrite Nat2Z.inj_add, !lens in B.
  change (w_nodes w) with N in B, Pt. unfold put in Pt. rewrite amount_total in Pt. change (w_nodes w) with N in Pt.
  assert (E1 : total (fun n => Z.of_nat (length (ejected (outsx es) n))) N = (total (fun n => Z.of_nat (length (got n (of_net o)))) N + total (fun n => Z.of_nat (length (unread n es (y_t s)))) N)%Z).
  { rewrite <- total_add. apply total_ext. intros n Hn. rewrite <- (ti_got _ _ _ _ _ _ _ _ _ _ _ _ Ti n Hn), app_length. lia. }
  assert (E2 : total (fun n => Z.of_nat (length (flat_map (packet_of (cs (Z.of_nat n))) (accepts (of_slave n o))))) N = (total (fun n => Z.of_nat (length (took n (of_net o)))) N + total (fun n => Z.of_nat (length (pendx n s))) N)%Z).
  { rewrite <- total_add. apply total_ext. intros n Hn. rewrite <- (once P mesh nl k nn b rd cd ob bz vz ch cs ms FT J n), app_length, map_length.
    pose proof (f_equal (@length _) (p_put _ _ _ _ _ _ _ _ _ _ _ _ _ _ _ _ _ _ _ _ _ _ _ J n)) as L. rewrite !map_length in L. lia. }
  lia.
Qed.
End Inv.

(** ** Configurations *)
Variable o0 : Z.
Record cf := mkC { qe : list tev; qo : list sobs; qs : sys P }.
Definition Fl (o : list sobs) : Z := total (fun n => Z.of_nat (length (flat_map (packet_of (cs (Z.of_nat n))) (accepts (of_slave n o))))) N.
Definition Gt (o : list sobs) : Z := total (fun n => Z.of_nat (length (got n (of_net o)))) N.
Definition potn (s : sys P) (n : nat) : nat := pot (cs (Z.of_nat n)) (length (pendx n s)) (y_sl s n).
Definition psi (c : cf) : Z := (total (fun n => Z.of_nat (potn (qs c) n)) N + total (fun n => Z.of_nat (meas (ms n) (y_ma (qs c) n))) N + 5 * (Fl (qo c) - Gt (qo c)))%Z.
Definition om (c : cf) : Z := (worth P w rf dist o0 (qe c) (y_t (qs c)) + (per_flit w dist + 1) * (Fl (qo c) - put P w rf (qe c)))%Z.
Definition tokn (c : cf) (n : nat) : list flit := took n (of_net (qo c)).
Definition gotn (c : cf) (n : nat) : list flit := got n (of_net (qo c)).
Record calm (c c' : cf) : Prop := {
  k_pend : forall n, map (to_bflit (cs (Z.of_nat n))) (pendx n (qs c')) = map (to_bflit (cs (Z.of_nat n))) (pendx n (qs c));
  k_idle : forall n, pendx n (qs c) <> [] -> (AxisSlaveProofs.idle (y_sl (qs c) n) <-> AxisSlaveProofs.idle (y_sl (qs c') n));
  k_ma : forall n, frozen (y_ma (qs c) n) (y_ma (qs c') n);
  k_fr : forall n, fr (y_ma (qs c) n) -> fr (y_ma (qs c') n);
  k_took : forall n, tokn c' n = tokn c n;
  k_got : forall n, gotn c' n = gotn c n;
  k_acc : forall n, accepts (of_slave n (qo c')) = accepts (of_slave n (qo c));
  k_outs : exists zz, outsx (qe c') = outsx (qe c) ++ zz }.
Lemma calm_refl : forall c, calm c c.
Proof. intros c. constructor; auto; try reflexivity; [|exists []; symmetry; apply app_nil_r]. intros n. repeat split; auto. Qed.
Lemma calm_trans : forall a c d, calm a c -> calm c d -> calm a d.
Proof.
  intros a c d A B. constructor; intros.
  - rewrite (k_pend _ _ B), (k_pend _ _ A). reflexivity.
  - rewrite (k_idle _ _ A n H). apply (k_idle _ _ B). intros E. apply H. pose proof (k_pend _ _ A n) as X. rewrite E in X. destruct (pendx n (qs a)); [reflexivity|discriminate].
  - destruct (k_ma _ _ A n) as (A1 & A2 & A3 & A4 & A5). destruct (k_ma _ _ B n) as (B1 & B2 & B3 & B4 & B5). split; [congruence|]. split; [congruence|]. split; [intros; rewrite B3; auto|]. split; [intros; rewrite B4; auto|congruence].
  - apply (k_fr _ _ B), (k_fr _ _ A). auto.
  - rewrite (k_took _ _ B). apply (k_took _ _ A).
  - rewrite (k_got _ _ B). apply (k_got _ _ A).
  - rewrite (k_acc _ _ B). apply (k_acc _ _ A).
  - destruct (k_outs _ _ A) as [z1 E1]. destruct (k_outs _ _ B) as [z2 E2]. exists (z1 ++ z2). rewrite E2, E1, <- app_assoc. reflexivity.
Qed.
Definition backx (c : cf) (n v : nat) : Prop := backed P w rf (qe c) (of_net (qo c)) n v.
Definition fullx (c : cf) (n v : nat) : Prop := full P w rf (qe c) (of_net (qo c)) n v.
(** What a thread that changes nothing tells. *)
Definition fact (a : act) (c c' : cf) : Prop :=
  match a with
  | AS n TPack => pendx n (qs c) <> [] -> ~ AxisSlaveProofs.idle (y_sl (qs c) n)
  | AS n TInj => ~ AxisSlaveProofs.idle (y_sl (qs c) n) -> forall x r, map (to_bflit (cs (Z.of_nat n))) (pendx n (qs c)) = x :: r -> ~ backx c n (vcn x)
  | AM n TDepk => fr (y_ma (qs c) n) -> depk (y_ma (qs c) n) = false /\ forall v, v < m_nvc (ms n) -> tails (ejf (y_ma (qs c) n) v) = 0 \/ exists f r, ejf (y_ma (qs c) n) v = f :: r /\ m_obdepth (ms n) <= length (outq (y_ma (qs c) n) (ifn f))
  | AM n TOut => fr (y_ma (qs c) n) -> forall i, i < m_nif (ms n) -> outq (y_ma (qs c) n) i = []
  | ATick => (forall n, n < N -> tm_inj (y_t (qs c)) n = None) /\ (forall n, n < N -> unread n (qe c) (y_t (qs c)) = []) /\ (forall n, n < N -> tm_ej (y_t (qs c)) n = None) /\
      ((inside w (tm_net (y_t (qs c))) = [] /\ forall n v, n < N -> v < bc_vcs b -> fullx c n v) \/ clogged w slots (tkx (qe c)) (outsx (qe c)) \/
       (exists n v q, n < N /\ v < bc_vcs b /\ parse (IqRouterSpec.on_vc v (tokn c n)) = Some (Some q) /\ fullx c n v)) /\
      (exists z, outsx (qe c') = outsx (qe c) ++ [z])
  | _ => True
  end.
Record JJ (g : ginst) (rdy : nat -> option nat) (don l : list act) (c : cf) : Prop := {
  j_pi : exists sh mh prev cn av, PIx g rdy sh mh prev don cn av (qe c) (qo c) (qs c) /\ l = prev ++ don;
  j_once : NoDup don;
  j_tt : take_turns N l;
  j_slow : slow (qe c);
  j_dep : forall n, n < N -> last (free_turns n (qe c)) false = true -> last (dep_acts n l) false = true;
  j_ch : chain o0 (tkx (qe c)) }.

(** ** The events of a thread *)
Lemma ev_kind : forall g rdy a (s : sys P) s1 o1, do_act w rf cs ms g rdy a s = Some (s1, o1) ->
  match a with
  | ATick => evsx g a s o1 = [VTick (g_clk g)]
  | AS n TInj => exists e, evsx g a s o1 = [e] /\ match e with VInj _ _ _ => True | _ => False end
  | AM n TEject => evsx g a s o1 = [VRead n]
  | AM n TDepk => evsx g a s o1 = [] \/ exists v, evsx g a s o1 = [VFree n v]
  | _ => evsx g a s o1 = []
  end.
Proof.
  intros g rdy a s s1 o1 E. destruct a as [n t|n t|]; cbn [evs]; auto; destruct t; auto; [eexists; split; [reflexivity|exact Logic.I]| |].
  - cbn [do_act] in E. unfold ma_act in E. destruct (m_thread _ _ TDepk _) as [[m om0]|] eqn:Em; [|discriminate]. destruct (free_all _ _ _ _ _) as [t'|]; [|discriminate]. injection E as <- <-. cbn [m_thread] in Em.
    destruct (depk_one _ _ _ _ Em) as [->|[v ->]]; [left; reflexivity|right; exists v; reflexivity].
  - cbn [do_act] in E. unfold ma_act in E. destruct (m_thread _ _ TOut _) as [[m om0]|] eqn:Em; [|discriminate]. destruct (free_all _ _ _ _ _) as [t'|]; [|discriminate]. injection E as <- <-. cbn [m_thread] in Em.
    destruct (out_loop_frees _ _ _ _ _ _ Em) as (_ & _ & _ & _ & X). clear - X. unfold fevs. induction om0 as [|x om0 IH]; auto. cbn [map flat_map]. rewrite IH by (intros y Hy; apply X; right; auto). specialize (X x (or_introl eq_refl)). destruct x; tauto.
Qed.
Lemma slow_step : forall es e, slow es -> match e with VFree n _ => last (free_turns n es) false = false | _ => True end -> slow (es ++ [e]).
Proof.
  intros es e S H n l1 l2. rewrite free_app. destruct e as [m now f|m|m v|c]; cbn [free_turns flat_map app]; rewrite ?app_nil_r; try apply (S n).
  - destruct (Nat.eqb_spec m n) as [->|]; [|rewrite app_nil_r; apply (S n)]. apply new_pair; auto.
  - apply no_pair. apply S.
Qed.
Lemma JJ_next : forall g rdy don l c a s1 o1 sh mh prev cn av, JJ g rdy don l c -> do_act w rf cs ms g rdy a (qs c) = Some (s1, o1) -> l = prev ++ don -> NoDup (don ++ [a]) -> match a with AS n _ | AM n _ => n < N | ATick => True end ->
  take_turns N (l ++ [a]) -> unhurried N (l ++ [a]) -> PIx g rdy sh mh prev (don ++ [a]) cn av (qe c ++ evsx g a (qs c) o1) (qo c ++ o1) s1 ->
  slow (qe c ++ evsx g a (qs c) o1) /\ (chain o0 (tkx (qe c ++ evsx g a (qs c) o1)) -> JJ g rdy (don ++ [a]) (l ++ [a]) (mkC (qe c ++ evsx g a (qs c) o1) (qo c ++ o1) s1)).
Proof.
  intros g rdy don l c a s1 o1 sh mh prev cn av J E El ND Na TT UH PI1. pose proof (j_slow _ _ _ _ _ J) as Sl. pose proof (j_dep _ _ _ _ _ J) as Dp. pose proof (ev_kind _ _ _ _ _ _ E) as EV.
  assert (X : slow (qe c ++ evsx g a (qs c) o1) /\ forall n, n < N -> last (free_turns n (qe c ++ evsx g a (qs c) o1)) false = true -> last (dep_acts n (l ++ [a])) false = true).
  { assert (DA : forall n, match a with AM m TDepk => m <> n | ATick => False | _ => True end -> dep_acts n (l ++ [a]) = dep_acts n l).
    { intros n H. rewrite dep_app. destruct a as [m t|m t|]; cbn [dep_acts flat_map app]; try (apply app_nil_r); [|destruct H]. destruct t; try (apply app_nil_r). destruct (Nat.eqb_spec m n); [congruence|apply app_nil_r]. }
    assert (Q0 : evsx g a (qs c) o1 = [] -> a <> ATick -> slow (qe c ++ evsx g a (qs c) o1) /\ forall n, n < N -> last (free_turns n (qe c ++ evsx g a (qs c) o1)) false = true -> last (dep_acts n (l ++ [a])) false = true).
    { intros -> Nt. rewrite app_nil_r. split; auto. intros n Hn H. specialize (Dp n Hn H). destruct a as [m t|m t|]; [rewrite DA; auto| |congruence]. destruct t; try (rewrite DA; auto; fail). rewrite dep_app. cbn [dep_acts flat_map]. destruct (Nat.eqb_spec m n); [apply last_last|cbn [app]; rewrite app_nil_r; exact Dp]. }
    destruct a as [n t|n t|].
    - destruct t; try (apply Q0; [exact EV|discriminate]). destruct EV as [e [Ee Ke]]. rewrite Ee. split; [apply slow_step; auto; destruct e; auto; contradiction|]. intros m Hm. rewrite free_app, DA by auto. destruct e; try contradiction. cbn [free_turns flat_map app]. rewrite app_nil_r. auto.
    - destruct t.
      + rewrite EV. split; [apply slow_step; auto|]. intros m Hm. rewrite free_app, DA by auto. cbn [free_turns flat_map app]. rewrite app_nil_r. auto.
      + destruct EV as [EV|[v EV]]; [apply Q0; [exact EV|discriminate]|]. rewrite EV. split.
        * apply slow_step; auto. destruct (last (free_turns n (qe c)) false) eqn:L; auto. exfalso. specialize (Dp n Na L). destruct (exists_last (l := dep_acts n l)) as [r [z Er]]; [intros X; rewrite X in Dp; discriminate|]. rewrite Er, last_last in Dp. subst z.
          apply (UH n r [] Na). rewrite dep_app, Er. cbn [dep_acts flat_map]. rewrite Nat.eqb_refl, <- app_assoc. reflexivity.
        * intros m Hm. rewrite free_app. cbn [free_turns flat_map]. destruct (Nat.eqb_spec n m) as [Em|Em]; [subst m|cbn [app]; rewrite app_nil_r, DA by auto; auto]. intros _. rewrite dep_app. cbn [dep_acts flat_map]. rewrite Nat.eqb_refl. apply last_last.
      + apply Q0; [exact EV|discriminate].
    - rewrite EV. split; [apply slow_step; auto|]. intros m Hm. rewrite free_app. cbn [free_turns flat_map app]. rewrite last_last. discriminate. }
  split; [apply X|]. intros Ch. constructor; cbn [qe qo qs]; auto; try apply X. exists sh, mh, prev, cn, av. split; auto. rewrite El, <- app_assoc. reflexivity.
Qed.
(** An event that is no cycle. *)
Lemma evt : forall g rdy don l c sh mh prev cn av e, JJ g rdy don l c -> PIx g rdy sh mh prev don cn av (qe c) (qo c) (qs c) -> l = prev ++ don ->
  forall don1 o1 s1 cn1 av1, take_turns N (prev ++ don1) -> PIx g rdy sh mh prev don1 cn1 av1 (qe c ++ [e]) (qo c ++ o1) s1 ->
  in_turn w (qe c ++ [e]) /\ tdecent w ok (qe c) (of_net (qo c)) e /\ term_step w rf e (y_t (qs c)) = Some (y_t s1, of_net o1).
Proof.
  intros g rdy don l c sh mh prev cn av e J PI0 El don1 o1 s1 cn1 av1 TT PI1. pose proof (p_run _ _ _ _ _ _ _ _ _ _ _ _ _ _ _ _ _ _ _ _ _ _ _ PI0) as R0. pose proof (p_run _ _ _ _ _ _ _ _ _ _ _ _ _ _ _ _ _ _ _ _ _ _ _ PI1) as R1.
  fold w T rf in R0, R1. split; [eapply turned; eauto|]. split.
  - pose proof (mesh_decent P mesh nl k nn b rd cd ob T K Hv _ (p_dec _ _ _ _ _ _ _ _ _ _ _ _ _ _ _ _ _ _ _ _ _ _ _ PI1)) as D. destruct (tdecent_snoc _ _ _ _ _ _ _ _ _ _ _ D R0) as [_ D2]. exact D2.
  - rewrite term_run_snoc, R0, of_net_app in R1. destruct (term_step w rf e (y_t (qs c))) as [[t' ox]|]; [|discriminate]. injection R1 as <- X. apply app_inv_head in X. rewrite X. reflexivity.
Qed.

Lemma quiet_om : forall g rdy don l c sh mh prev cn av ev, JJ g rdy don l c -> PIx g rdy sh mh prev don cn av (qe c) (qo c) (qs c) -> l = prev ++ don ->
  forall don1 o1 s1 cn1 av1, take_turns N (prev ++ don1) -> PIx g rdy sh mh prev don1 cn1 av1 (qe c ++ ev) (qo c ++ o1) s1 -> slow (qe c ++ ev) ->
  (ev = [] \/ exists e, ev = [e] /\ match e with VTick _ => False | _ => True end) ->
  worth P w rf dist o0 (qe c ++ ev) (y_t s1) = worth P w rf dist o0 (qe c) (y_t (qs c)) /\ put P w rf (qe c ++ ev) = put P w rf (qe c) /\ tkx (qe c ++ ev) = tkx (qe c) /\ outsx (qe c ++ ev) = outsx (qe c).
Proof.
  intros g rdy don l c sh mh prev cn av ev J PI0 El don1 o1 s1 cn1 av1 TT PI1 Sl [->|[e [-> Ne]]].
  - rewrite app_nil_r in *. pose proof (p_run _ _ _ _ _ _ _ _ _ _ _ _ _ _ _ _ _ _ _ _ _ _ _ PI0) as R0. pose proof (p_run _ _ _ _ _ _ _ _ _ _ _ _ _ _ _ _ _ _ _ _ _ _ _ PI1) as R1. rewrite R0 in R1. injection R1 as X _. rewrite X. auto.
  - destruct (evt _ _ _ _ _ _ _ _ _ _ _ J PI0 El _ _ _ _ _ TT PI1) as [A [B C]]. assert (TT0 : take_turns N (prev ++ don)) by (rewrite <- El; apply (j_tt _ _ _ _ _ J)).
    destruct (s_tx PI0 TT0 (j_slow _ _ _ _ _ J)) as [xs [ys [hb X]]]. apply (still_worth P w rf ok I dist slots s_W s_HB HP HS HC s_RO s_LE o0 _ _ _ _ _ _ _ _ _ X A B Sl C Ne).
Qed.
Lemma Fl_same : forall o o', (forall n, accepts (of_slave n o') = accepts (of_slave n o)) -> Fl o' = Fl o.
Proof. intros o o' H. unfold Fl. apply total_ext. intros n _. rewrite H. reflexivity. Qed.
Lemma Gt_same : forall o o', (forall n, got n (of_net o') = got n (of_net o)) -> Gt o' = Gt o.
Proof. intros o o' H. unfold Gt. apply total_ext. intros n _. rewrite H. reflexivity. Qed.
Definition moved (a : act) (c c' : cf) : Prop := (psi c' <= psi c)%Z /\ (om c' <= om c)%Z /\ ((psi c' + om c' < psi c + om c)%Z \/ calm c c' /\ fact a c c').

Section Act.
Variables (g : ginst) (rdy : nat -> option nat) (don l : list act) (c : cf) (sh : nat -> list instant) (mh : nat -> list minstant) (prev : list act) (cn av : nat -> bool).
Hypothesis J : JJ g rdy don l c.
Hypothesis PI0 : PIx g rdy sh mh prev don cn av (qe c) (qo c) (qs c).
Hypothesis El : l = prev ++ don.
Hypothesis HG : helping w g.
Let TT0 : take_turns N (prev ++ don). Proof. rewrite <- El. apply (j_tt _ _ _ _ _ J). Qed.

Lemma move_slave : forall n t s1 o1 e1 (e1x : e1 = evsx g (AS n t) (qs c) o1), t <> TInj -> n < N -> do_act w rf cs ms g rdy (AS n t) (qs c) = Some (s1, o1) -> moved (AS n t) c (mkC (qe c ++ e1) (qo c ++ o1) s1).
Proof.
  intros n t s1 o1 e1 e1x Ht Hn E. assert (Ee : e1 = []) by (rewrite e1x; destruct t; auto; congruence). rewrite Ee, app_nil_r. clear e1x Ee e1.
  assert (E' : (let '(sl, os) := run_thread (cs (Z.of_nat n)) (SysModel.seen g n [] false) (rdy n) t (y_sl (qs c) n) in Some (mkY (y_t (qs c)) (fupd (y_sl (qs c)) n sl) (y_ma (qs c)), map (YS n) os)) = Some (s1, o1)) by (destruct t; auto; congruence).
  destruct (run_thread _ _ _ _ _) as [sl os] eqn:R. injection E' as <- <-. assert (Eo : os = []) by (eapply no_accept; [|exact Ht|exact R]; intros i; apply (h_quiet _ _ HG n i Hn)). subst os. cbn [map]. rewrite app_nil_r.
  pose proof (proj1 (ft_s _ _ _ _ _ _ FT (Z.of_nat n))) as GS. destruct (AxisSlaveProofs.thread_step _ GS _ _ _ _ _ _ (s_inv PI0 n) R) as [_ TS]. cbn [injects accepts flat_map app] in TS. rewrite app_nil_r in TS.
  pose proof (f_equal (@length _) TS) as TL. rewrite !map_length in TL.
  destruct (thread_move _ GS _ _ _ _ _ _ _ (ro_inj _ _ _ _ RM n Hn) (s_inv PI0 n) R (Nat.le_refl _)) as [_ [M1 M2]]. cbn [injects flat_map length] in M1, M2. rewrite Nat.sub_0_r in M1, M2.
  set (c' := mkC _ _ _). assert (Hp : potn (qs c') n = pot (cs (Z.of_nat n)) (length (pendx n (qs c))) sl) by (unfold potn, c'; cbn [qs y_sl]; rewrite fupd_same, TL; reflexivity).
  assert (Ps : (psi c' = psi c - Z.of_nat (potn (qs c) n) + Z.of_nat (potn (qs c') n))%Z).
  { unfold psi. rewrite (total_upd (fun n0 => Z.of_nat (potn (qs c) n0)) (fun n0 => Z.of_nat (potn (qs c') n0)) n N Hn); [cbn [c' qs qo y_ma]; lia|]. intros i _ Hi. unfold potn, c'. cbn [qs y_sl]. rewrite fupd_other by auto. reflexivity. }
  assert (Om : om c' = om c) by reflexivity. rewrite Hp in Ps. unfold potn in Ps. split; [lia|]. split; [lia|]. destruct M2 as [M2|[_ M2]]; [left; lia|]. right. split.
  - constructor; cbn [c' qs qo qe y_sl y_ma]; auto; try (intros; repeat split; auto; fail); [| |exists []; symmetry; apply app_nil_r].
    + intros m. unfold fupd. destruct (Nat.eqb_spec m n) as [Em|]; [subst m; exact TS|reflexivity].
    + intros m Hm. unfold fupd. destruct (Nat.eqb_spec m n) as [Em|]; [subst m|reflexivity]. apply M2. destruct (pendx n (qs c)); [congruence|cbn; lia].
  - destruct t; cbn [fact]; [exact Logic.I| |congruence]. intros Hm. apply M2; auto. destruct (pendx n (qs c)); [congruence|cbn; lia].
Qed.
Lemma move_inj : forall n s1 o1 cn1 av1, n < N -> do_act w rf cs ms g rdy (AS n TInj) (qs c) = Some (s1, o1) -> take_turns N (prev ++ don ++ [AS n TInj]) ->
  PIx g rdy sh mh prev (don ++ [AS n TInj]) cn1 av1 (qe c ++ evsx g (AS n TInj) (qs c) o1) (qo c ++ o1) s1 -> slow (qe c ++ evsx g (AS n TInj) (qs c) o1) -> moved (AS n TInj) c (mkC (qe c ++ evsx g (AS n TInj) (qs c) o1) (qo c ++ o1) s1).
Proof.
  intros n s1 o1 cn1 av1 Hn E TT PI1 Sl. cbn [evs] in *. set (e := VInj n (g_now g n) _) in *. destruct (evt _ _ _ _ _ _ _ _ _ _ _ J PI0 El _ _ _ _ _ TT PI1) as [A [B C]].
  destruct (quiet_om _ _ _ _ _ _ _ _ _ _ _ J PI0 El _ _ _ _ _ TT PI1 Sl (or_intror (ex_intro _ e (conj eq_refl Logic.I)))) as [O1 [O2 [O3 O4]]].
  destruct (s_tx PI0 TT0 (j_slow _ _ _ _ _ J)) as [xs [ys [hb X]]].
  cbn [do_act] in E. unfold inj_act in E. fold e in E. destruct (term_step w rf e (y_t (qs c))) as [[t ot]|] eqn:Et; [|discriminate].
  set (ev := SysModel.seen g n [] _) in E. destruct (run_inj_spec (cs (Z.of_nat n)) ev (y_sl (qs c) n)) as [sl R]. rewrite R in E. set (os := match waiting (y_sl (qs c) n) with Some f => _ | None => _ end) in *. injection E as <- <-. cbn [y_t] in O1.
  rewrite of_net_app, of_net_T, of_net_S, app_nil_r in C. assert (Ac : accepts os = []) by (unfold os; destruct (waiting _); [destruct (can ev)|]; reflexivity).
  assert (Sx : forall m, accepts (of_slave m (qo c ++ map YT ot ++ map (YS n) os)) = accepts (of_slave m (qo c))).
  { intros m. rewrite !of_slave_app, of_slave_T, of_slave_S, accepts_app'. cbn [app]. destruct (Nat.eqb n m); [rewrite Ac|]; apply app_nil_r. }
  assert (Nx : of_net (qo c ++ map YT ot ++ map (YS n) os) = of_net (qo c) ++ ot) by (rewrite !of_net_app, of_net_T, of_net_S, app_nil_r; reflexivity).
  assert (Ob : ot = [] \/ exists h h', option_map (fun f => net_flit (to_bflit (cs (Z.of_nat n)) f)) (waiting (y_sl (qs c) n)) = Some h /\ ot = [Took n h']).
  { destruct (inj_obs _ _ _ _ _ _ _ _ _ Et) as [[->|[h [h' [H1 [H2 _]]]]] _]; eauto 6. }
  assert (Gx : forall m, got m (of_net (qo c ++ map YT ot ++ map (YS n) os)) = got m (of_net (qo c))).
  { intros m. rewrite Nx, got_app. destruct Ob as [->|[h [h' [_ ->]]]]; apply app_nil_r. }
  pose proof (proj1 (ft_s _ _ _ _ _ _ FT (Z.of_nat n))) as GS. assert (R' : run_thread (cs (Z.of_nat n)) ev (rdy n) TInj (y_sl (qs c) n) = (sl, os)) by exact R.
  destruct (AxisSlaveProofs.thread_step _ GS _ _ _ _ _ _ (s_inv PI0 n) R') as [_ TS]. rewrite Ac in TS. cbn [flat_map] in TS. rewrite app_nil_r in TS. pose proof (f_equal (@length _) TS) as TL. rewrite app_length, !map_length in TL.
  destruct (thread_move _ GS _ _ _ _ _ _ _ (ro_inj _ _ _ _ RM n Hn) (s_inv PI0 n) R' (Nat.le_refl _)) as [_ [M1 M2]]. replace (length (pendx n (qs c)) - length (injects os)) with (length (pend (cs (Z.of_nat n)) sl)) in M1, M2 by lia.
  set (c' := mkC _ _ _). assert (Hp : potn (qs c') n = pot (cs (Z.of_nat n)) (length (pend (cs (Z.of_nat n)) sl)) sl) by (unfold potn, c'; cbn [qs y_sl]; rewrite fupd_same; reflexivity).
  assert (Ps : (psi c' = psi c - Z.of_nat (potn (qs c) n) + Z.of_nat (potn (qs c') n))%Z).
  { unfold psi. rewrite (total_upd (fun n0 => Z.of_nat (potn (qs c) n0)) (fun n0 => Z.of_nat (potn (qs c') n0)) n N Hn); [|intros i _ Hi; unfold potn, c'; cbn [qs y_sl]; rewrite fupd_other by auto; reflexivity].
    cbn [c' qs qo y_ma]. rewrite (Fl_same _ _ Sx), (Gt_same _ _ Gx). lia. }
  assert (Om : om c' = om c) by (unfold om, c'; cbn [qe qo qs y_t]; rewrite O1, O2, (Fl_same _ _ Sx); reflexivity). rewrite Hp in Ps. unfold potn in Ps. split; [lia|]. split; [lia|]. destruct M2 as [M2|[M3 M2]]; [left; lia|]. right.
  assert (Z0 : ot = []).
  { destruct Ob as [|[h [h' [H1 H2]]]]; auto. exfalso. destruct (waiting (y_sl (qs c) n)) as [f|] eqn:Ew; [|discriminate]. unfold os, ev in TL. rewrite H2 in TL. cbn [SysModel.seen can injects flat_map app length] in TL. lia. }
  assert (Zs : os = []) by (unfold os, ev; rewrite Z0; cbn [SysModel.seen can]; destruct (waiting _); reflexivity). rewrite Zs in TS. cbn [injects flat_map app] in TS. split.
  - constructor; cbn [c' qs qo qe y_sl y_ma].
    + intros m. unfold fupd. destruct (Nat.eqb_spec m n) as [Em|]; [subst m; exact TS|reflexivity].
    + intros m Hm. unfold fupd. destruct (Nat.eqb_spec m n) as [Em|]; [subst m|reflexivity]. apply M2. destruct (pendx n (qs c)); [congruence|cbn; lia].
    + intros m. repeat split; auto.
    + auto.
    + intros m. unfold tokn, c'. cbn [qo]. rewrite Nx, Z0, app_nil_r. reflexivity.
    + intros m. apply Gx.
    + exact Sx.
    + exists []. rewrite O4. symmetry. apply app_nil_r.
  - cbn [fact]. intros Ni x r Ex Bk. destruct (waiting (y_sl (qs c) n)) as [f|] eqn:Ew; [|apply Ni; apply waiting_idle; auto]. destruct (waiting_pend (cs (Z.of_nat n)) _ _ Ew) as [r' Er]. rewrite Er in Ex. cbn [map] in Ex. injection Ex as <- _.
    apply (sends P w rf ok I slots s_W s_HB _ _ _ _ _ _ n (g_now g n) (net_flit (to_bflit (cs (Z.of_nat n)) f)) t ot X B Bk); auto.
Qed.

Lemma move_ma : forall n t s1 o1 cn1 av1, n < N -> t <> TEject -> do_act w rf cs ms g rdy (AM n t) (qs c) = Some (s1, o1) -> take_turns N (prev ++ don ++ [AM n t]) ->
  PIx g rdy sh mh prev (don ++ [AM n t]) cn1 av1 (qe c ++ evsx g (AM n t) (qs c) o1) (qo c ++ o1) s1 -> slow (qe c ++ evsx g (AM n t) (qs c) o1) -> moved (AM n t) c (mkC (qe c ++ evsx g (AM n t) (qs c) o1) (qo c ++ o1) s1).
Proof.
  intros n t s1 o1 cn1 av1 Hn Ht E TT PI1 Sl. pose proof (ev_kind _ _ _ _ _ _ E) as EK.
  assert (Ek : evsx g (AM n t) (qs c) o1 = [] \/ exists e, evsx g (AM n t) (qs c) o1 = [e] /\ match e with VTick _ => False | _ => True end).
  { destruct t; [congruence| |left; exact EK]. destruct EK as [EK|[v EK]]; [left; exact EK|right; exists (VFree n v); split; auto]. }
  destruct (quiet_om _ _ _ _ _ _ _ _ _ _ _ J PI0 El _ _ _ _ _ TT PI1 Sl Ek) as [O1 [O2 [O3 O4]]]. set (e1 := evsx g (AM n t) (qs c) o1) in *.
  assert (E' : ma_act w rf ms g n t (qs c) = Some (s1, o1)) by (destruct t; [congruence|exact E|exact E]). unfold ma_act in E'. set (ev := {| mths := []; mavail := false; mrdy := g_rdy g n |}) in E'.
  destruct (m_thread (ms n) ev t (y_ma (qs c) n)) as [[m omm]|] eqn:Em; [|discriminate]. destruct (free_all _ _ _ _ _) as [t'|]; [|discriminate]. injection E' as Es Eo.
  assert (Sx : forall x, of_slave x (qo c ++ o1) = of_slave x (qo c)) by (intros x; rewrite of_slave_app, <- Eo, of_slave_M, app_nil_r; reflexivity).
  assert (Nx : of_net (qo c ++ o1) = of_net (qo c)) by (rewrite of_net_app, <- Eo, of_net_M, app_nil_r; reflexivity).
  assert (Ax : forall x, accepts (of_slave x (qo c ++ o1)) = accepts (of_slave x (qo c))) by (intros x; rewrite Sx; reflexivity).
  assert (Gx : forall x, got x (of_net (qo c ++ o1)) = got x (of_net (qo c))) by (intros x; rewrite Nx; reflexivity).
  destruct (minv PI0 TT0 (j_once _ _ _ _ _ J) n Hn) as [ps [more [dl [od [WF [IV _]]]]]]. pose proof (ft_m _ _ _ _ _ _ FT n Hn) as [GM _].
  pose proof (thread_meas _ GM _ _ WF _ _ _ _ _ _ _ IV (fun H => match Ht H with end) Em) as TM.
  assert (Ysl : y_sl s1 = y_sl (qs c)) by (rewrite <- Es; reflexivity). assert (Yma : y_ma s1 = fupd (y_ma (qs c)) n m) by (rewrite <- Es; reflexivity).
  set (c' := mkC _ _ _).
  assert (Ps : (psi c' = psi c - Z.of_nat (meas (ms n) (y_ma (qs c) n)) + Z.of_nat (meas (ms n) m))%Z).
  { unfold psi. rewrite (total_upd (fun n0 => Z.of_nat (meas (ms n0) (y_ma (qs c) n0))) (fun n0 => Z.of_nat (meas (ms n0) (y_ma (qs c') n0))) n N Hn); [|intros i _ Hi; unfold c'; cbn [qs]; rewrite Yma, fupd_other by auto; reflexivity].
    unfold c'; cbn [qs qo]. rewrite (Fl_same _ _ Ax), (Gt_same _ _ Gx), Yma, fupd_same. unfold potn. rewrite Ysl. lia. }
  assert (Om : om c' = om c) by (unfold om, c'; cbn [qe qo qs]; rewrite O1, O2, (Fl_same _ _ Ax); reflexivity). 
  assert (CM : frozen (y_ma (qs c) n) m -> pushc m = pushc (y_ma (qs c) n) -> pushn m = pushn (y_ma (qs c) n) -> calm c c').
  { intros Fz C1 C2. constructor; unfold c'; cbn [qs qo qe].
    - rewrite Ysl. auto.
    - rewrite Ysl. reflexivity.
    - intros x. rewrite Yma. unfold fupd. destruct (Nat.eqb_spec x n) as [Ex|]; [subst x; exact Fz|apply frozen_refl].
    - intros x. rewrite Yma. unfold fupd. destruct (Nat.eqb_spec x n) as [Ex|]; [subst x|auto]. unfold fr. rewrite C1, C2. auto.
    - intros x. unfold tokn. cbn [qo]. rewrite Nx. reflexivity.
    - exact Gx.
    - exact Ax.
    - exists []. rewrite O4. symmetry. apply app_nil_r. }
  destruct TM as [TM|[[TM [Fz [C1 [C2 [_ St]]]]]|[TM [Et [Fz [C1 [C2 St]]]]]]].
  - split; [lia|]. split; [lia|]. left. lia.
  - split; [lia|]. split; [lia|]. right. split; [auto|]. destruct t; cbn [fact]; auto. intros Fr i Hi. apply (St Fr); auto. intros j. apply (h_ready _ _ HG n j Hn).
  - split; [lia|]. split; [lia|]. right. split; [auto|]. subst t. cbn [fact]. intros _ i Hi. apply St; auto. intros j. apply (h_ready _ _ HG n j Hn).
Qed.
Lemma move_eject : forall n s1 o1 cn1 av1, n < N -> do_act w rf cs ms g rdy (AM n TEject) (qs c) = Some (s1, o1) -> take_turns N (prev ++ don ++ [AM n TEject]) ->
  PIx g rdy sh mh prev (don ++ [AM n TEject]) cn1 av1 (qe c ++ evsx g (AM n TEject) (qs c) o1) (qo c ++ o1) s1 -> slow (qe c ++ evsx g (AM n TEject) (qs c) o1) -> moved (AM n TEject) c (mkC (qe c ++ evsx g (AM n TEject) (qs c) o1) (qo c ++ o1) s1).
Proof.
  intros n s1 o1 cn1 av1 Hn E TT PI1 Sl. cbn [evs] in *.
  destruct (quiet_om _ _ _ _ _ _ _ _ _ _ _ J PI0 El _ _ _ _ _ TT PI1 Sl (or_intror (ex_intro _ (VRead n) (conj eq_refl Logic.I)))) as [O1 [O2 [O3 O4]]].
  destruct (p_q _ _ _ _ _ _ _ _ _ _ _ _ _ _ _ _ _ _ _ _ _ _ _ PI0 n) as [Q1 Q2]. cbn [do_act] in E. unfold ej_act in E. rewrite Q2 in E. cbn [term_step] in E. destruct (Nat.ltb_spec n (w_nodes w)) as [_|X]; [|unfold N in Hn; lia].
  destruct (ch_out _) as [f|].
  - cbn [flat_map app] in E. destruct (run_eject _ _ _) as [[m omm]|] eqn:Er; [|discriminate]. injection E as Es Eo. pose proof (eject_plus _ _ _ _ _ Er Q2 Q1) as Me.
    assert (Ax : forall x, accepts (of_slave x (qo c ++ o1)) = accepts (of_slave x (qo c))) by (intros x; rewrite of_slave_app; replace (of_slave x o1) with (@nil obs) by (rewrite <- Eo; symmetry; apply (of_slave_M x n omm)); rewrite app_nil_r; reflexivity).
    assert (Nx : of_net (qo c ++ o1) = of_net (qo c) ++ [Got n f]) by (rewrite of_net_app; f_equal; rewrite <- Eo; apply (f_equal (cons (Got n f)) (of_net_M n omm))).
    assert (Ysl : y_sl s1 = y_sl (qs c)) by (rewrite <- Es; reflexivity). assert (Yma : y_ma s1 = fupd (y_ma (qs c)) n m) by (rewrite <- Es; reflexivity).
    set (c' := mkC _ _ _).
    assert (GG : (Gt (qo c ++ o1) = Gt (qo c) + 1)%Z).
    { unfold Gt. rewrite (total_upd (fun n0 => Z.of_nat (length (got n0 (of_net (qo c))))) (fun n0 => Z.of_nat (length (got n0 (of_net (qo c ++ o1))))) n N Hn).
      - rewrite Nx, got_app, app_length. cbn [got flat_map app]. rewrite Nat.eqb_refl. cbn [app length]. lia.
      - intros i _ Hi. rewrite Nx, got_app. cbn [got flat_map app]. destruct (Nat.eqb_spec n i); [congruence|]. rewrite app_nil_r. reflexivity. }
    assert (Ps : (psi c' = psi c - Z.of_nat (meas (ms n) (y_ma (qs c) n)) + Z.of_nat (meas (ms n) m) - 5)%Z).
    { unfold psi. rewrite (total_upd (fun n0 => Z.of_nat (meas (ms n0) (y_ma (qs c) n0))) (fun n0 => Z.of_nat (meas (ms n0) (y_ma (qs c') n0))) n N Hn); [|intros i _ Hi; unfold c'; cbn [qs]; rewrite Yma, fupd_other by auto; reflexivity].
      unfold c'; cbn [qs qo]. rewrite (Fl_same _ _ Ax), GG, Yma, fupd_same. unfold potn. rewrite Ysl. lia. }
    assert (Om : om c' = om c) by (unfold om, c'; cbn [qe qo qs]; rewrite O1, O2, (Fl_same _ _ Ax); reflexivity). 
    split; [lia|]. split; [lia|]. left. lia.
  - cbn [flat_map app] in E. rewrite load_nil in E by exact Q1. unfold run_eject in E. rewrite Q2, Q1 in E. injection E as Es Eo. cbn [map app] in Eo. subst o1. rewrite app_nil_r in *.
    assert (Yt : y_t s1 = y_t (qs c)) by (rewrite <- Es; reflexivity). assert (Ysl : y_sl s1 = y_sl (qs c)) by (rewrite <- Es; reflexivity). assert (Yma : forall x, y_ma s1 x = y_ma (qs c) x) by (intros x; rewrite <- Es; cbn [y_ma]; unfold fupd; destruct (Nat.eqb_spec x n) as [Ex|]; [subst x|]; reflexivity).
    set (c' := mkC _ _ _).
    assert (Ps : psi c' = psi c). { unfold psi, c'. cbn [qs qo]. rewrite (total_ext (fun n0 => Z.of_nat (potn s1 n0)) (fun n0 => Z.of_nat (potn (qs c) n0))) by (intros; unfold potn; rewrite Ysl; reflexivity). rewrite (total_ext (fun n0 => Z.of_nat (meas (ms n0) (y_ma s1 n0))) (fun n0 => Z.of_nat (meas (ms n0) (y_ma (qs c) n0)))) by (intros; rewrite Yma; reflexivity). reflexivity. }
    assert (Om : om c' = om c) by (unfold om, c'; cbn [qe qo qs]; rewrite O1, O2; reflexivity). split; [lia|]. split; [lia|]. right. split; [|exact Logic.I].
    constructor; unfold c'; cbn [qs qo qe]; auto.
    + rewrite Ysl. auto.
    + rewrite Ysl. reflexivity.
    + intros x. rewrite Yma. apply frozen_refl.
    + intros x. rewrite Yma. auto.
    + exists []. rewrite O4. symmetry. apply app_nil_r.
Qed.
Lemma tick_tk : forall s1 o1 cn1 av1, take_turns N (prev ++ don ++ [ATick]) ->
  PIx g rdy sh mh prev (don ++ [ATick]) cn1 av1 (qe c ++ evsx g ATick (qs c) o1) (qo c ++ o1) s1 -> slow (qe c ++ evsx g ATick (qs c) o1) -> tkx (qe c ++ evsx g ATick (qs c) o1) = tkx (qe c) ++ [tick_of w rf (g_clk g) (y_t (qs c))].
Proof.
  intros s1 o1 cn1 av1 TT PI1 Sl. cbn [evs] in *. destruct (evt _ _ _ _ _ _ _ _ _ _ _ J PI0 El _ _ _ _ _ TT PI1) as [A [B C]].
  destruct (s_tx PI0 TT0 (j_slow _ _ _ _ _ J)) as [xs [ys [hb X]]].
  destruct (TX_step P w rf ok I slots s_W s_HB HP HS HC s_RO s_LE _ _ _ _ _ _ _ X A B Sl) as [s2 [o2 [xs2 [ys2 [hb2 [E2 [X2 [Tk [z [Oz _]]]]]]]]]]. exact Tk.
Qed.
Lemma move_tick : forall s1 o1 cn1 av1, do_act w rf cs ms g rdy ATick (qs c) = Some (s1, o1) -> take_turns N (prev ++ don ++ [ATick]) ->
  PIx g rdy sh mh prev (don ++ [ATick]) cn1 av1 (qe c ++ evsx g ATick (qs c) o1) (qo c ++ o1) s1 -> slow (qe c ++ evsx g ATick (qs c) o1) -> (NetProgress.lastt o0 (tkx (qe c)) < k_now (g_clk g))%Z ->
  moved ATick c (mkC (qe c ++ evsx g ATick (qs c) o1) (qo c ++ o1) s1).
Proof.
  intros s1 o1 cn1 av1 E TT PI1 Sl Lt. cbn [evs] in *. destruct (evt _ _ _ _ _ _ _ _ _ _ _ J PI0 El _ _ _ _ _ TT PI1) as [A [B C]].
  destruct (s_tx PI0 TT0 (j_slow _ _ _ _ _ J)) as [xs [ys [hb X]]].
  destruct (TX_step P w rf ok I slots s_W s_HB HP HS HC s_RO s_LE _ _ _ _ _ _ _ X A B Sl) as [s2 [o2 [xs2 [ys2 [hb2 [E2 [X2 [Tk [z [Oz _]]]]]]]]]]. rewrite C in E2. injection E2 as E2 E2'. subst s2 o2.
  destruct (tick_gain P w rf ok I dist slots s_W s_HB HP HS HC s_RO s_HD s_LE o0 _ _ _ _ _ _ _ _ _ X A B Sl Lt C) as [G [G0 [G1 G2]]].
  cbn [do_act] in E. destruct (term_step _ _ _ _) as [[t ot]|] eqn:Et; [|discriminate]. injection E as <- <-. cbn [term_step] in Et. destruct (net_step _ _ _) as [[net zz]|]; [|discriminate]. injection Et as <- <-. cbn [map app y_t of_net flat_map] in *. rewrite app_nil_r in *.
  pose proof (put_took _ _ _ _ _ _ _ _ _ _ _ X) as Pt. pose proof (put_took _ _ _ _ _ _ _ _ _ _ _ X2) as Pt2. cbn [tm_inj opt length] in Pt2. change (Z.of_nat 0) with 0%Z in Pt2. rewrite total_zero in Pt2.
  set (D := total (fun n => Z.of_nat (length (opt (tm_inj (y_t (qs c)) n)))) (w_nodes w)) in *. assert (D0 : (0 <= D)%Z) by (apply total_nonneg; intros; lia).
  set (c' := mkC _ _ _). assert (Ps : psi c' = psi c) by reflexivity.
  assert (Om : (om c' + G + D <= om c)%Z).
  { unfold om, c'. cbn [qe qo qs y_t]. assert (Pu : put P w rf (qe c ++ [VTick (g_clk g)]) = (put P w rf (qe c) + D)%Z) by lia. rewrite Pu in *. set (pf := per_flit w dist) in *. clearbody pf.
    replace ((pf + 1) * (Fl (qo c) - (put P w rf (qe c) + D)))%Z with ((pf + 1) * (Fl (qo c) - put P w rf (qe c)) - pf * (put P w rf (qe c) + D - put P w rf (qe c)) - D)%Z by ring. lia. }
  split; [lia|]. split; [lia|]. destruct (Z_lt_ge_dec 0 (G + D)) as [|GD]; [left; lia|right].
  assert (NL : ~ NetPotential.lively P w (tick_of w rf (g_clk g) (y_t (qs c))) (tm_net (y_t (qs c)))) by (intros L; specialize (G2 L); lia).
  assert (NI : forall n, n < N -> tm_inj (y_t (qs c)) n = None).
  { intros n Hn. destruct (tm_inj (y_t (qs c)) n) eqn:En; auto. exfalso. assert (Z.of_nat (length (opt (tm_inj (y_t (qs c)) n))) <= D)%Z by (apply (total_ge (fun n => Z.of_nat (length (opt (tm_inj (y_t (qs c)) n))))); [intros; lia|exact Hn]). rewrite En in H. cbn [opt length] in H. lia. }
  split.
  - constructor; unfold c'; cbn [qs qo qe y_sl y_ma]; auto; try reflexivity.
    + intros n. apply frozen_refl.
    + exists [z]. exact Oz.
  - cbn [fact]. split; [exact NI|]. split; [|split; [|split]].
    + intros m Hm. unfold unread. destruct (A m Hm) as [_ Al]. rewrite read_app in Al. destruct (read_turns m (qe c)) as [|a0 l0] eqn:Ea.
      * pose proof (ti_start _ _ _ _ _ _ _ _ _ _ _ _ (tx_ti _ _ _ _ _ _ _ _ _ _ _ X) m (or_intror Ea)) as Y. pose proof (ti_run _ _ _ _ _ _ _ _ _ _ _ _ (tx_ti _ _ _ _ _ _ _ _ _ _ _ X)) as R. rewrite Y in R. cbn in R. injection R as R _. rewrite <- R. reflexivity.
      * rewrite (TermProofs.alternate_last (a0 :: l0) false false Al); [reflexivity|discriminate].
    + intros m Hm. destruct (tm_ej (y_t (qs c)) m) eqn:Ej; auto. exfalso. apply NL. right. right. left. exists m. split; [exact Hm|]. cbn [tick_of t_cred]. destruct (Nat.ltb_spec m (w_nodes w)) as [_|Y]; [|unfold N in Hm; lia]. rewrite Ej. discriminate.
    + apply (rests_term P w rf ok I dist slots s_W s_HB HC s_RO s_HD s_HO _ _ _ _ _ _ _ X B); auto. intros r Hr. apply (h_gives _ _ HG r Hr).
    + exists z. exact Oz.
Qed.
End Act.

Lemma act_moves : forall g rdy don l c a, JJ g rdy don l c -> NoDup (don ++ [a]) -> match a with AS n _ | AM n _ => n < N | ATick => True end -> take_turns N (l ++ [a]) -> unhurried N (l ++ [a]) ->
  (forall h x, tdecent w (starts T w) h x (VTick (g_clk g))) -> (a = ATick -> NetProgress.lastt o0 (tkx (qe c)) < k_now (g_clk g))%Z ->
  exists s1 o1 c', do_act w rf cs ms g rdy a (qs c) = Some (s1, o1) /\ qo c' = qo c ++ o1 /\ qs c' = s1 /\ JJ g rdy (don ++ [a]) (l ++ [a]) c' /\
    NetProgress.lastt o0 (tkx (qe c')) = match a with ATick => k_now (g_clk g) | _ => NetProgress.lastt o0 (tkx (qe c)) end /\ (helping w g -> moved a c c').
Proof.
  intros g rdy don l c a J ND Na TT UH DK Lt. destruct (j_pi _ _ _ _ _ J) as [sh [mh [prev [cn [av [PI0 El]]]]]]. assert (TT' : take_turns N (prev ++ don ++ [a])) by (rewrite app_assoc, <- El; exact TT).
  destruct (act_one P mesh nl k nn b rd cd ob bz vz ch cs ms K Hb Hv EP FT _ _ _ _ _ _ _ _ _ _ _ a PI0 ND Na TT' DK) as [s1 [o1 [cn1 [av1 [E PI1]]]]]. exists s1, o1, (mkC (qe c ++ evsx g a (qs c) o1) (qo c ++ o1) s1). cbn [qo qs qe].
  split; [exact E|]. split; [reflexivity|]. split; [reflexivity|].
  destruct (JJ_next _ _ _ _ _ _ _ _ _ _ _ _ _ J E El ND Na TT UH PI1) as [Sl Nx].
  assert (Tk : a <> ATick -> tkx (qe c ++ evsx g a (qs c) o1) = tkx (qe c)).
  { intros Ha. eapply quiet_om; eauto. pose proof (ev_kind _ _ _ _ _ _ E) as EK. destruct a as [n t|n t|]; [| |congruence].
    - destruct t; auto. destruct EK as [e [Ee He]]. right. exists e. split; auto. destruct e; auto.
    - destruct t; [right; exists (VRead n); split; [exact EK|exact Logic.I]| |left; exact EK]. destruct EK as [EK|[v EK]]; [left; exact EK|right; exists (VFree n v); split; [exact EK|exact Logic.I]]. }
  destruct a as [n t|n t|].
  - rewrite Tk by discriminate. split; [apply Nx; rewrite Tk by discriminate; apply (j_ch _ _ _ _ _ J)|]. split; [reflexivity|]. intros HG. destruct (eq_thread_inj t) as [->|Ht]; [eapply move_inj; eauto|eapply move_slave; eauto].
  - rewrite Tk by discriminate. split; [apply Nx; rewrite Tk by discriminate; apply (j_ch _ _ _ _ _ J)|]. split; [reflexivity|]. intros HG. destruct (eq_thread_ej t) as [->|Ht]; [eapply move_eject; eauto|eapply move_ma; eauto].
  - specialize (Lt eq_refl). pose proof (tick_tk _ _ _ _ _ _ _ _ _ _ J PI0 El _ _ _ _ TT' PI1 Sl) as Tk'. split; [apply Nx; rewrite Tk'; apply chain_append; [apply (j_ch _ _ _ _ _ J)|cbn; split; [exact Lt|exact Logic.I]]|]. split; [rewrite Tk', lastt_app; reflexivity|intros HG; exact (move_tick _ _ _ _ _ _ _ _ _ _ J PI0 El HG _ _ _ _ E TT' PI1 Sl Lt)].
Qed.

(** ** All threads of an instant *)
Definition went (c c' : cf) (r : list act) : Prop := (psi c' <= psi c)%Z /\ (om c' <= om c)%Z /\
  ((psi c' + om c' < psi c + om c)%Z \/ calm c c' /\ forall a, In a r -> exists x x', calm c x /\ fact a x x' /\ calm x' c' /\ (psi c' <= psi x)%Z /\ exists g rdy don l, JJ g rdy don l x).
Lemma went_trans : forall a c d r1 r2, went a c r1 -> went c d r2 -> went a d (r1 ++ r2).
Proof.
  intros a c d r1 r2 [A1 [A2 A3]] [B1 [B2 B3]]. split; [lia|]. split; [lia|]. destruct A3 as [A3|[A3 A4]]; [left; lia|]. destruct B3 as [B3|[B3 B4]]; [left; lia|]. right. split; [eapply calm_trans; eauto|].
  intros y Hy. apply in_app_iff in Hy. destruct Hy as [Hy|Hy].
  - destruct (A4 y Hy) as [x [x' [H1 [H2 [H3 [H4 H5]]]]]]. exists x, x'. split; [auto|]. split; [auto|]. split; [eapply calm_trans; eauto|]. split; [lia|auto].
  - destruct (B4 y Hy) as [x [x' [H1 [H2 [H3 H4]]]]]. exists x, x'. split; [eapply calm_trans; eauto|]. auto.
Qed.
Lemma went_calm : forall c c', calm c c' -> psi c' = psi c -> om c' = om c -> went c c' [].
Proof. intros c c' A B C. split; [lia|]. split; [lia|]. right. split; auto. intros a []. Qed.
Lemma went_one : forall g rdy don l a c c', JJ g rdy don l c -> moved a c c' -> went c c' [a].
Proof. intros g rdy don l a c c' J [A [B [C|[C D]]]]; (split; [auto|]; split; [auto|]); [left; auto|]. right. split; auto. intros y [<-|[]]. exists c, c'. split; [apply calm_refl|]. split; [auto|]. split; [apply calm_refl|]. split; [auto|]. exists g, rdy, don, l. auto. Qed.

Lemma acts_move : forall g rdy r don l c, JJ g rdy don l c -> NoDup (don ++ r) -> (forall a, In a r -> match a with AS n _ | AM n _ => n < N | ATick => True end) -> take_turns N (l ++ r) -> unhurried N (l ++ r) ->
  (forall h x, tdecent w (starts T w) h x (VTick (g_clk g))) -> zc (NetProgress.lastt o0 (tkx (qe c))) (tick_nos (g_clk g) r) ->
  exists s' o' c', do_acts w rf cs ms g rdy r (qs c) = Some (s', o') /\ qo c' = qo c ++ o' /\ qs c' = s' /\ JJ g rdy (don ++ r) (l ++ r) c' /\
    NetProgress.lastt o0 (tkx (qe c')) = last (tick_nos (g_clk g) r) (NetProgress.lastt o0 (tkx (qe c))) /\ (helping w g -> went c c' r).
Proof.
  intros g rdy r. induction r as [|a r IH]; intros don l c J ND Na TT UH DK Zc.
  - exists (qs c), [], c. cbn [do_acts tick_nos flat_map last]. rewrite !app_nil_r. split; [reflexivity|]. split; [reflexivity|]. split; [reflexivity|]. split; [exact J|]. split; [reflexivity|]. intros _. apply went_calm; auto. apply calm_refl.
  - assert (Sh : forall (A : Type) (m : list A) (x : A) (y : list A), m ++ x :: y = (m ++ [x]) ++ y) by (intros; rewrite <- app_assoc; reflexivity). rewrite (Sh _ don) in ND. rewrite (Sh _ l) in TT, UH.
    destruct (act_moves g rdy don l c a J) as [s1 [o1 [c1 [E1 [Q1 [Q2 [J1 [L1 M1]]]]]]]].
    + apply IqRouterInv.NoDup_left in ND. exact ND.
    + apply Na. left. reflexivity.
    + eapply turns_pre. exact TT.
    + eapply unhurried_pre. exact UH.
    + exact DK.
    + intros ->. cbn [tick_nos flat_map app zc] in Zc. apply Zc.
    + destruct (IH (don ++ [a]) (l ++ [a]) c1 J1 ND) as [s2 [o2 [c2 [E2 [Q3 [Q4 [J2 [L2 M2]]]]]]]]; auto.
      * intros y Hy. apply Na. right. exact Hy.
      * rewrite L1. destruct a; cbn [tick_nos flat_map app zc] in Zc |- *; auto. apply Zc.
      * exists s2, (o1 ++ o2), c2. cbn [do_acts]. rewrite E1. rewrite Q2 in E2. rewrite E2. split; [reflexivity|]. split; [rewrite Q3, Q1, app_assoc; reflexivity|]. split; [auto|]. rewrite (Sh _ don), (Sh _ l). split; [auto|].
        split; [rewrite L2, L1; destruct a; cbn [tick_nos flat_map app]; auto; symmetry; apply last_cons|]. intros HG. apply (went_trans c c1 c2 [a] r); auto. eapply went_one; eauto.
Qed.

(** ** Instants *)
Record JB (l : list act) (c : cf) : Prop := {
  jb_bi : exists sh mh, BIx sh mh l (qe c) (qo c) (qs c);
  jb_tt : take_turns N l;
  jb_slow : slow (qe c);
  jb_dep : forall n, n < N -> last (free_turns n (qe c)) false = true -> last (dep_acts n l) false = true;
  jb_ch : chain o0 (tkx (qe c));
  jb_fr : forall n, fr (y_ma (qs c) n) }.
Lemma JB_start : JB [] (mkC [] [] (sys0 w cs ms)).
Proof.
  constructor; cbn [qe qo qs].
  - exists (fun _ => []), (fun _ => []). apply BI_zero.
  - intros n _. split; intros l1 x l2 H; destruct l1; discriminate.
  - intros n l1 l2 H. destruct l1; discriminate.
  - intros n _ H. discriminate.
  - exact Logic.I.
  - intros n v. reflexivity.
Qed.
Lemma JB_JJ : forall g l c, JB l c -> (forall n, offers mesh nl k nn b rd cd ob cs ms n (SysModel.seen g n [] false)) ->
  let c0 := mkC (qe c) (qo c) (mkY (y_t (qs c)) (fun n => settled cs g n (y_sl (qs c) n)) (y_ma (qs c))) in JJ g (fun n => granted cs g n (y_sl (qs c) n)) [] l c0 /\ calm c c0 /\ psi c0 = psi c /\ om c0 = om c.
Proof.
  intros g l c B OF. destruct (jb_bi _ _ B) as [sh [mh BB]]. split; [|split; [|split; reflexivity]].
  - constructor; cbn [qe qo qs].
    + exists sh, mh, l, (fun _ => false), (fun _ => false). split; [|symmetry; apply app_nil_r]. eapply PI_start; eauto.
    + constructor.
    + apply (jb_tt _ _ B).
    + apply (jb_slow _ _ B).
    + apply (jb_dep _ _ B).
    + apply (jb_ch _ _ B).
  - constructor; cbn [qe qo qs y_sl y_ma y_t]; auto; try reflexivity; [intros n; apply frozen_refl|exists []; symmetry; apply app_nil_r].
Qed.
Lemma JJ_JB : forall g rdy don l c, JJ g rdy don l c ->
  let c1 := mkC (qe c) (qo c) (mkY (y_t (qs c)) (y_sl (qs c)) (fun n => commit (y_ma (qs c) n))) in JB l c1 /\ calm c c1 /\ psi c1 = psi c /\ om c1 = om c.
Proof.
  intros g rdy don l c J. destruct (j_pi _ _ _ _ _ J) as [sh [mh [prev [cn [av [PI0 El]]]]]]. split; [|split; [|split; reflexivity]].
  - constructor; cbn [qe qo qs y_ma].
    + eexists _, _. rewrite El. eapply PI_end; [exact PI0|apply (j_once _ _ _ _ _ J)].
    + apply (j_tt _ _ _ _ _ J).
    + apply (j_slow _ _ _ _ _ J).
    + apply (j_dep _ _ _ _ _ J).
    + apply (j_ch _ _ _ _ _ J).
    + intros n v. reflexivity.
  - constructor; cbn [qe qo qs y_sl y_ma y_t]; try (intros; reflexivity); [intros n; repeat split; auto|intros n _ v; reflexivity|exists []; symmetry; apply app_nil_r].
Qed.
Lemma inst_moves : forall g l c, JB l c -> good_ginst w cs ms g -> take_turns N (l ++ g_acts g) -> unhurried N (l ++ g_acts g) -> zc (NetProgress.lastt o0 (tkx (qe c))) (tick_nos (g_clk g) (g_acts g)) ->
  exists s' o' c', sys_step w rf cs ms g (qs c) = Some (s', o') /\ qo c' = qo c ++ o' /\ qs c' = s' /\ JB (l ++ g_acts g) c' /\
    NetProgress.lastt o0 (tkx (qe c')) = last (tick_nos (g_clk g) (g_acts g)) (NetProgress.lastt o0 (tkx (qe c))) /\ (helping w g -> went c c' (g_acts g)).
Proof.
  intros g l c B G1 TT UH Zc. destruct (JB_JJ g l c B) as [J0 [C0 [P0 M0]]]; [intros n i t Hn Hi Ht; apply (gi_txn _ _ _ _ G1); auto|]. set (c0 := mkC _ _ _) in *.
  destruct (acts_move g _ (g_acts g) [] l c0 J0) as [s1 [o1 [c1 [E1 [Q1 [Q2 [J1 [L1 W1]]]]]]]]; auto.
  - apply (gi_once _ _ _ _ G1).
  - apply (gi_node _ _ _ _ G1).
  - intros h x. split; [apply (gi_va _ _ _ _ G1)|apply (gi_sa _ _ _ _ G1)].
  - destruct (JJ_JB _ _ _ _ _ J1) as [B1 [C1 [P1 M1]]]. set (c2 := mkC (qe c1) _ _) in *. exists (qs c2), o1, c2. split; [unfold sys_step; unfold c0 in E1; cbn [qs] in E1; rewrite E1; unfold c2; cbn [qs]; rewrite Q2; reflexivity|]. split; [exact Q1|]. split; [reflexivity|]. split; [exact B1|]. split; [exact L1|].
    intros HG. apply (went_trans c c0 c2 [] (g_acts g)); [apply went_calm; auto|]. rewrite <- (app_nil_r (g_acts g)). apply (went_trans c0 c1 c2); [auto|apply went_calm; auto].
Qed.
Lemma run_moves : forall gs l c, JB l c -> Forall (good_ginst w cs ms) gs -> take_turns N (l ++ flat_map g_acts gs) -> unhurried N (l ++ flat_map g_acts gs) -> zc (NetProgress.lastt o0 (tkx (qe c))) (cycles gs) ->
  exists s' o' c', sys_run w rf cs ms gs (qs c) = Some (s', o') /\ qo c' = qo c ++ o' /\ qs c' = s' /\ JB (l ++ flat_map g_acts gs) c' /\
    NetProgress.lastt o0 (tkx (qe c')) = last (cycles gs) (NetProgress.lastt o0 (tkx (qe c))) /\ (Forall (helping w) gs -> went c c' (flat_map g_acts gs)).
Proof.
  intros gs. induction gs as [|g gs IH]; intros l c B Gs TT UH Zc.
  - exists (qs c), [], c. cbn [sys_run cycles flat_map last]. rewrite !app_nil_r. split; [reflexivity|]. split; [reflexivity|]. split; [reflexivity|]. split; [exact B|]. split; [reflexivity|]. intros _. apply went_calm; auto. apply calm_refl.
  - inversion Gs as [|? ? G1 G2]; subst. cbn [cycles flat_map] in *. rewrite app_assoc in TT, UH. apply zc_app in Zc. destruct Zc as [Z1 Z2].
    destruct (inst_moves g l c B G1) as [s1 [o1 [c1 [E1 [Q1 [Q2 [B1 [L1 W1]]]]]]]]; auto; [eapply turns_pre; exact TT|eapply unhurried_pre; exact UH|].
    destruct (IH (l ++ g_acts g) c1 B1 G2 TT UH) as [s2 [o2 [c2 [E2 [Q3 [Q4 [B2 [L2 W2]]]]]]]]; [rewrite L1; exact Z2|].
    exists s2, (o1 ++ o2), c2. cbn [sys_run]. rewrite E1. rewrite Q2 in E2. rewrite E2. split; [reflexivity|]. split; [rewrite Q3, Q1, app_assoc; reflexivity|]. split; [auto|]. rewrite app_assoc. split; [auto|].
    split; [rewrite L2, L1; symmetry; apply last_app'|]. intros HG. inversion HG; subst. eapply went_trans; eauto.
Qed.

(** ** Two rounds *)
Lemma pf_pos : (0 <= per_flit w dist)%Z.
Proof. unfold per_flit. apply total_nonneg. intros n Hn. apply (per_flit_pos w dist n Hn). Qed.
Lemma put_pos : forall es, (0 <= put P w rf es)%Z.
Proof. intros es. unfold put. lia. Qed.
Lemma psi_parts : forall c, (0 <= total (fun n => Z.of_nat (potn (qs c) n)) N)%Z /\ (0 <= total (fun n => Z.of_nat (meas (ms n) (y_ma (qs c) n))) N)%Z.
Proof. intros c. split; apply total_nonneg; intros; lia. Qed.
Lemma JJ_parts : forall g rdy don l c, JJ g rdy don l c -> exists sh mh prev cn av xs ys hb, PIx g rdy sh mh prev don cn av (qe c) (qo c) (qs c) /\ take_turns N (prev ++ don) /\ TXx (qe c) (of_net (qo c)) (y_t (qs c)) xs ys hb.
Proof.
  intros g rdy don l c J. destruct (j_pi _ _ _ _ _ J) as [sh [mh [prev [cn [av [PI0 El]]]]]]. assert (TT0 : take_turns N (prev ++ don)) by (rewrite <- El; apply (j_tt _ _ _ _ _ J)).
  destruct (s_tx PI0 TT0 (j_slow _ _ _ _ _ J)) as [xs [ys [hb X]]]. exists sh, mh, prev, cn, av, xs, ys, hb. auto.
Qed.
Lemma hoard_ej : forall g rdy don l c d v, JJ g rdy don l c -> d < N -> tm_ej (y_t (qs c)) d = None -> unread d (qe c) (y_t (qs c)) = [] ->
  hoard (tkx (qe c)) (outsx (qe c)) d v = length (ejf (y_ma (qs c) d) v) /\ ejected (outsx (qe c)) d = gotn c d.
Proof.
  intros g rdy don l c d v J Hd Ej Un. destruct (JJ_parts _ _ _ _ _ J) as (sh & mh & prev & cn & av & xs & ys & hb & PI0 & _ & X).
  pose proof (ti_got _ _ _ _ _ _ _ _ _ _ _ _ (tx_ti _ _ _ _ _ _ _ _ _ _ _ X) d Hd) as Eg. rewrite Un, app_nil_r in Eg. pose proof (tx_free _ _ _ _ _ _ _ _ _ _ _ X d v Hd) as Ef. unfold kept in Ef. rewrite Ej in Ef.
  pose proof (p_cnt _ _ _ _ _ _ _ _ _ _ _ _ _ _ _ _ _ _ _ _ _ _ _ PI0 d v) as C1. pose proof (p_free _ _ _ _ _ _ _ _ _ _ _ _ _ _ _ _ _ _ _ _ _ _ _ PI0 d v) as C2.
  split; [|symmetry; exact Eg]. unfold hoard. rewrite <- Eg. lia.
Qed.
Lemma backx_calm : forall c c' n v, calm c c' -> backx c n v -> backx c' n v.
Proof.
  intros c c' n v C [z0 [z1 [A [B D]]]]. destruct (k_outs _ _ C) as [zz E]. exists z0, (z1 ++ zz). split; [rewrite E, A, app_assoc; reflexivity|]. split; [destruct z1; [congruence|discriminate]|]. pose proof (k_took _ _ C n) as T1. unfold tokn in T1. rewrite T1. exact D.
Qed.
Lemma window : forall l c0 c1 c2 r1 r2, JB l c1 -> went c0 c1 r1 -> went c1 c2 r2 -> In ATick r1 -> (forall n t, n < N -> In (AS n t) r2) -> (forall n t, n < N -> In (AM n t) r2) ->
  (psi c2 + om c2 < psi c0 + om c0)%Z \/ (psi c2 <= 0)%Z.
Proof.
  intros l c0 c1 c2 r1 r2 B1 [A1 [A2 A3]] [D1 [D2 D3]] Ht HS' HM'. destruct A3 as [A3|[A3 A4]]; [left; lia|]. destruct D3 as [D3|[D3 D4]]; [left; lia|]. right.
  destruct (A4 _ Ht) as [x [x' [X1 [X2 [X3 [X4 [gx [rx [dx [lx JX]]]]]]]]]]. cbn [fact] in X2. destruct X2 as [F1 [F2 [F3 [F4 [z F5]]]]].
  assert (Tk : forall n, tokn c1 n = tokn x n) by (intros n; rewrite (k_took _ _ A3), (k_took _ _ X1); reflexivity).
  assert (Pd : forall n, map (to_bflit (cs (Z.of_nat n))) (pendx n (qs c1)) = map (to_bflit (cs (Z.of_nat n))) (pendx n (qs x))) by (intros n; rewrite (k_pend _ _ A3), (k_pend _ _ X1); reflexivity).
  assert (Bk : forall n v, fullx x n v -> backx c1 n v).
  { intros n v H. destruct (k_outs _ _ X3) as [zz E]. exists (outsx (qe x)), (z :: zz). split; [rewrite E, F5, <- app_assoc; reflexivity|]. split; [discriminate|]. specialize (Tk n). unfold tokn in Tk. rewrite Tk. exact H. }
  assert (No : forall n f r, n < N -> map (to_bflit (cs (Z.of_nat n))) (pendx n (qs c1)) = f :: r -> ~ backx c1 n (vcn f)).
  { intros n f r Hn E H. assert (Ne : pendx n (qs c1) <> []) by (intros Y; rewrite Y in E; discriminate).
    destruct (D4 _ (HS' n TPack Hn)) as [y [y' [Y1 [Y2 _]]]]. destruct (D4 _ (HS' n TInj Hn)) as [u [u' [U1 [U2 _]]]]. cbn [fact] in Y2, U2.
    assert (Ni : ~ AxisSlaveProofs.idle (y_sl (qs c1) n)). { rewrite (k_idle _ _ Y1 n Ne). apply Y2. pose proof (k_pend _ _ Y1 n) as Q. rewrite E in Q. intros Y. rewrite Y in Q. discriminate. }
    apply (U2 ltac:(rewrite <- (k_idle _ _ U1 n Ne); exact Ni) f r); [rewrite (k_pend _ _ U1 n); exact E|]. eapply backx_calm; eauto. }
  destruct (JJ_parts _ _ _ _ _ JX) as (sh & mh & prev & cn & av & xs & ys & hb & PI0 & TT0 & TX0).
  (* the master adapters *)
  assert (Mz : forall d, d < N -> depk (y_ma (qs x) d) = false /\ (forall i, i < m_nif (ms d) -> outq (y_ma (qs x) d) i = []) /\ forall v, v < m_nvc (ms d) -> tails (ejf (y_ma (qs x) d) v) = 0).
  { intros d Hd. destruct (D4 _ (HM' d TDepk Hd)) as [y [y' [Y1 [Y2 _]]]]. destruct (D4 _ (HM' d TOut Hd)) as [u [u' [U1 [U2 _]]]]. cbn [fact] in Y2, U2. pose proof (jb_fr _ _ B1 d) as Fr.
    destruct (Y2 (k_fr _ _ Y1 d Fr)) as [Y3 Y4]. specialize (U2 (k_fr _ _ U1 d Fr)). destruct (k_ma _ _ X1 d) as (P1 & P2 & P3 & P4 & P5). destruct (k_ma _ _ A3 d) as (R1 & R2 & R3 & R4 & R5).
    destruct (k_ma _ _ Y1 d) as (V1 & V2 & V3 & V4 & V5). destruct (k_ma _ _ U1 d) as (W1 & W2 & W3 & W4 & W5).
    assert (Oq : forall i, i < m_nif (ms d) -> outq (y_ma (qs x) d) i = []) by (intros i Hi; rewrite P4, <- R4, <- W4; auto).
    split; [congruence|]. split; [exact Oq|]. intros v Hv'. specialize (Y4 v Hv'). rewrite V3, R3, <- P3 in Y4. destruct Y4 as [Y4|[f [r [Ef Hf]]]]; [exact Y4|]. exfalso.
    destruct (minv PI0 TT0 (j_once _ _ _ _ _ JX) d Hd) as (ps & more & dl & od & WF & IV & _). pose proof (ro_out _ _ _ _ RM d Hd) as Rd. rewrite V4, R4, <- P4 in Hf.
    assert (Hi : ifn f < m_nif (ms d)).
    { destruct (i_R _ _ _ _ _ _ IV v) as [R [E1 E2]]. assert (Cu : cur (y_ma (qs x) d) v = []) by (unfold cur; replace (depk (y_ma (qs x) d)) with false by congruence; destruct (prioq _); reflexivity). rewrite Cu, Ef in E2. cbn [app] in E2.
      destruct (concat R) as [|q rest] eqn:Ec; [discriminate|]. cbn [map] in E2. injection E2 as Eq _. assert (In q (concat R)) by (rewrite Ec; left; auto). apply in_concat in H. destruct H as [p [Hp Hq]].
      pose proof (WF v) as W. rewrite E1 in W. apply Forall_app in W. destruct W as [_ W]. rewrite Forall_forall in W. specialize (W p Hp). rewrite <- Eq, (wf_iface_all (ms d) p q W Hq). apply W. }
    rewrite Oq in Hf by exact Hi. cbn in Hf. lia. }
  destruct F4 as [[Fi Ff]|[Fc|[n [v [q [Hn [Hv' [Fp Ff]]]]]]]].
  - (* nothing in the network *)
    assert (Pe : forall n, n < N -> pendx n (qs x) = []).
    { intros n Hn. destruct (pendx n (qs x)) as [|f r] eqn:E; auto. exfalso. pose proof (Pd n) as Q. rewrite E in Q. cbn [map] in Q. apply (No n _ _ Hn Q). apply Bk, Ff; auto. apply (pend_vcs PI0 n _ (map (to_bflit (cs (Z.of_nat n))) r) Hn). rewrite E. reflexivity. }
    assert (Dr : TermSpec.drained w (qe x) (y_t (qs x))) by (split; [exact Fi|intros n Hn; split; [apply F1; exact Hn|apply F2; exact Hn]]).
    pose proof (balance PI0 _ _ _ TX0) as Ba. rewrite Fi in Ba. cbn [length] in Ba.
    rewrite (total_ext (fun n => Z.of_nat (length (pendx n (qs x)))) (fun _ => 0%Z)) in Ba by (intros v Hv'; rewrite Pe by exact Hv'; reflexivity).
    rewrite (total_ext (fun n => Z.of_nat (length (opt (tm_inj (y_t (qs x)) n)))) (fun _ => 0%Z)) in Ba by (intros v Hv'; rewrite F1 by exact Hv'; reflexivity).
    rewrite (total_ext (fun n => Z.of_nat (length (unread n (qe x) (y_t (qs x))))) (fun _ => 0%Z)) in Ba by (intros v Hv'; rewrite F2 by exact Hv'; reflexivity).
    rewrite !total_zero in Ba. fold (Fl (qo x)) (Gt (qo x)) in Ba.
    assert (psi x = 0%Z); [|lia]. unfold psi.
    rewrite (total_ext (fun n => Z.of_nat (potn (qs x) n)) (fun _ => 0%Z)) by (intros v Hv'; unfold potn; rewrite Pe by exact Hv'; reflexivity).
    rewrite (total_ext (fun n => Z.of_nat (meas (ms n) (y_ma (qs x) n))) (fun _ => 0%Z)), !total_zero; [lia|]. intros d Hd. destruct (Mz d Hd) as [M1 [M2 M3]].
    destruct (minv PI0 TT0 (j_once _ _ _ _ _ JX) d Hd) as (ps & more & dl & od & WF & IV & _ & _ & Er & Md & _). destruct (p_q _ _ _ _ _ _ _ _ _ _ _ _ _ _ _ _ _ _ _ _ _ _ _ PI0 d) as [Q1 Q2].
    rewrite meas_null; auto; [|apply (i_idle _ _ _ _ _ _ IV M1)]. intros v Hv'. apply (proj1 (still_ma _ _ _ _ _ _ v _ WF IV M1 Q1 Q2 (M3 v Hv') (Er v))). apply Md; auto.
  - (* a node is clogged *)
    exfalso. destruct Fc as [d [v [Hd [Hv' Fc]]]]. change (w_b w) with b in Hv', Fc. destruct (hoard_ej _ _ _ _ _ d v JX Hd (F3 d Hd) (F2 d Hd)) as [Hh He]. rewrite Hh, He in Fc. destruct (Mz d Hd) as [M1 [M2 M3]]. pose proof (ft_m _ _ _ _ _ _ FT d Hd) as [GM Gv].
    destruct (minv PI0 TT0 (j_once _ _ _ _ _ JX) d Hd) as (ps & more & dl & od & WF & IV & _ & Ln & Er & _). destruct (p_q _ _ _ _ _ _ _ _ _ _ _ _ _ _ _ _ _ _ _ _ _ _ _ PI0 d) as [Q1 Q2].
    destruct (still_ma _ _ _ _ _ _ v _ WF IV M1 Q1 Q2 (M3 v ltac:(lia)) (Er v)) as [_ [S1 S2]]. destruct Fc as [Fc|[_ [Fc Fp]]].
    + destruct S1 as [S1|[p [Hp Lt]]]; [|specialize (Ln v p Hp); lia]. rewrite S1 in Fc. cbn in Fc. pose proof s_slots. lia.
    + assert (Ne : ejf (y_ma (qs x) d) v <> []) by (intros Y; rewrite Y in Fc; cbn in Fc; lia). specialize (S2 Ne). pose proof (p_cnt _ _ _ _ _ _ _ _ _ _ _ _ _ _ _ _ _ _ _ _ _ _ _ PI0 d v) as C1.
      destruct (parse_done _ Fp) as [l' [f [El Tf]]]; [intros Y; unfold gotn in Y; rewrite Y in C1; cbn [length] in C1; lia|].
      assert (Hf : In f (got d (of_net (qo x)))) by (assert (Y : In f (IqRouterSpec.on_vc v (gotn x d))) by (rewrite El; apply in_or_app; right; left; auto); unfold IqRouterSpec.on_vc in Y; apply filter_In in Y; apply Y).
      destruct (got_kind PI0 TT0 d f Hd Hf) as [_ Kt]. assert (b_tail (bs_flit f) = false); [|congruence]. apply (S2 (map bs_flit l') (bs_flit f)).
      rewrite filter_map_comm. change [bs_flit f] with (map bs_flit [f]). rewrite <- map_app, <- El. f_equal. unfold gotn, IqRouterSpec.on_vc. apply filter_same. intros y Hy. destruct (got_kind PI0 TT0 d y Hd Hy) as [Kv _]. unfold on_vc. rewrite Kv. reflexivity.
  - exfalso. destruct (next_vc PI0 n v q Hn Fp) as [f [r [Ef Hf]]]. rewrite <- Pd in Ef. apply (No n f r Hn Ef). rewrite Hf. apply Bk. exact Ff.
Qed.

(** ** The bounds *)
Lemma boundary : forall l c, JB l c -> (0 <= psi c)%Z /\ (0 <= om c)%Z /\ (psi c + om c <= NetProgress.start P w dist + (per_flit w dist + 9) * Fl (qo c))%Z /\ ((psi c <= 0)%Z -> at_rest w ms l (qs c)).
Proof.
  intros l c B. destruct (JB_JJ still l c B ltac:(intros n i t _ _ H; discriminate)) as [J [_ [E1 E2]]]. set (c0 := mkC _ _ _) in *. destruct (j_pi _ _ _ _ _ J) as [sh [mh [prev [cn [av [PI0 El]]]]]]. rewrite app_nil_r in El. subst prev.
  assert (TT0 : take_turns N (l ++ [])) by (rewrite app_nil_r; apply (j_tt _ _ _ _ _ J)). destruct (s_tx PI0 TT0 (j_slow _ _ _ _ _ J)) as [xs [ys [hb X]]].
  pose proof (balance PI0 _ _ _ X) as Ba. pose proof (put_took _ _ _ _ _ _ _ _ _ _ _ X) as Pt. fold N in Pt. fold (Fl (qo c0)) (Gt (qo c0)) in Ba. change (qo c0) with (qo c) in Ba.
  set (Pn := total (fun n => Z.of_nat (length (pendx n (qs c0)))) N) in *. set (In := total (fun n => Z.of_nat (length (opt (tm_inj (y_t (qs c0)) n)))) N) in *. set (Un := total (fun n => Z.of_nat (length (unread n (qe c0) (y_t (qs c0))))) N) in *.
  assert (P0 : (0 <= Pn)%Z) by (apply total_nonneg; intros; lia). assert (I0 : (0 <= In)%Z) by (apply total_nonneg; intros; lia). assert (U0 : (0 <= Un)%Z) by (apply total_nonneg; intros; lia).
  assert (G0 : (0 <= Gt (qo c))%Z) by (apply total_nonneg; intros; lia). destruct (psi_parts c0) as [S1 S2]. pose proof (put_pos (qe c0)) as Pp.
  assert (Le : (put P w rf (qe c0) <= Fl (qo c))%Z).
  { enough (total (fun n => Z.of_nat (length (took n (of_net (qo c0))))) N <= Fl (qo c))%Z by lia. unfold Fl. apply total_le. intros n Hn. change (qo c) with (qo c0). rewrite <- (once P mesh nl k nn b rd cd ob bz vz ch cs ms FT PI0 n), app_length.
    pose proof (f_equal (@length _) (p_put _ _ _ _ _ _ _ _ _ _ _ _ _ _ _ _ _ _ _ _ _ _ _ PI0 n)) as L. rewrite !map_length in L. lia. }
  pose proof (worth_pos P w rf ok I dist o0 _ _ _ _ _ _ X) as Wp. pose proof (worth_start P w rf ok I dist slots s_W s_HB s_HD o0 _ _ _ _ _ _ X (j_ch _ _ _ _ _ J)) as Ws. pose proof pf_pos as Pf.
  assert (B1 : (total (fun n => Z.of_nat (potn (qs c0) n)) N <= 3 * Pn)%Z).
  { unfold Pn. rewrite <- total_scale. apply total_le. intros n _. unfold potn. pose proof (pot_le (cs (Z.of_nat n)) (length (pendx n (qs c0))) (y_sl (qs c0) n)). lia. }
  assert (B2 : (total (fun n => Z.of_nat (meas (ms n) (y_ma (qs c0) n))) N <= 5 * Gt (qo c))%Z).
  { unfold Gt. rewrite <- total_scale. apply total_le. intros n Hn. destruct (minv PI0 TT0 (j_once _ _ _ _ _ J) n Hn) as (ps & more & dl & od & _ & _ & _ & _ & _ & _ & M). specialize (M eq_refl). change (qo c) with (qo c0). lia. }
  assert (Om : (om c0 = worth P w rf dist o0 (qe c0) (y_t (qs c0)) + (per_flit w dist + 1) * (Fl (qo c) - put P w rf (qe c0)))%Z) by reflexivity.
  assert (Ps : (psi c0 = total (fun n => Z.of_nat (potn (qs c0) n)) N + total (fun n => Z.of_nat (meas (ms n) (y_ma (qs c0) n))) N + 5 * (Fl (qo c) - Gt (qo c)))%Z) by reflexivity.
  rewrite <- E1, <- E2. set (pf := per_flit w dist) in *. clearbody pf. split; [lia|]. split; [nia|]. split; [nia|]. intros Z0.
  assert (Zp : forall n, n < N -> pendx n (qs c0) = []). { intros n Hn. assert (Z.of_nat (potn (qs c0) n) = 0)%Z by (apply (total_null (fun n => Z.of_nat (potn (qs c0) n)) N); auto; intros; lia). assert (length (pendx n (qs c0)) = 0) by (eapply pot_zero; [apply Nat.le_refl|unfold potn in H; lia]). destruct (pendx n (qs c0)); [auto|discriminate]. }
  assert (Zm : forall n, n < N -> meas (ms n) (y_ma (qs c0) n) = 0). { intros n Hn. assert (Z.of_nat (meas (ms n) (y_ma (qs c0) n)) = 0)%Z by (apply (total_null (fun n => Z.of_nat (meas (ms n) (y_ma (qs c0) n))) N); auto; intros; lia). lia. }
  split; [|split; [|split]].
  - intros n Hn. apply (pend_empty (cs (Z.of_nat n)) (y_sl (qs c0) n) (s_inv PI0 n) (Zp n Hn)).
  - destruct (inside w (tm_net (y_t (qs c)))) eqn:Ei; auto. exfalso. change (y_t (qs c0)) with (y_t (qs c)) in Ba. rewrite Ei in Ba. cbn [length] in Ba. lia.
  - intros n Hn. split.
    + assert (Q : Z.of_nat (length (opt (tm_inj (y_t (qs c0)) n))) = 0%Z) by (apply (total_null (fun n => Z.of_nat (length (opt (tm_inj (y_t (qs c0)) n)))) N); [intros; lia|fold In; lia|exact Hn]). change (y_t (qs c0)) with (y_t (qs c)) in Q. destruct (tm_inj (y_t (qs c)) n); [discriminate|auto].
    + assert (Q : Z.of_nat (length (unread n (qe c0) (y_t (qs c0)))) = 0%Z) by (apply (total_null (fun n => Z.of_nat (length (unread n (qe c0) (y_t (qs c0))))) N); [intros; lia|fold Un; lia|exact Hn]). unfold unread in Q.
      rewrite (p_read _ _ _ _ _ _ _ _ _ _ _ _ _ _ _ _ _ _ _ _ _ _ _ PI0 n), app_nil_r in Q. destruct (last (ej_acts n l) false); [left; auto|right]. change (y_t (qs c0)) with (y_t (qs c)) in Q. destruct (ch_out _); [discriminate|auto].
  - intros n Hn. destruct (minv PI0 TT0 (j_once _ _ _ _ _ J) n Hn) as (ps & more & dl & od & _ & IV & _). apply (meas_zero _ _ _ _ _ _ IV (Zm n Hn)).
Qed.
Lemma Fl_bound : forall l c, JB l c -> (Fl (qo c) <= slots * Z.of_nat (accepted N (qo c)))%Z.
Proof.
  intros l c B. destruct (JB_JJ still l c B ltac:(intros n i t _ _ H; discriminate)) as [J _]. set (c0 := mkC _ _ _) in *. destruct (j_pi _ _ _ _ _ J) as [sh [mh [prev [cn [av [PI0 El]]]]]]. change (qo c) with (qo c0).
  unfold accepted. rewrite <- total_sum, <- total_scale. unfold Fl. apply total_le. intros n Hn. unfold sent_by. replace (0 <=? Z.of_nat n)%Z with true by (symmetry; apply Z.leb_le; lia). rewrite Nat2Z.id.
  assert (A : forall e, In e (accepts (of_slave n (qo c0))) -> (Z.of_nat (length (packet_of (cs (Z.of_nat n)) e)) <= slots)%Z).
  { intros e He. destruct (acc_ok P mesh nl k nn b rd cd ob ch cs ms PI0 n e He) as [Ei _]. rewrite packet_length; auto; [|apply (ft_s _ _ _ _ _ _ FT)]. apply (ro_len _ _ _ _ RM n _ Hn Ei). }
  induction (accepts (of_slave n (qo c0))) as [|e r IH]; [cbn; lia|]. cbn [flat_map length]. rewrite app_length. specialize (IH (fun e H => A e (or_intror H))). specialize (A e (or_introl eq_refl)). lia.
Qed.

(** ** Many rounds *)
Lemma rounds_go : forall m rs l c, JB l c -> Forall (good_ginst w cs ms) (concat rs) -> take_turns N (l ++ flat_map g_acts (concat rs)) -> unhurried N (l ++ flat_map g_acts (concat rs)) ->
  zc (NetProgress.lastt o0 (tkx (qe c))) (cycles (concat rs)) -> Forall (round N) rs -> Forall (helping w) (concat rs) -> (psi c + om c < Z.of_nat m)%Z -> 2 * m <= length rs ->
  exists s' o' c', sys_run w rf cs ms (concat rs) (qs c) = Some (s', o') /\ qs c' = s' /\ JB (l ++ flat_map g_acts (concat rs)) c' /\ (psi c' <= 0)%Z.
Proof.
  induction m as [|m IH]; intros rs l c B G TT UH Zc RR HG M L; [destruct (boundary _ _ B) as [H1 [H2 _]]; lia|].
  destruct rs as [|r1 rs]; [cbn in L; lia|]. destruct rs as [|r2 rs]; [cbn in L; lia|]. cbn [concat length] in *. inversion RR as [|? ? Q1 RR1]; subst. inversion RR1 as [|? ? Q2 RR2]; subst.
  apply Forall_app in G. destruct G as [G1 G]. apply Forall_app in G. destruct G as [G2 G3]. apply Forall_app in HG. destruct HG as [H1 HG]. apply Forall_app in HG. destruct HG as [H2 H3].
  rewrite !flat_map_app, !app_assoc in TT, UH. unfold cycles in Zc. rewrite !flat_map_app in Zc. fold (cycles r1) (cycles r2) (cycles (concat rs)) in Zc. apply zc_app in Zc. destruct Zc as [Z1 Zc].
  destruct (run_moves r1 l c B G1) as [s1 [o1 [c1 [E1 [Qo1 [Qs1 [B1 [L1 W1]]]]]]]]; [eapply turns_pre; eapply turns_pre; exact TT|eapply unhurried_pre; eapply unhurried_pre; exact UH|exact Z1|]. specialize (W1 H1).
  rewrite <- L1 in Zc. apply zc_app in Zc. destruct Zc as [Z2 Z3].
  destruct (run_moves r2 _ c1 B1 G2) as [s2 [o2 [c2 [E2 [Qo2 [Qs2 [B2 [L2 W2]]]]]]]]; [eapply turns_pre; exact TT|eapply unhurried_pre; exact UH|exact Z2|]. specialize (W2 H2). rewrite <- L2 in Z3.
  destruct Q1 as [_ [_ T1]]. destruct Q2 as [S2 [M2 _]]. rewrite Qs1 in E2. rewrite <- Qs2 in E2.
  assert (Fin : exists s' o' c', sys_run w rf cs ms (concat rs) (qs c2) = Some (s', o') /\ qs c' = s' /\ JB ((((l ++ flat_map g_acts r1) ++ flat_map g_acts r2)) ++ flat_map g_acts (concat rs)) c' /\ (psi c' <= 0)%Z).
  { destruct (window _ c c1 c2 _ _ B1 W1 W2 T1 S2 M2) as [D|D].
    - apply (IH rs _ c2 B2 G3 TT UH Z3 RR2 H3); lia.
    - destruct (run_moves (concat rs) _ c2 B2 G3 TT UH Z3) as [s3 [o3 [c3 [E3 [Qo3 [Qs3 [B3 [L3 W3]]]]]]]]. specialize (W3 H3). exists s3, o3, c3. split; auto. split; auto. split; auto. destruct W3 as [W3 _]. lia. }
  destruct Fin as [s3 [o3 [c3 [E3 [Q3 [B3 F3]]]]]]. exists s3, (o1 ++ o2 ++ o3), c3. split; [|split; [auto|split; [|auto]]].
  - rewrite sys_run_app, E1, sys_run_app, E2, E3. reflexivity.
  - rewrite !flat_map_app, !app_assoc. exact B3.
Qed.
Lemma comes_to_rest : forall gs1 rs (s1 : sys P) o1, sys_run w rf cs ms gs1 (sys0 w cs ms) = Some (s1, o1) -> Forall (good_ginst w cs ms) (gs1 ++ concat rs) -> take_turns N (flat_map g_acts (gs1 ++ concat rs)) -> unhurried N (flat_map g_acts (gs1 ++ concat rs)) ->
  zc o0 (cycles (gs1 ++ concat rs)) -> Forall (round N) rs -> Forall (helping w) (concat rs) ->
  2 * (Z.to_nat (NetProgress.start P w dist) + 1 + Z.to_nat ((per_flit w dist + 9) * slots)) * (1 + accepted N o1) <= length rs ->
  exists (s : sys P) o, sys_run w rf cs ms (gs1 ++ concat rs) (sys0 w cs ms) = Some (s, o) /\ at_rest w ms (flat_map g_acts (gs1 ++ concat rs)) s.
Proof.
  intros gs1 rs s1 o1 E1 G TT UH Zc RR HG L. apply Forall_app in G. destruct G as [G1 G2]. rewrite flat_map_app in TT, UH. unfold cycles in Zc. rewrite flat_map_app in Zc. fold (cycles gs1) (cycles (concat rs)) in Zc. apply zc_app in Zc. destruct Zc as [Z1 Z2].
  destruct (run_moves gs1 [] _ JB_start G1) as [s [o [c [E [Qo [Qs [B [Ll _]]]]]]]]; [eapply turns_pre; exact TT|eapply unhurried_pre; exact UH|exact Z1|]. cbn [qs qo qe app] in *. rewrite E1 in E. injection E as <- <-. change (NetProgress.lastt o0 (tkx [])) with o0 in Ll. rewrite <- Ll in Z2.
  destruct (boundary _ _ B) as [P0 [O0 [Bd _]]]. pose proof (Fl_bound _ _ B) as Fb. rewrite Qo in Fb, Bd. set (A := accepted N o1) in *. pose proof pf_pos as Pf. pose proof s_slots as Sp. set (pf := per_flit w dist) in *. set (st := NetProgress.start P w dist) in *. clearbody pf st.
  assert (Y : (psi c + om c < Z.of_nat ((Z.to_nat st + 1 + Z.to_nat ((pf + 9) * slots)) * (1 + A)))%Z).
  { assert ((pf + 9) * Fl o1 <= (pf + 9) * (slots * Z.of_nat A))%Z by (apply Z.mul_le_mono_nonneg_l; lia). assert (0 <= (pf + 9) * slots)%Z by nia. rewrite Nat2Z.inj_mul, !Nat2Z.inj_add, (Z2Nat.id ((pf + 9) * slots)) by auto.
    assert (st <= Z.of_nat (Z.to_nat st))%Z by lia. assert (0 <= Z.of_nat (Z.to_nat st))%Z by lia. rewrite Z.mul_assoc in H. set (q := ((pf + 9) * slots)%Z) in *. clearbody q. nia. }
  destruct (rounds_go _ rs _ c B G2 TT UH Z2 RR HG Y) as [s2 [o2 [c2 [E2 [Q2 [B2 F2]]]]]]; [lia|]. exists s2, (o1 ++ o2). split; [rewrite sys_run_app, E1, <- Qs, E2; reflexivity|]. rewrite flat_map_app, <- Q2. apply (boundary _ _ B2). exact F2.
Qed.
End Sys.

Theorem empties : forall P mesh nl k nn b rd cd ob bz vz ch cs ms, (1 <= k)%Z -> bz <> 0%Z -> 0 < bc_vcs b -> new_private (bc_vcs b) bz vz (bc_wait b) = Some (b, P) ->
  let w := cube mesh nl k nn b rd cd ob in let rf := routes_of (dim_order_mesh k nn (k ^ Z.of_nat nn)) (sys_traffic ch) in let N := w_nodes w in let slots := vc_size w bz vz in
  fitting N (bc_vcs b) slots ch cs ms -> roomy N slots cs ms -> ob <> 0%Z ->
  exists B, forall gs1 rs (s1 : sys P) o1, sys_run w rf cs ms gs1 (sys0 w cs ms) = Some (s1, o1) -> Forall (good_ginst w cs ms) (gs1 ++ concat rs) -> take_turns N (flat_map g_acts (gs1 ++ concat rs)) ->
    unhurried N (flat_map g_acts (gs1 ++ concat rs)) -> growing (cycles (gs1 ++ concat rs)) -> Forall (round N) rs -> Forall (helping w) (concat rs) -> B * (1 + accepted N o1) <= length rs ->
    exists (s : sys P) o, sys_run w rf cs ms (gs1 ++ concat rs) (sys0 w cs ms) = Some (s, o) /\ at_rest w ms (flat_map g_acts (gs1 ++ concat rs)) s.
Proof.
  intros P mesh nl k nn b rd cd ob bz vz ch cs ms K Hb Hv EP w rf N slots FT RM OB. destruct (private_inv P w bz vz Hb Hv EP) as [I [HP [HS HC]]].
  exists (2 * (Z.to_nat (NetProgress.start P w (cube_rank k nn)) + 1 + Z.to_nat ((per_flit w (cube_rank k nn) + 9) * slots))). intros gs1 rs s1 o1 E1 G TT UH Gr RR HG L. destruct (zc_growing _ Gr) as [o0 Zc].
  eapply (comes_to_rest P mesh nl k nn b rd cd ob bz vz ch cs ms); eauto.
Qed.
