From Coq Require Import ZArith Arith Bool List Lia.
From Verif Require Import Bits Fupd AllocModel AllocSpec BufferModel RouteModel ChannelModel CreditModel IqRouterModel IqRouterSpec IqRouterProofs NetModel NetSpec NetMeshModel NetMeshSpec StreamSpec StreamProofs TermModel TermSpec TermProofs TermFlow
  AxisFormatModel AxisSlaveModel AxisSlaveSpec AxisSlaveProofs AxisMasterModel AxisMasterSpec AxisMasterProofs EndToEndSpec EndToEndProofs FlitCode SysModel SysSpec SysLemmas SysBridge.
Import ListNotations.
Open Scope nat_scope.

(** ** Projections *)
Lemma of_slave_app : forall n a b, of_slave n (a ++ b) = of_slave n a ++ of_slave n b. Proof. intros. apply flat_map_app. Qed.
Lemma of_master_app : forall n a b, of_master n (a ++ b) = of_master n a ++ of_master n b. Proof. intros. apply flat_map_app. Qed.
Lemma of_net_app : forall a b, of_net (a ++ b) = of_net a ++ of_net b. Proof. intros. apply flat_map_app. Qed.
Lemma of_slave_T : forall n l, of_slave n (map YT l) = []. Proof. intros n l. induction l; auto. Qed.
Lemma of_slave_M : forall n m l, of_slave n (map (YM m) l) = []. Proof. intros n m l. induction l; auto. Qed.
Lemma of_slave_S : forall n m l, of_slave n (map (YS m) l) = if Nat.eqb m n then l else [].
Proof. intros n m l. induction l as [|a l IH]; cbn [map of_slave flat_map]; [destruct (Nat.eqb m n); auto|]. unfold of_slave in IH. rewrite IH. destruct (Nat.eqb m n); reflexivity. Qed.
Lemma of_master_T : forall n l, of_master n (map YT l) = []. Proof. intros n l. induction l; auto. Qed.
Lemma of_master_S : forall n m l, of_master n (map (YS m) l) = []. Proof. intros n m l. induction l; auto. Qed.
Lemma of_master_M : forall n m l, of_master n (map (YM m) l) = if Nat.eqb m n then l else [].
Proof. intros n m l. induction l as [|a l IH]; cbn [map of_master flat_map]; [destruct (Nat.eqb m n); auto|]. unfold of_master in IH. rewrite IH. destruct (Nat.eqb m n); reflexivity. Qed.
Lemma of_net_T : forall l, of_net (map YT l) = l. Proof. intros l. induction l as [|a l IH]; cbn [map of_net flat_map]; auto. unfold of_net in IH. rewrite IH. reflexivity. Qed.
Lemma of_net_S : forall n l, of_net (map (YS n) l) = []. Proof. intros n l. induction l; auto. Qed.
Lemma of_net_M : forall n l, of_net (map (YM n) l) = []. Proof. intros n l. induction l; auto. Qed.

Definition sproj (n : nat) (l : list act) : list thread := flat_map (fun a => match a with AS m t => if Nat.eqb m n then [t] else [] | _ => [] end) l.
Definition mproj (n : nat) (l : list act) : list mthread := flat_map (fun a => match a with AM m t => if Nat.eqb m n then [t] else [] | _ => [] end) l.
Lemma sproj_app : forall n a b, sproj n (a ++ b) = sproj n a ++ sproj n b. Proof. intros. apply flat_map_app. Qed.
Lemma mproj_app : forall n a b, mproj n (a ++ b) = mproj n a ++ mproj n b. Proof. intros. apply flat_map_app. Qed.
Lemma sproj_in : forall n t l, In t (sproj n l) <-> In (AS n t) l.
Proof.
  intros n t l. unfold sproj. rewrite in_flat_map. split.
  - intros [a [Ha H]]. destruct a as [m u|m u|]; try destruct H. destruct (Nat.eqb_spec m n) as [->|]; [|destruct H]. destruct H as [->|[]]. exact Ha.
  - intros H. exists (AS n t). split; auto. rewrite Nat.eqb_refl. left. auto.
Qed.
Lemma mproj_in : forall n t l, In t (mproj n l) <-> In (AM n t) l.
Proof.
  intros n t l. unfold mproj. rewrite in_flat_map. split.
  - intros [a [Ha H]]. destruct a as [m u|m u|]; try destruct H. destruct (Nat.eqb_spec m n) as [->|]; [|destruct H]. destruct H as [->|[]]. exact Ha.
  - intros H. exists (AM n t). split; auto. rewrite Nat.eqb_refl. left. auto.
Qed.
Lemma mproj_once : forall n l, NoDup l -> NoDup (mproj n l).
Proof.
  intros n l H. induction H as [|a l Na Nd IH]; [constructor|]. cbn [mproj flat_map]. fold (mproj n l). destruct a as [m u|m u|]; auto. destruct (Nat.eqb_spec m n) as [->|]; auto.
  cbn [app]. constructor; auto. rewrite mproj_in. exact Na.
Qed.
Lemma inj_acts_app : forall n a b, inj_acts n (a ++ b) = inj_acts n a ++ inj_acts n b. Proof. intros. apply flat_map_app. Qed.
Lemma ej_acts_app : forall n a b, ej_acts n (a ++ b) = ej_acts n a ++ ej_acts n b. Proof. intros. apply flat_map_app. Qed.
Lemma turns_pre : forall N a b, take_turns N (a ++ b) -> take_turns N a.
Proof. intros N a b H n Hn. destruct (H n Hn) as [A B]. rewrite inj_acts_app in A. rewrite ej_acts_app in B. split; eapply alternate_pre; eauto. Qed.
Lemma accepts_app' : forall a b, accepts (a ++ b) = accepts a ++ accepts b. Proof. intros. apply flat_map_app. Qed.
Lemma injects_app' : forall a b, injects (a ++ b) = injects a ++ injects b. Proof. intros. apply flat_map_app. Qed.

(** ** One adapter *)
Section One.
Variables (cs : Z -> scfg) (ms : nat -> mcfg) (g : ginst) (n : nat).
Let c := cs (Z.of_nat n).
Definition sl_inv (h : list instant) (rdy : option nat) (l : list thread) (cn : bool) (st : sst) (os : list obs) : Prop :=
  exists s1 o1 o2, s_run c h (s_init c) = (s1, o1) /\ rdy = granted cs g n s1 /\ run_threads c (seen g n [] cn) rdy l (settled cs g n s1) = (st, o2) /\ os = o1 ++ o2.
Lemma sl_run : forall h rdy l cn st os, sl_inv h rdy l cn st os -> s_run c (h ++ [seen g n l cn]) (s_init c) = (st, os).
Proof.
  intros h rdy l cn st os [s1 [o1 [o2 [R [Er [E ->]]]]]]. rewrite s_run_snoc, R. unfold s_step. cbn [seen inp ths]. unfold granted, settled in *. fold (valid g n) in *. fold c in Er, E.
  change (fun i => match g_inp g n i with Some _ => true | None => false end) with (valid g n). destruct (input_ready c (valid g n) s1) as [r q]. cbn [fst snd] in *. subst rdy.
  rewrite (run_threads_ext c _ (seen g n [] cn)) by auto. rewrite E. reflexivity.
Qed.
Lemma sl_step : forall h rdy l cn st os t st' o', t <> TInj -> sl_inv h rdy l cn st os -> run_thread c (seen g n [] false) rdy t st = (st', o') -> sl_inv h rdy (l ++ [t]) cn st' (os ++ o').
Proof.
  intros h rdy l cn st os t st' o' Ht [s1 [o1 [o2 [R [Er [E ->]]]]]] H. exists s1, o1, (o2 ++ o'). split; auto. split; auto. split; [|apply app_assoc_reverse].
  rewrite run_threads_snoc, E, (run_thread_ext c _ (seen g n [] false)) by (auto; congruence). rewrite H. reflexivity.
Qed.
Lemma sl_inj : forall h rdy l cn st os bb st' o', ~ In TInj l -> sl_inv h rdy l cn st os -> run_inj c (seen g n [] bb) st = (st', o') -> sl_inv h rdy (l ++ [TInj]) bb st' (os ++ o').
Proof.
  intros h rdy l cn st os bb st' o' Hl [s1 [o1 [o2 [R [Er [E ->]]]]]] H. exists s1, o1, (o2 ++ o'). split; auto. split; auto. split; [|apply app_assoc_reverse].
  rewrite run_threads_snoc, (run_threads_ext c _ (seen g n [] cn)) by (auto; contradiction). rewrite E. cbn [run_thread]. rewrite H. reflexivity.
Qed.
Lemma sl_start : forall h s1 o1, s_run c h (s_init c) = (s1, o1) -> sl_inv h (granted cs g n s1) [] false (settled cs g n s1) o1.
Proof. intros h s1 o1 R. exists s1, o1, []. rewrite app_nil_r. auto. Qed.

Let m := ms n.
Definition mseen (l : list mthread) (av : bool) : minstant := {| mths := l; mavail := av; mrdy := g_rdy g n |}.
Definition ma_inv (h : list minstant) (l : list mthread) (av : bool) (st : mst) (om : list mobs) (input : list bflit) : Prop :=
  exists o0 o1, om = o0 ++ o1 /\ forall x, exists s1, m_run m h (m_init m (input ++ x)) = Some (s1, o0) /\ m_threads m (mseen [] av) l s1 = Some (load x st, o1).
Lemma ma_run : forall h l av st om input x, ma_inv h l av st om input -> m_run m (h ++ [mseen l av]) (m_init m (input ++ x)) = Some (load x (commit st), om).
Proof.
  intros h l av st om input x [o0 [o1 [-> H]]]. destruct (H x) as [s1 [R E]]. rewrite m_run_snoc, R. unfold m_step. cbn [mseen mths]. rewrite (m_threads_ext m _ (mseen [] av)) by auto. rewrite E. reflexivity.
Qed.
Lemma ma_step : forall h l av st om input t st' o', t <> TEject -> ma_inv h l av st om input -> m_thread m {| mths := []; mavail := false; mrdy := g_rdy g n |} t st = Some (st', o') -> ma_inv h (l ++ [t]) av st' (om ++ o') input.
Proof.
  intros h l av st om input t st' o' Ht [o0 [o1 [-> H]]] E. exists o0, (o1 ++ o'). split; [apply app_assoc_reverse|]. intros x. destruct (H x) as [s1 [R E1]]. exists s1. split; auto.
  rewrite m_threads_snoc, E1, (load_thread m _ {| mths := []; mavail := false; mrdy := g_rdy g n |}) by auto. rewrite E. reflexivity.
Qed.
Lemma ma_none : forall h l av st om input, ~ In TEject l -> pendfl st = None -> ma_inv h l av st om input -> ma_inv h (l ++ [TEject]) false (load [] st) om input.
Proof.
  intros h l av st om input Hl Hp [o0 [o1 [-> H]]]. exists o0, o1. split; auto. intros x. destruct (H x) as [s1 [R E1]]. exists s1. split; auto.
  rewrite m_threads_snoc, (m_threads_ext m _ (mseen [] av)) by (auto; contradiction). rewrite E1. cbn [m_thread mseen mavail]. rewrite eject_none by auto. rewrite app_nil_r, load_load. reflexivity.
Qed.
Lemma ma_one : forall h l av st om input f, ~ In TEject l -> pendfl st = None -> (0 <= b_vc f)%Z -> vcn f < m_nvc m -> length (ejf st (vcn f)) < m_ejdepth m ->
  ma_inv h l av st om input -> ma_inv h (l ++ [TEject]) true (ejected_one m f st) (om ++ [Arrive f]) (input ++ [f]).
Proof.
  intros h l av st om input f Hl Hp H1 H2 H3 [o0 [o1 [-> H]]]. exists o0, (o1 ++ [Arrive f]). split; [apply app_assoc_reverse|]. intros x. destruct (H (f :: x)) as [s1 [R E1]]. exists s1. split; [rewrite <- app_assoc; exact R|].
  rewrite m_threads_snoc, (m_threads_ext m _ (mseen [] av)) by (auto; contradiction). rewrite E1. cbn [m_thread mseen mavail]. rewrite eject_one by auto. reflexivity.
Qed.
(** A thread does not fail if the adapter never fails. *)
Lemma ma_safe : forall h l av st om input t, t <> TEject -> inq st = [] -> ma_inv h l av st om input -> (exists s o, m_run m (h ++ [mseen (l ++ [t]) av]) (m_init m input) = Some (s, o)) ->
  exists st' o', m_thread m {| mths := []; mavail := false; mrdy := g_rdy g n |} t st = Some (st', o').
Proof.
  intros h l av st om input t Ht Hq [o0 [o1 [-> H]]] [s [o E]]. destruct (H []) as [s1 [R E1]]. rewrite app_nil_r in R. rewrite m_run_snoc, R in E. unfold m_step in E. cbn [mseen mths] in E.
  rewrite m_threads_snoc, (m_threads_ext m _ (mseen [] av)) in E by auto. rewrite E1, (load_thread m _ {| mths := []; mavail := false; mrdy := g_rdy g n |}) in E by auto.
  destruct (m_thread m {| mths := []; mavail := false; mrdy := g_rdy g n |} t st) as [[st' o']|]; [eauto|discriminate].
Qed.
Lemma ma_start : forall h st om input, (forall x, m_run m h (m_init m (input ++ x)) = Some (load x st, om)) -> ma_inv h [] false st om input.
Proof. intros h st om input H. exists om, []. rewrite app_nil_r. split; auto. intros x. exists (load x st). auto. Qed.
End One.

(** ** The system *)
Lemma alternate_both : forall N es l, (forall n, n < N -> inj_turns n es = inj_acts n l) -> (forall n, n < N -> read_turns n es = ej_acts n l) -> take_turns N l -> forall w, w_nodes w = N -> in_turn w es.
Proof. intros N es l A B H w E n Hn. rewrite E in Hn. destruct (H n Hn) as [C D]. rewrite (A n Hn), (B n Hn). auto. Qed.

Definition ds (f : bflit) : nat := Z.to_nat (bs_node (b_dst f)).
Definition sr (f : bflit) : nat := Z.to_nat (b_src f).

Section Sys.
Variables (P : bpolicy) (mesh nl : bool) (k : Z) (nn : nat) (b : bcfg) (rd : bool) (cd ob : Z) (bz vz : Z) (ch : Z -> nat) (cs : Z -> scfg) (ms : nat -> mcfg).
Let w := cube mesh nl k nn b rd cd ob.
Let T := sys_traffic ch.
Let rf := routes_of (dim_order_mesh k nn (k ^ Z.of_nat nn)) T.
Let N := w_nodes w.
Let lo := fun f : bflit => ch (b_type f).
Hypothesis K : (1 <= k)%Z.
Hypothesis Hb : bz <> 0%Z.
Hypothesis Hv : 0 < bc_vcs b.
Hypothesis EP : new_private (bc_vcs b) bz vz (bc_wait b) = Some (b, P).
Hypothesis FT : fitting N (bc_vcs b) (vc_size w bz vz) ch cs ms.

Definition offers (n : nat) (ev : instant) : Prop := forall i t, n < N -> i < s_nif (cs (Z.of_nat n)) -> inp ev i = Some t -> good_txn N cs ms n i t.
Record PI (g : ginst) (rdy : nat -> option nat) (sh : nat -> list instant) (mh : nat -> list minstant) (prev don : list act) (cn av : nat -> bool) (es : list tev) (o : list sobs) (s : sys P) : Prop := {
  p_run : term_run w rf es (term0 P w) = Some (y_t s, of_net o);
  p_dec : tdecent_run P w rf (starts T w) es;
  p_inj : forall n, inj_turns n es = inj_acts n (prev ++ don);
  p_read : forall n, read_turns n es = ej_acts n (prev ++ don);
  p_sl : forall n, sl_inv cs g n (sh n) (rdy n) (sproj n don) (cn n) (y_sl s n) (of_slave n o);
  p_off : forall n ev, In ev (sh n) -> offers n ev;
  p_offg : forall n, offers n (seen g n [] false);
  p_put : forall n, map strip (took n (of_net o)) = map net_flit (injects (of_slave n o));
  p_out : forall n, N <= n -> of_slave n o = [] /\ infifo (y_sl s n) = [] /\ injfifo (y_sl s n) = [] /\ tobe (y_sl s n) = None;
  p_ma : forall n, ma_inv ms g n (mh n) (mproj n don) (av n) (y_ma s n) (of_master n o) (map bs_flit (got n (of_net o)));
  p_mh : forall n, Forall ok_minstant (mh n);
  p_q : forall n, inq (y_ma s n) = [] /\ pendfl (y_ma s n) = None;
  p_cnt : forall n v, length (ejf (y_ma s n) v) + frees v (of_master n o) = length (IqRouterSpec.on_vc v (got n (of_net o)));
  p_free : forall n v, count_occ Nat.eq_dec (freed n es) v = frees v (of_master n o) }.

Lemma whole_packet : forall n e, e_iface e < s_nif (cs n) -> whole b_head b_tail b_pid vcn lo sr ds (packet_of (cs n) e).
Proof.
  intros n e He. destruct (ft_s _ _ _ _ _ _ FT n) as [G _]. destruct (packet_shape (cs n) G e He) as [m [L S]]. split; [|split].
  - intros E. rewrite E in L. discriminate.
  - intros j f Hf. destruct (S j f Hf) as [A [B _]]. split; auto. rewrite B, L. lia.
  - exists (e_id e), (Z.to_nat (trunc (s_vcidw (cs n)) (s_vc_of (cs n) (s_type (cs n) (e_iface e))))), (ch (s_type (cs n) (e_iface e))), (Z.to_nat (s_node (cs n))),
      (Z.to_nat (bs_node (to_booksim_dest (s_w (cs n)) (s_rad (cs n)) (s_portal (cs n)) (t_dest (e_txn e))))).
    intros f Hf. pose proof (packet_vc _ _ _ Hf) as Ev. apply In_nth_error in Hf. destruct Hf as [j Hf]. destruct (S j f Hf) as [_ [_ [A [B [C [_ D]]]]]]. unfold vcn, lo, sr, ds. rewrite Ev, A, B, C, D. auto.
Qed.

(** The events of the network that a thread makes. *)
Definition fevs (n : nat) (o : list sobs) : list tev := flat_map (fun x => match x with YM _ (Free v) => [VFree n v] | _ => [] end) o.
Definition evs (g : ginst) (a : act) (s : sys P) (o : list sobs) : list tev :=
  match a with
  | AS n TInj => [VInj n (g_now g n) (option_map (fun f => net_flit (to_bflit (cs (Z.of_nat n)) f)) (waiting (y_sl s n)))]
  | AS _ _ => []
  | AM n TEject => [VRead n]
  | AM n _ => fevs n o
  | ATick => [VTick (g_clk g)]
  end.
Section Inv.
Context {g : ginst} {rdy : nat -> option nat} {sh : nat -> list instant} {mh : nat -> list minstant} {prev don : list act} {cn av : nat -> bool} {es : list tev} {o : list sobs} {s : sys P}.
Hypothesis I : PI g rdy sh mh prev don cn av es o s.

Lemma p_srun : forall n, s_run (cs (Z.of_nat n)) (sh n ++ [seen g n (sproj n don) (cn n)]) (s_init (cs (Z.of_nat n))) = (y_sl s n, of_slave n o).
Proof. intros n. eapply sl_run. apply (p_sl _ _ _ _ _ _ _ _ _ _ _ I n). Qed.
Lemma acc_ok : forall n e, In e (accepts (of_slave n o)) -> e_iface e < s_nif (cs (Z.of_nat n)) /\ (n < N -> good_txn N cs ms n (e_iface e) (e_txn e)).
Proof.
  intros n e He. destruct (run_accept_init _ _ _ _ _ (p_srun n) He) as [ev [Hev [Hi Hx]]]. split; auto. intros Hn. apply in_app_iff in Hev. destruct Hev as [Hev|[<-|[]]].
  - apply (p_off _ _ _ _ _ _ _ _ _ _ _ I n ev Hev); auto.
  - apply (p_offg _ _ _ _ _ _ _ _ _ _ _ I n); auto.
Qed.
Lemma once : forall n, injects (of_slave n o) ++ map (to_bflit (cs (Z.of_nat n))) (pend (cs (Z.of_nat n)) (y_sl s n)) = flat_map (packet_of (cs (Z.of_nat n))) (accepts (of_slave n o)).
Proof. intros n. eapply exactly_once; [apply (ft_s _ _ _ _ _ _ FT)|apply p_srun]. Qed.
Lemma flit_facts : forall n f, n < N -> In f (flat_map (packet_of (cs (Z.of_nat n))) (accepts (of_slave n o))) ->
  b_src f = Z.of_nat n /\ b_vc f = Z.of_nat (ch (b_type f)) /\ ch (b_type f) < bc_vcs b /\ (0 <= bs_node (b_dst f) < Z.of_nat N)%Z.
Proof.
  intros n f Hn Hf. apply in_flat_map in Hf. destruct Hf as [e [He Hf]]. destruct (acc_ok n e He) as [Hi Hg]. specialize (Hg Hn). destruct (ft_s _ _ _ _ _ _ FT (Z.of_nat n)) as [G Es].
  destruct (packet_shape _ G e Hi) as [m [L S]]. pose proof (packet_vc _ _ _ Hf) as Ev. apply In_nth_error in Hf. destruct Hf as [j Hf]. destruct (S j f Hf) as [_ [_ [_ [B [C [_ D]]]]]].
  destruct (ft_vc _ _ _ _ _ _ FT (Z.of_nat n) (e_iface e) ltac:(lia) Hi) as [V1 V2]. split; [congruence|]. rewrite Ev, B, D, V1. split; auto. split; auto. apply Hg.
Qed.
Lemma packs : forall n, packets b_head b_tail b_pid vcn lo sr ds (flat_map (packet_of (cs (Z.of_nat n))) (accepts (of_slave n o))).
Proof.
  intros n. exists (map (packet_of (cs (Z.of_nat n))) (accepts (of_slave n o))). split; [|rewrite <- flat_map_concat_map; apply prefix_refl].
  apply Forall_forall. intros p Hp. apply in_map_iff in Hp. destruct Hp as [e [<- He]]. apply whole_packet. apply (acc_ok n e He).
Qed.
Lemma inj_packs : forall n, packets b_head b_tail b_pid vcn lo sr ds (injects (of_slave n o)).
Proof. intros n. eapply packets_pre. rewrite (once n). apply packs. Qed.
Lemma inj_in : forall n f, In f (injects (of_slave n o)) -> In f (flat_map (packet_of (cs (Z.of_nat n))) (accepts (of_slave n o))).
Proof. intros n f Hf. rewrite <- (once n), in_app_iff. auto. Qed.
Lemma wait_packs : forall n f, waiting (y_sl s n) = Some f -> packets b_head b_tail b_pid vcn lo sr ds (injects (of_slave n o) ++ [to_bflit (cs (Z.of_nat n)) f]) /\
  In (to_bflit (cs (Z.of_nat n)) f) (flat_map (packet_of (cs (Z.of_nat n))) (accepts (of_slave n o))).
Proof.
  intros n f Hw. destruct (waiting_pend (cs (Z.of_nat n)) _ _ Hw) as [r E]. pose proof (once n) as O. rewrite E in O. cbn [map] in O. split.
  - eapply packets_pre. rewrite <- app_assoc. cbn [app]. rewrite O. apply packs.
  - rewrite <- O, in_app_iff. right. left. reflexivity.
Qed.

Lemma own : forall m f, m < N -> In f (injects (of_slave m o)) -> sr f = m /\ vcn f = lo f.
Proof. intros m f Hm Hf. destruct (flit_facts m f Hm (inj_in m f Hf)) as [A [B _]]. unfold sr, vcn, lo. rewrite A, B. split; lia. Qed.

(** What C83 says about the flits that arrived, after events [es1]. *)
Section Net.
Variables (es1 : list tev) (t1 : term P) (o1 : list tobs).
Hypothesis R1 : term_run w rf es1 (term0 P w) = Some (t1, o1).
Hypothesis D1 : tdecent_run P w rf (starts T w) es1.
Hypothesis U1 : in_turn w es1.
Hypothesis B1 : forall n, map strip (took n o1) = map net_flit (injects (of_slave n o)).
Lemma agreed : forall m v, agree T (IqRouterSpec.on_vc v (took m o1)).
Proof.
  intros m v. apply agree_strip. rewrite <- on_vc_strip, (B1 m). apply (packets_ok bcode bdecode b_head b_tail b_pid vcn lo sr ds bdecode_code _ v (inj_packs m)).
Qed.
Lemma carried_at : (forall d v, d < N -> v < bc_vcs b -> (Z.of_nat (length (IqRouterSpec.on_vc v (got d o1 ++ unread d es1 t1))) <= Z.of_nat (count_occ Nat.eq_dec (freed d es1) v) + vc_size w bz vz)%Z) /\
  (forall d, d < N ->
    (forall f, In f (got d o1) -> y_dest T (f_id f) = d /\ y_src T (f_id f) < N /\ IqRouterModel.f_vc f = y_b T (f_id f) /\ IqRouterModel.f_vc f < bc_vcs b) /\
    (forall v, well_formed (IqRouterSpec.on_vc v (got d o1)) /\ agree T (IqRouterSpec.on_vc v (got d o1))) /\
    (forall m v, m < N -> v < bc_vcs b -> prefix (map tag (between T m d v (got d o1))) (map tag (between T m d v (took m o1))) /\
      (TermSpec.drained w es1 t1 -> map tag (between T m d v (got d o1)) = map tag (between T m d v (took m o1))))).
Proof.
  destruct (mesh_carries P mesh nl k nn b rd cd ob T bz vz K Hb Hv EP es1 D1 U1 (fun _ => eq_refl)) as [s' [o' [E [R X]]]].
  pose proof R1 as E'. unfold w, rf in E'. rewrite E in E'. injection E' as -> ->. split; [exact R|]. apply X. apply agreed.
Qed.
Lemma came_at : forall d f, d < N -> In f (got d o1) -> In (bs_flit f) (injects (of_slave (sr (bs_flit f)) o)) /\ sr (bs_flit f) < N /\ ds (bs_flit f) = d /\ vcn (bs_flit f) = IqRouterModel.f_vc f /\ (0 <= b_vc (bs_flit f))%Z /\ vcn (bs_flit f) < bc_vcs b.
Proof.
  intros d f Hd Hf. destruct carried_at as [_ C]. destruct (C d Hd) as [M1 [M2 M3]].
  pose proof (arrived_sent bcode bdecode b_head b_tail b_pid vcn lo sr ds bdecode_code N (bc_vcs b) (fun m => took m o1) (got d o1) (fun m => injects (of_slave m o)) d
    (fun m _ => B1 m) own M1 (fun m v Hm Hv' => proj1 (M3 m v Hm Hv')) f Hf) as [A [B [C1 [D [E F]]]]].
  change (dec bdecode f) with (bs_flit f) in *. split; auto. split; auto. split; auto. split; [apply (f_equal IqRouterModel.f_vc) in A; symmetry; exact A|].
  destruct (flit_facts _ _ C1 (inj_in _ _ B)) as [_ [G _]]. split; [lia|exact F].
Qed.
End Net.

Section Turns.
Hypothesis TT : take_turns N (prev ++ don).
Lemma turned : in_turn w es.
Proof. apply (alternate_both N es (prev ++ don)); auto; intros; [apply (p_inj _ _ _ _ _ _ _ _ _ _ _ I)|apply (p_read _ _ _ _ _ _ _ _ _ _ _ I)]. Qed.
Let carried := carried_at es (y_t s) (of_net o) (p_run _ _ _ _ _ _ _ _ _ _ _ I) (p_dec _ _ _ _ _ _ _ _ _ _ _ I) turned (p_put _ _ _ _ _ _ _ _ _ _ _ I).
Let came := came_at es (y_t s) (of_net o) (p_run _ _ _ _ _ _ _ _ _ _ _ I) (p_dec _ _ _ _ _ _ _ _ _ _ _ I) turned (p_put _ _ _ _ _ _ _ _ _ _ _ I).

(** ** The network keeps to the conditions of C55 *)
Definition sevs (q : Z) : list instant := if (0 <=? q)%Z then sh (Z.to_nat q) ++ [seen g (Z.to_nat q) (sproj (Z.to_nat q) don) (cn (Z.to_nat q))] else [].
Lemma trace_sevs : forall q, trace (cs q) (sevs q) = (if (0 <=? q)%Z then of_slave (Z.to_nat q) o else []).
Proof.
  intros q. unfold trace, sevs. destruct (Z.leb_spec 0 q) as [H|H]; [|reflexivity]. pose proof (p_srun (Z.to_nat q)) as R. rewrite Z2Nat.id in R by auto. rewrite R. reflexivity.
Qed.
Lemma sent_sevs : forall q, accepts (trace (cs q) (sevs q)) = sent_by q o.
Proof. intros q. rewrite trace_sevs. unfold sent_by. destruct (0 <=? q)%Z; reflexivity. Qed.
Lemma noc_fits : forall d q e, d < N -> In e (accepts (trace (cs q) (sevs q))) -> toward d (target (cs q) e) = true -> fits (ms d) (cs q) e.
Proof.
  intros d q e Hd He Ht. rewrite trace_sevs in He. destruct (Z.leb_spec 0 q) as [H|H]; [|destruct He].
  destruct (Nat.lt_ge_cases (Z.to_nat q) N) as [Hq|Hq]; [|destruct (p_out _ _ _ _ _ _ _ _ _ _ _ I _ Hq) as [E _]; rewrite E in He; destruct He].
  destruct (acc_ok _ _ He) as [_ G]. specialize (G Hq). unfold good_txn in G. rewrite Z2Nat.id in G by auto. destruct G as [_ G]. unfold toward in Ht. apply Z.eqb_eq in Ht.
  change (bs_node (target (cs q) {| e_txn := e_txn e; e_id := 0; e_iface := e_iface e |})) with (bs_node (target (cs q) e)) in G. rewrite Ht, Nat2Z.id in G. exact G.
Qed.
Lemma filter_filter' : forall A (p q : A -> bool) l, filter p (filter q l) = filter (fun x => p x && q x) l.
Proof. intros A p q l. induction l as [|a l IH]; [reflexivity|]. cbn [filter]. destruct (q a); cbn [filter]; rewrite ?IH; destruct (p a); reflexivity. Qed.
Lemma filter_none : forall A (p : A -> bool) l, (forall x, In x l -> p x = false) -> filter p l = [].
Proof. intros A p l. induction l as [|a l IH]; intros H; [reflexivity|]. cbn [filter]. rewrite (H a) by (left; auto). apply IH. intros; apply H; right; auto. Qed.
Lemma arrived_src : forall d f, d < N -> In f (map bs_flit (got d (of_net o))) -> b_src f = Z.of_nat (sr f) /\ sr f < N /\ In f (injects (of_slave (sr f) o)) /\ (0 <= b_vc f)%Z /\ vcn f < bc_vcs b.
Proof.
  intros d f Hd Hf. apply in_map_iff in Hf. destruct Hf as [x [<- Hx]]. destruct (came d x Hd Hx) as [A [B [_ [_ [C D]]]]]. destruct (flit_facts _ _ B (inj_in _ _ A)) as [E _]. rewrite E at 1. auto.
Qed.
Lemma recv_left : forall d q v, d < N -> (0 <= q < Z.of_nat N)%Z -> filter (from b_src q) (filter (on_vc v) (map bs_flit (got d (of_net o)))) =
  filter (fun f => Nat.eqb (sr f) (Z.to_nat q) && Nat.eqb (vcn f) v) (map bs_flit (got d (of_net o))).
Proof.
  intros d q v Hd Hq. rewrite filter_filter'. apply filter_same. intros f Hf. destruct (arrived_src d f Hd Hf) as [A _]. unfold from, on_vc. f_equal. rewrite A. apply eq_true_iff_eq. rewrite Z.eqb_eq, Nat.eqb_eq. lia.
Qed.
Lemma recv_right : forall d q v, d < N -> (0 <= q < Z.of_nat N)%Z -> map (set_vc v) (filter (bound (toward d) (by_type ch) q v) (injects (of_slave (Z.to_nat q) o))) =
  filter (fun f => Nat.eqb (ds f) d && Nat.eqb (vcn f) v) (injects (of_slave (Z.to_nat q) o)).
Proof.
  intros d q v Hd Hq. rewrite (filter_same _ (bound (toward d) (by_type ch) q v) (fun f => Nat.eqb (ds f) d && Nat.eqb (vcn f) v)).
  - rewrite <- (map_id (filter _ _)) at 2. apply map_ext_in. intros f Hf. apply filter_In in Hf. destruct Hf as [Hf Hd']. apply andb_true_iff in Hd'. destruct Hd' as [_ E]. apply Nat.eqb_eq in E.
    destruct (flit_facts (Z.to_nat q) f ltac:(lia) (inj_in _ _ Hf)) as [_ [B _]]. unfold vcn in E. destruct f as [? ? ? vc0 ? ? ? ? ?]. unfold set_vc. cbn in *. f_equal. lia.
  - intros f Hf. destruct (flit_facts (Z.to_nat q) f ltac:(lia) (inj_in _ _ Hf)) as [_ [B [C D]]]. unfold bound, toward, by_type, ds, vcn. rewrite B, Nat2Z.id. f_equal. apply eq_true_iff_eq. rewrite Z.eqb_eq, Nat.eqb_eq. lia.
Qed.
Lemma is_noc : forall d, d < N -> noc (ms d) (toward d) (by_type ch) (fun q => injects (trace (cs q) (sevs q))) (map bs_flit (got d (of_net o))) /\
  (TermSpec.drained w es (y_t s) -> noc_empty (toward d) (by_type ch) (fun q => injects (trace (cs q) (sevs q))) (map bs_flit (got d (of_net o)))).
Proof.
  intros d Hd. destruct carried as [_ C]. destruct (C d Hd) as [M1 [M2 M3]].
  assert (Z0 : forall q v, ~ (0 <= q < Z.of_nat N)%Z \/ bc_vcs b <= v -> filter (from b_src q) (filter (on_vc v) (map bs_flit (got d (of_net o)))) = []).
  { intros q v H. rewrite filter_filter'. apply filter_none. intros f Hf. destruct (arrived_src d f Hd Hf) as [A [B [_ [_ D]]]]. unfold from, on_vc. rewrite A.
    destruct (Z.eqb_spec (Z.of_nat (sr f)) q) as [E|E]; [|reflexivity]. destruct (Nat.eqb_spec (vcn f) v) as [E'|E']; [|reflexivity]. exfalso. lia. }
  split.
  - split; [|split].
    + intros f Hf. destruct (arrived_src d f Hd Hf) as [_ [_ [_ [A B]]]]. split; auto. pose proof (proj2 (ft_m _ _ _ _ _ _ FT d Hd)). lia.
    + intros v a f f' a' E Ht. pose proof (arrived_worm bcode bdecode b_head b_tail b_pid vcn lo sr ds bdecode_code N (bc_vcs b) (fun m => took m (of_net o)) (got d (of_net o)) (fun m => injects (of_slave m o)) d
        (fun m _ => p_put _ _ _ _ _ _ _ _ _ _ _ I m) own M1 M2 (fun m v Hm Hv' => proj1 (M3 m v Hm Hv')) v a f f' a' E Ht) as A.
      assert (B : forall x, In x (a ++ f :: f' :: a') -> b_src x = Z.of_nat (sr x)) by (intros x Hx; rewrite <- E in Hx; apply filter_In in Hx; apply (arrived_src d x Hd (proj1 Hx))).
      rewrite (B f), (B f'), A; auto; rewrite in_app_iff; right; [right; left; auto|left; auto].
    + intros q v. destruct (Z_lt_le_dec q 0) as [H1|H1]; [rewrite Z0 by lia; apply prefix_nil|]. destruct (Z_lt_le_dec q (Z.of_nat N)) as [H2|H2]; [|rewrite Z0 by lia; apply prefix_nil].
      destruct (Nat.lt_ge_cases v (bc_vcs b)) as [H3|H3]; [|rewrite Z0 by lia; apply prefix_nil]. rewrite trace_sevs. destruct (Z.leb_spec 0 q) as [_|]; [|lia].
      rewrite recv_left, recv_right by (auto; lia).
      apply (arrived_prefix bcode bdecode b_head b_tail b_pid vcn lo sr ds bdecode_code N (bc_vcs b) (fun m => took m (of_net o)) (got d (of_net o)) (fun m => injects (of_slave m o)) d
        (fun m _ => p_put _ _ _ _ _ _ _ _ _ _ _ I m) own M1 (fun m v Hm Hv' => proj1 (M3 m v Hm Hv'))); auto; lia.
  - intros Dr q v. rewrite trace_sevs. destruct (Z.leb_spec 0 q) as [H1|H1]; [|rewrite Z0 by lia; reflexivity]. destruct (Z_lt_le_dec q (Z.of_nat N)) as [H2|H2].
    2:{ rewrite Z0 by lia. destruct (p_out _ _ _ _ _ _ _ _ _ _ _ I (Z.to_nat q) ltac:(lia)) as [E _]. rewrite E. reflexivity. }
    destruct (Nat.lt_ge_cases v (bc_vcs b)) as [H3|H3].
    + rewrite recv_left, recv_right by (auto; lia).
      apply (arrived_all bcode bdecode b_head b_tail b_pid vcn lo sr ds bdecode_code N (bc_vcs b) (fun m => took m (of_net o)) (got d (of_net o)) (fun m => injects (of_slave m o)) d
        (fun m _ => p_put _ _ _ _ _ _ _ _ _ _ _ I m) own M1 (fun m v Hm Hv' => proj1 (M3 m v Hm Hv'))); auto; try lia. intros m u Hm Hu. apply (M3 m u Hm Hu). exact Dr.
    + rewrite Z0 by lia. rewrite recv_right by (auto; lia). symmetry. apply filter_none. intros f Hf. destruct (flit_facts (Z.to_nat q) f ltac:(lia) (inj_in _ _ Hf)) as [_ [B [C' _]]]. unfold vcn. rewrite B, Nat2Z.id.
      destruct (Nat.eqb_spec (ch (b_type f)) v); [lia|]. apply andb_false_r.
Qed.
Lemma senders : forall d, d < N -> forall q, sender_ok (ms d) q (cs q).
Proof. intros d Hd q. destruct (ft_s _ _ _ _ _ _ FT q). split; auto. split; auto. apply (ft_w _ _ _ _ _ _ FT d q Hd). Qed.
(** The threads of the master adapters do not fail. *)
Lemma no_abort : forall d t, d < N -> t <> TEject -> ~ In (AM d t) don -> NoDup don -> exists st' o', m_thread (ms d) {| mths := []; mavail := false; mrdy := g_rdy g d |} t (y_ma s d) = Some (st', o').
Proof.
  intros d t Hd Ht Nt Nd. eapply (ma_safe ms g d (mh d) (mproj d don) (av d)); eauto; [apply (p_q _ _ _ _ _ _ _ _ _ _ _ I)|apply (p_ma _ _ _ _ _ _ _ _ _ _ _ I)|].
  destruct (e2e (ms d) cs sevs (toward d) (by_type ch) (senders d Hd) (fun q e => noc_fits d q e Hd) _ (proj1 (is_noc d Hd)) (mh d ++ [mseen g d (mproj d don ++ [t]) (av d)])) as [s' [o' [E _]]].
  - apply (ft_m _ _ _ _ _ _ FT d Hd).
  - apply Forall_app. split; [apply (p_mh _ _ _ _ _ _ _ _ _ _ _ I)|]. constructor; [|constructor]. unfold ok_minstant. cbn [mseen mths].
    apply NoDup_rev in Nd. replace (mproj d don ++ [t]) with (mproj d (don ++ [AM d t])) by (rewrite mproj_app; cbn [mproj flat_map]; rewrite Nat.eqb_refl; reflexivity).
    apply mproj_once. rewrite <- (rev_involutive (don ++ _)), rev_app_distr. apply NoDup_rev. cbn [rev app]. constructor; auto. rewrite <- in_rev. exact Nt.
  - eauto.
Qed.
End Turns.

(** ** One thread *)
Lemma goes : forall e, tdecent w (starts T w) es (of_net o) e -> in_turn w (es ++ [e]) -> exists t' o', term_step w rf e (y_t s) = Some (t', o') /\
  term_run w rf (es ++ [e]) (term0 P w) = Some (t', of_net o ++ o') /\ tdecent_run P w rf (starts T w) (es ++ [e]).
Proof.
  intros e De Te. pose proof (p_run _ _ _ _ _ _ _ _ _ _ _ I) as R. assert (D : tdecent_run P w rf (starts T w) (es ++ [e])) by (eapply tdecent_from_snoc; [apply (p_dec _ _ _ _ _ _ _ _ _ _ _ I)|exact R|exact De]).
  destruct (mesh_carries P mesh nl k nn b rd cd ob T bz vz K Hb Hv EP (es ++ [e]) D Te (fun _ => eq_refl)) as [s' [o' [E _]]]. change (term_run w rf (es ++ [e]) (term0 P w) = Some (s', o')) in E.
  rewrite term_run_snoc, R in E. destruct (term_step w rf e (y_t s)) as [[t2 o2]|] eqn:E2; [|discriminate]. exists t2, o2. split; auto. split; auto. rewrite term_run_snoc, R, E2. reflexivity.
Qed.
Lemma turns_next : forall a e, take_turns N (prev ++ don ++ [a]) -> (forall n, inj_turns n [e] = inj_acts n [a]) -> (forall n, read_turns n [e] = ej_acts n [a]) -> in_turn w (es ++ [e]).
Proof.
  intros a e TT A B. apply (alternate_both N (es ++ [e]) (prev ++ don ++ [a])); auto; intros n _.
  - unfold inj_turns. rewrite flat_map_app. fold (inj_turns n es) (inj_turns n [e]). rewrite A, (p_inj _ _ _ _ _ _ _ _ _ _ _ I), <- inj_acts_app, app_assoc. reflexivity.
  - unfold read_turns. rewrite flat_map_app. fold (read_turns n es) (read_turns n [e]). rewrite B, (p_read _ _ _ _ _ _ _ _ _ _ _ I), <- ej_acts_app, app_assoc. reflexivity.
Qed.
Lemma turn_inj : forall n e a, inj_turns n [e] = inj_acts n [a] -> inj_turns n (es ++ [e]) = inj_acts n (prev ++ don ++ [a]).
Proof. intros n e a A. unfold inj_turns. rewrite flat_map_app. fold (inj_turns n es) (inj_turns n [e]). rewrite A, (p_inj _ _ _ _ _ _ _ _ _ _ _ I), <- inj_acts_app, app_assoc. reflexivity. Qed.
Lemma turn_read : forall n e a, read_turns n [e] = ej_acts n [a] -> read_turns n (es ++ [e]) = ej_acts n (prev ++ don ++ [a]).
Proof. intros n e a A. unfold read_turns. rewrite flat_map_app. fold (read_turns n es) (read_turns n [e]). rewrite A, (p_read _ _ _ _ _ _ _ _ _ _ _ I), <- ej_acts_app, app_assoc. reflexivity. Qed.
Lemma still_inj : forall n a, inj_acts n [a] = [] -> inj_turns n es = inj_acts n (prev ++ don ++ [a]).
Proof. intros n a A. rewrite app_assoc, inj_acts_app, A, app_nil_r. apply (p_inj _ _ _ _ _ _ _ _ _ _ _ I). Qed.
Lemma still_read : forall n a, ej_acts n [a] = [] -> read_turns n es = ej_acts n (prev ++ don ++ [a]).
Proof. intros n a A. rewrite app_assoc, ej_acts_app, A, app_nil_r. apply (p_read _ _ _ _ _ _ _ _ _ _ _ I). Qed.
Lemma freed_app : forall n a c, freed n (a ++ c) = freed n a ++ freed n c. Proof. intros. apply flat_map_app. Qed.
Lemma took_app : forall n a c, took n (a ++ c) = took n a ++ took n c. Proof. intros. apply flat_map_app. Qed.
Lemma got_app : forall n a c, got n (a ++ c) = got n a ++ got n c. Proof. intros. apply flat_map_app. Qed.

(** A thread of a slave adapter other than the injection thread. *)
Lemma quiet : forall c ev r t st st' o', t <> TInj -> run_thread c ev r t st = (st', o') -> injects o' = [].
Proof.
  intros c ev r t st st' o' Ht H. destruct t; cbn [run_thread] in H; [| |congruence].
  - unfold run_iface in H. destruct (iface_take _ _ _ _); injection H as <- <-; reflexivity.
  - unfold run_pack in H. destruct (infifo st); [injection H as <- <-; reflexivity|]. destruct (length (injfifo st) <? s_depth c); injection H as <- <-; reflexivity.
Qed.
Lemma act_slave : forall n t, t <> TInj -> n < N -> exists s' o', do_act w rf cs ms g rdy (AS n t) s = Some (s', o') /\ PI g rdy sh mh prev (don ++ [AS n t]) cn av es (o ++ o') s'.
Proof.
  intros n t Ht Hn. destruct (run_thread (cs (Z.of_nat n)) (seen g n [] false) (rdy n) t (y_sl s n)) as [sl os] eqn:E. exists (mkY (y_t s) (fupd (y_sl s) n sl) (y_ma s)), (map (YS n) os).
  split; [destruct t; cbn [do_act]; rewrite ?E; congruence|].
  assert (NT : forall m, inj_acts m [AS n t] = []) by (intros m; destruct t; [reflexivity|reflexivity|congruence]).
  constructor; cbn [y_t y_sl y_ma]; intros; rewrite ?of_net_app, ?of_master_app, ?of_slave_app, ?of_net_S, ?of_master_S, ?of_slave_S, ?app_nil_r.
  - apply (p_run _ _ _ _ _ _ _ _ _ _ _ I).
  - apply (p_dec _ _ _ _ _ _ _ _ _ _ _ I).
  - apply still_inj. apply NT.
  - apply still_read. reflexivity.
  - rewrite sproj_app. cbn [sproj flat_map]. unfold fupd. destruct (Nat.eqb_spec n0 n) as [->|Nn].
    + rewrite Nat.eqb_refl. cbn [app]. eapply sl_step; eauto. apply (p_sl _ _ _ _ _ _ _ _ _ _ _ I).
    + destruct (Nat.eqb_spec n n0); [congruence|]. cbn [app]. rewrite !app_nil_r. apply (p_sl _ _ _ _ _ _ _ _ _ _ _ I).
  - eapply (p_off _ _ _ _ _ _ _ _ _ _ _ I); eauto.
  - apply (p_offg _ _ _ _ _ _ _ _ _ _ _ I).
  - rewrite injects_app'. replace (injects (if Nat.eqb n n0 then os else [])) with (@nil bflit) by (destruct (Nat.eqb n n0); [symmetry; eapply quiet; eauto|reflexivity]). rewrite app_nil_r. apply (p_put _ _ _ _ _ _ _ _ _ _ _ I).
  - destruct (Nat.eqb_spec n n0); [lia|]. rewrite app_nil_r. rewrite fupd_other by auto. apply (p_out _ _ _ _ _ _ _ _ _ _ _ I). auto.
  - rewrite mproj_app. cbn [mproj flat_map]. rewrite app_nil_r. apply (p_ma _ _ _ _ _ _ _ _ _ _ _ I).
  - apply (p_mh _ _ _ _ _ _ _ _ _ _ _ I).
  - apply (p_q _ _ _ _ _ _ _ _ _ _ _ I).
  - apply (p_cnt _ _ _ _ _ _ _ _ _ _ _ I).
  - apply (p_free _ _ _ _ _ _ _ _ _ _ _ I).
Qed.

(** The injection thread. *)
Lemma first_strip : forall n f f', first_route w rf n f = Some f' -> strip f' = strip f.
Proof. intros n f f' H. unfold first_route in H. destruct (w_rd w); [congruence|]. destruct (w_snk w (Inj n)) as [[r i]|]; [|discriminate]. injection H as <-. reflexivity. Qed.
Lemma inj_out : forall n now f (t t' : term P) o', term_step w rf (VInj n now f) t = Some (t', o') -> o' = [] \/ exists h h', f = Some h /\ o' = [Took n h'] /\ strip h' = strip h.
Proof.
  intros n now f t t' o' H. cbn [term_step] in H. destruct (negb (n <? w_nodes w)); [discriminate|]. destruct f as [h|].
  - destruct (offer w rf n now h t) as [[t1 o1]|] eqn:E; [|discriminate]. destruct (take_credit w n now t1); [|discriminate]. injection H as <- <-. unfold offer in E.
    destruct (po_full P now _ _ _) as [full|]; [|discriminate]. destruct (negb full && _); [|injection E as <- <-; auto]. destruct (first_route w rf n h) as [h'|] eqn:F; [|discriminate].
    destruct (if IqRouterModel.f_head h then _ else _) as [b1|]; [|discriminate]. destruct (bs_send _ _ _ _ _ _) as [b2|]; [|discriminate]. injection E as <- <-. right. exists h, h'. split; auto. split; auto. eapply first_strip; eauto.
  - destruct (take_credit w n now t); [|discriminate]. injection H as <- <-. auto.
Qed.
Lemma act_inj : forall n, n < N -> ~ In (AS n TInj) don -> take_turns N (prev ++ don ++ [AS n TInj]) -> exists s' o' cn', do_act w rf cs ms g rdy (AS n TInj) s = Some (s', o') /\ PI g rdy sh mh prev (don ++ [AS n TInj]) cn' av (es ++ evs g (AS n TInj) s o') (o ++ o') s'.
Proof.
  intros n Hn Nt TT. cbn [do_act evs]. unfold inj_act. set (c := cs (Z.of_nat n)). set (e := VInj n (g_now g n) (option_map (fun f => net_flit (to_bflit c f)) (waiting (y_sl s n)))).
  assert (A1 : forall m, inj_turns m [e] = inj_acts m [AS n TInj]) by (intros m; reflexivity). assert (A2 : forall m, read_turns m [e] = ej_acts m [AS n TInj]) by (intros m; reflexivity).
  destruct (goes e) as [t' [ot [E [R D]]]].
  - split; [exact Hn|]. intros h Eh. destruct (waiting (y_sl s n)) as [f|] eqn:W; [|discriminate]. cbn [option_map] in Eh. injection Eh as <-. destruct (wait_packs n f W) as [Pk Pi]. fold c in Pk, Pi. destruct (flit_facts n _ Hn Pi) as [F1 [F2 [F3 F4]]].
    change (w_b w) with b. set (x := to_bflit c f) in *. assert (V : IqRouterModel.f_vc (net_flit x) = ch (b_type x)) by (cbn [net_flit IqRouterModel.f_vc]; lia). rewrite V. split; auto. split.
    + unfold well_formed. rewrite <- parse_strip, <- on_vc_strip, map_app, (p_put _ _ _ _ _ _ _ _ _ _ _ I n). change (map strip [net_flit x]) with (map net_flit [x]). rewrite <- map_app.
      apply (packets_ok bcode bdecode b_head b_tail b_pid vcn lo sr ds bdecode_code _ _ Pk).
    + intros _. unfold starts. change (y_src T (f_id (net_flit x))) with (Z.to_nat (b_src (bdecode (bcode x)))). change (y_dest T (f_id (net_flit x))) with (Z.to_nat (bs_node (b_dst (bdecode (bcode x))))).
      change (y_b T (f_id (net_flit x))) with (ch (b_type (bdecode (bcode x)))). change (y_e T (f_id (net_flit x))) with (ch (b_type (bdecode (bcode x)))). rewrite bdecode_code, V. change (bc_vcs (w_b w)) with (bc_vcs b). change (w_nodes w) with N. lia.
  - eapply turns_next; eauto.
  - rewrite E. destruct (run_inj_spec c (seen g n [] (match ot with [] => false | _ => true end)) (y_sl s n)) as [sl Es]. rewrite Es. cbn [seen can] in *.
    set (bb := match ot with [] => false | _ => true end) in *. set (os := match waiting (y_sl s n) with Some f => if bb then [Inject (to_bflit c f)] else [] | None => [] end) in *.
    exists (mkY t' (fupd (y_sl s) n sl) (y_ma s)), (map YT ot ++ map (YS n) os), (fupd cn n bb). split; [reflexivity|].
    assert (TK : forall m, map strip (took m ot) = map net_flit (injects (if Nat.eqb n m then os else []))).
    { intros m. destruct (inj_out _ _ _ _ _ _ E) as [->|[h [h' [Eh [-> Sh]]]]].
      - cbn [took flat_map map]. subst os bb. destruct (Nat.eqb n m); [|reflexivity]. destruct (waiting (y_sl s n)); reflexivity.
      - destruct (waiting (y_sl s n)) as [f|]; [|discriminate]. injection Eh as <-. subst os bb. cbn [took flat_map]. destruct (Nat.eqb n m); [|reflexivity]. cbn [app map injects flat_map]. rewrite Sh. reflexivity. }
    assert (GT : forall m, got m ot = []) by (intros m; destruct (inj_out _ _ _ _ _ _ E) as [->|[h [h' [_ [-> _]]]]]; reflexivity).
    constructor; cbn [y_t y_sl y_ma]; intros; rewrite ?app_assoc, ?of_net_app, ?of_master_app, ?of_slave_app, ?of_net_S, ?of_master_S, ?of_slave_S, ?of_net_T, ?of_master_T, ?of_slave_T, ?app_nil_r, ?got_app, ?GT, ?app_nil_r.
    + exact R.
    + exact D.
    + rewrite <- app_assoc. apply turn_inj. apply A1.
    + rewrite <- app_assoc. apply turn_read. apply A2.
    + rewrite sproj_app. cbn [sproj flat_map]. unfold fupd. destruct (Nat.eqb_spec n0 n) as [->|Nn].
      * rewrite Nat.eqb_refl. cbn [app]. eapply sl_inj; [|apply (p_sl _ _ _ _ _ _ _ _ _ _ _ I)|exact Es]. rewrite sproj_in. exact Nt.
      * destruct (Nat.eqb_spec n n0); [congruence|]. cbn [app]. rewrite !app_nil_r. apply (p_sl _ _ _ _ _ _ _ _ _ _ _ I).
    + eapply (p_off _ _ _ _ _ _ _ _ _ _ _ I); eauto.
    + apply (p_offg _ _ _ _ _ _ _ _ _ _ _ I).
    + rewrite took_app, injects_app', !map_app, (p_put _ _ _ _ _ _ _ _ _ _ _ I), TK. reflexivity.
    + destruct (Nat.eqb_spec n n0); [lia|]. rewrite app_nil_r. rewrite fupd_other by auto. apply (p_out _ _ _ _ _ _ _ _ _ _ _ I). auto.
    + rewrite mproj_app. cbn [mproj flat_map]. rewrite app_nil_r. apply (p_ma _ _ _ _ _ _ _ _ _ _ _ I).
    + apply (p_mh _ _ _ _ _ _ _ _ _ _ _ I).
    + apply (p_q _ _ _ _ _ _ _ _ _ _ _ I).
    + apply (p_cnt _ _ _ _ _ _ _ _ _ _ _ I).
    + rewrite freed_app. cbn [freed flat_map]. rewrite app_nil_r. apply (p_free _ _ _ _ _ _ _ _ _ _ _ I).
Qed.

(** A cycle of the network. *)
Lemma act_tick : take_turns N (prev ++ don ++ [ATick]) -> tdecent w (starts T w) es (of_net o) (VTick (g_clk g)) -> exists s' o', do_act w rf cs ms g rdy ATick s = Some (s', o') /\ PI g rdy sh mh prev (don ++ [ATick]) cn av (es ++ evs g ATick s o') (o ++ o') s'.
Proof.
  intros TT De. set (e := VTick (g_clk g)) in *.
  assert (A1 : forall m, inj_turns m [e] = inj_acts m [ATick]) by (intros m; reflexivity). assert (A2 : forall m, read_turns m [e] = ej_acts m [ATick]) by (intros m; reflexivity).
  destruct (goes e) as [t' [ot [E [R D]]]]; auto; [eapply turns_next; eauto|]. cbn [do_act]. fold e. rewrite E. assert (ot = []) as ->.
  { subst e. cbn [term_step] in E. destruct (net_step w _ _) as [[net x]|]; [|discriminate]. injection E as _ <-. reflexivity. }
  exists (mkY t' (y_sl s) (y_ma s)), []. cbn [evs]. fold e. split; [reflexivity|]. rewrite app_nil_r in *. constructor; cbn [y_t y_sl y_ma]; intros.
  - exact R.
  - exact D.
  - apply turn_inj. apply A1.
  - apply turn_read. apply A2.
  - rewrite sproj_app. cbn [sproj flat_map]. rewrite app_nil_r. apply (p_sl _ _ _ _ _ _ _ _ _ _ _ I).
  - eapply (p_off _ _ _ _ _ _ _ _ _ _ _ I); eauto.
  - apply (p_offg _ _ _ _ _ _ _ _ _ _ _ I).
  - apply (p_put _ _ _ _ _ _ _ _ _ _ _ I).
  - apply (p_out _ _ _ _ _ _ _ _ _ _ _ I). auto.
  - rewrite mproj_app. cbn [mproj flat_map]. rewrite app_nil_r. apply (p_ma _ _ _ _ _ _ _ _ _ _ _ I).
  - apply (p_mh _ _ _ _ _ _ _ _ _ _ _ I).
  - apply (p_q _ _ _ _ _ _ _ _ _ _ _ I).
  - apply (p_cnt _ _ _ _ _ _ _ _ _ _ _ I).
  - rewrite freed_app. cbn [freed flat_map]. rewrite app_nil_r. apply (p_free _ _ _ _ _ _ _ _ _ _ _ I).
Qed.

(** The other threads of a master adapter. *)
Lemma frees_go : forall n l, n < N -> (forall v, count_occ Nat.eq_dec (freed n es) v + count_occ Nat.eq_dec l v <= length (IqRouterSpec.on_vc v (got n (of_net o)))) ->
  exists t', term_run w rf (map (VFree n) l) (y_t s) = Some (t', []) /\ term_run w rf (es ++ map (VFree n) l) (term0 P w) = Some (t', of_net o) /\ tdecent_run P w rf (starts T w) (es ++ map (VFree n) l).
Proof.
  intros n l Hn. induction l as [|v l IH] using rev_ind; intros H.
  - exists (y_t s). cbn [map term_run]. rewrite app_nil_r. split; auto. split; [apply (p_run _ _ _ _ _ _ _ _ _ _ _ I)|apply (p_dec _ _ _ _ _ _ _ _ _ _ _ I)].
  - destruct IH as [t' [E [R D]]]; [intros u; specialize (H u); rewrite count_occ_app in H; lia|]. rewrite map_app. cbn [map]. rewrite app_assoc. eexists. split; [|split].
    + rewrite term_run_snoc, E. cbn [term_step]. reflexivity.
    + rewrite term_run_snoc, R. cbn [term_step]. rewrite app_nil_r. reflexivity.
    + eapply tdecent_from_snoc; [exact D|exact R|]. split; [exact Hn|]. cbn [app]. specialize (H v). rewrite count_occ_app in H. cbn [count_occ] in H. destruct (Nat.eq_dec v v); [|congruence].
      rewrite freed_app, count_occ_app. replace (freed n (map (VFree n) l)) with l; [lia|]. clear. induction l as [|a l IH]; auto. cbn [map freed flat_map]. rewrite Nat.eqb_refl. cbn [app]. f_equal. exact IH.
Qed.
Lemma frees_count : forall v l, frees v (map Free l) = count_occ Nat.eq_dec l v.
Proof. intros v l. induction l as [|a l IH]; auto. unfold frees in *. cbn [map filter count_occ]. destruct (Nat.eqb_spec a v) as [->|Na]; destruct (Nat.eq_dec _ _); try congruence; cbn [length]; auto. Qed.
Lemma ma_out : forall c ev t st st' om, t <> TEject -> m_thread c ev t st = Some (st', om) -> inq st' = inq st /\ pendfl st' = pendfl st /\ (forall v, length (ejf st' v) + frees v om = length (ejf st v)) /\
  exists l, forall n, flat_map (fun x => match x with Free v => [VFree n v] | _ => [] end) om = map (VFree n) l /\ forall v, frees v om = count_occ Nat.eq_dec l v.
Proof.
  intros c ev t st st' om Ht H. destruct t; [congruence| |]; cbn [m_thread] in H.
  - destruct (depk_frees _ _ _ _ H) as [A [B [C [l ->]]]]. split; auto. split; auto. split; auto. exists l. intros n. split; [clear; induction l as [|a l IH]; auto; cbn [map flat_map]; rewrite IH; reflexivity|]. intros v. apply frees_count.
  - destruct (out_loop_frees _ _ _ _ _ _ H) as [A [B [C [D E]]]]. split; auto. split; auto. split; [intros v; rewrite C, D; lia|]. exists []. intros n. split; [|exact D].
    clear - E. induction om as [|x om IH]; auto. cbn [flat_map]. rewrite IH by (intros y Hy; apply E; right; auto). specialize (E x (or_introl eq_refl)). destruct x; tauto.
Qed.
Lemma act_ma : forall n t, t <> TEject -> n < N -> ~ In (AM n t) don -> NoDup don -> take_turns N (prev ++ don) ->
  exists s' o', do_act w rf cs ms g rdy (AM n t) s = Some (s', o') /\ PI g rdy sh mh prev (don ++ [AM n t]) cn av (es ++ evs g (AM n t) s o') (o ++ o') s'.
Proof.
  intros n t Ht Hn Nt Nd TT. destruct (no_abort TT n t Hn Ht Nt Nd) as [m' [om E]]. destruct (ma_out _ _ _ _ _ _ Ht E) as [A1 [A2 [A3 [l A4]]]].
  destruct (frees_go n l Hn) as [t' [F1 [F2 F3]]].
  { intros v. rewrite (p_free _ _ _ _ _ _ _ _ _ _ _ I). rewrite <- (p_cnt _ _ _ _ _ _ _ _ _ _ _ I n v), <- (A3 v). rewrite (proj2 (A4 n) v). lia. }
  exists (mkY t' (y_sl s) (fupd (y_ma s) n m')), (map (YM n) om). split.
  { assert (X : do_act w rf cs ms g rdy (AM n t) s = ma_act w rf ms g n t s) by (destruct t; [congruence| |]; reflexivity). rewrite X. unfold ma_act. rewrite E. unfold free_all. rewrite (proj1 (A4 n)), F1. reflexivity. }
  assert (Ee : evs g (AM n t) s (map (YM n) om) = map (VFree n) l) by (transitivity (fevs n (map (YM n) om)); [destruct t; [congruence| |]; reflexivity|rewrite <- (proj1 (A4 n)); clear; induction om as [|x om IH]; [reflexivity|]; cbn [map fevs flat_map]; fold (fevs n (map (YM n) om)); rewrite IH; destruct x; reflexivity]). rewrite Ee.
  assert (NE : forall m, ej_acts m [AM n t] = []) by (intros m; destruct t; [congruence| |]; reflexivity).
  assert (Q1 : forall m, inj_turns m (map (VFree n) l) = []) by (intros m; clear; induction l as [|a l IH]; auto).
  assert (Q2 : forall m, read_turns m (map (VFree n) l) = []) by (intros m; clear; induction l as [|a l IH]; auto).
  assert (Q3 : forall m, freed m (map (VFree n) l) = if Nat.eqb n m then l else []).
  { intros m. clear. induction l as [|a l IH]; [destruct (Nat.eqb n m); reflexivity|]. cbn [map freed flat_map]. unfold freed in IH. rewrite IH. destruct (Nat.eqb n m); reflexivity. }
  constructor; cbn [y_t y_sl y_ma]; intros; rewrite ?of_net_app, ?of_master_app, ?of_slave_app, ?of_net_M, ?of_master_M, ?of_slave_M, ?app_nil_r.
  - exact F2.
  - exact F3.
  - unfold inj_turns. rewrite flat_map_app. fold (inj_turns n0 es) (inj_turns n0 (map (VFree n) l)). rewrite Q1, app_nil_r. apply still_inj. destruct t; reflexivity.
  - unfold read_turns. rewrite flat_map_app. fold (read_turns n0 es) (read_turns n0 (map (VFree n) l)). rewrite Q2, app_nil_r. apply still_read. apply NE.
  - rewrite sproj_app. cbn [sproj flat_map]. rewrite app_nil_r. apply (p_sl _ _ _ _ _ _ _ _ _ _ _ I).
  - eapply (p_off _ _ _ _ _ _ _ _ _ _ _ I); eauto.
  - apply (p_offg _ _ _ _ _ _ _ _ _ _ _ I).
  - apply (p_put _ _ _ _ _ _ _ _ _ _ _ I).
  - apply (p_out _ _ _ _ _ _ _ _ _ _ _ I). auto.
  - rewrite mproj_app. cbn [mproj flat_map]. unfold fupd. destruct (Nat.eqb_spec n0 n) as [->|Nn].
    + rewrite Nat.eqb_refl. cbn [app]. eapply ma_step; eauto. apply (p_ma _ _ _ _ _ _ _ _ _ _ _ I).
    + destruct (Nat.eqb_spec n n0); [congruence|]. cbn [app]. rewrite !app_nil_r. apply (p_ma _ _ _ _ _ _ _ _ _ _ _ I).
  - apply (p_mh _ _ _ _ _ _ _ _ _ _ _ I).
  - unfold fupd. destruct (Nat.eqb_spec n0 n) as [->|Nn]; [rewrite A1, A2|]; apply (p_q _ _ _ _ _ _ _ _ _ _ _ I).
  - rewrite frees_app. unfold fupd. destruct (Nat.eqb_spec n0 n) as [->|Nn].
    + rewrite Nat.eqb_refl. rewrite <- (p_cnt _ _ _ _ _ _ _ _ _ _ _ I n v), <- (A3 v). lia.
    + destruct (Nat.eqb_spec n n0); [congruence|]. cbn [frees filter length]. rewrite Nat.add_0_r. apply (p_cnt _ _ _ _ _ _ _ _ _ _ _ I).
  - rewrite freed_app, count_occ_app, Q3, frees_app, (p_free _ _ _ _ _ _ _ _ _ _ _ I). f_equal. destruct (Nat.eqb n n0); [symmetry; apply (A4 n)|reflexivity].
Qed.

(** The ejection thread. *)
Lemma alternate_last : forall l, alternate (l ++ [true]) -> last l false = false.
Proof. intros l H. destruct l as [|a l] using rev_ind; auto. rewrite last_last. destruct a; auto. exfalso. apply (H l true true []); auto. rewrite <- app_assoc. reflexivity. Qed.
Lemma act_eject : forall n, n < N -> ~ In (AM n TEject) don -> take_turns N (prev ++ don ++ [AM n TEject]) ->
  exists s' o' av', do_act w rf cs ms g rdy (AM n TEject) s = Some (s', o') /\ PI g rdy sh mh prev (don ++ [AM n TEject]) cn av' (es ++ evs g (AM n TEject) s o') (o ++ o') s'.
Proof.
  intros n Hn Nt TT. set (e := VRead n).
  assert (A1 : forall m, inj_turns m [e] = inj_acts m [AM n TEject]) by (intros m; reflexivity). assert (A2 : forall m, read_turns m [e] = ej_acts m [AM n TEject]) by (intros m; reflexivity).
  assert (IT : in_turn w (es ++ [e])) by (eapply turns_next; eauto).
  destruct (goes e Hn IT) as [t' [ot [E [R D]]]]. cbn [do_act]. unfold ej_act. destruct (p_q _ _ _ _ _ _ _ _ _ _ _ I n) as [Qi Qp]. rewrite Qp. fold e. rewrite E.
  assert (X : t' = y_t s /\ ot = match ch_out (n_f (tm_net (y_t s)) (Ej n)) with Some f => [Got n f] | None => [] end).
  { subst e. cbn [term_step] in E. destruct (n <? w_nodes w); [|discriminate]. injection E as <- <-. auto. }
  destruct X as [-> Eo]. 
  destruct (ch_out (n_f (tm_net (y_t s)) (Ej n))) as [f|] eqn:Ef.
  - subst ot. cbn [flat_map app]. set (x := bs_flit f).
    assert (PT : forall m, map strip (took m (of_net o ++ [Got n f])) = map net_flit (injects (of_slave m o))) by (intros m; rewrite took_app; cbn [took flat_map]; rewrite app_nil_r; apply (p_put _ _ _ _ _ _ _ _ _ _ _ I)).
    destruct (came_at (es ++ [e]) (y_t s) (of_net o ++ [Got n f]) R D IT PT n f Hn) as [_ [_ [_ [Vx [V0 Vn]]]]]; [rewrite got_app, in_app_iff; right; cbn [got flat_map]; rewrite Nat.eqb_refl; left; reflexivity|]. fold x in Vx, V0, Vn.
    assert (TT0 : take_turns N (prev ++ don)) by (eapply turns_pre; rewrite <- app_assoc; exact TT).
    assert (Rm : length (ejf (y_ma s n) (vcn x)) < m_ejdepth (ms n)).
    { destruct (carried_at es (y_t s) (of_net o) (p_run _ _ _ _ _ _ _ _ _ _ _ I) (p_dec _ _ _ _ _ _ _ _ _ _ _ I) (turned TT0) (p_put _ _ _ _ _ _ _ _ _ _ _ I)) as [C _]. specialize (C n (vcn x) Hn Vn).
      assert (Lt : last (read_turns n es) false = false). { apply alternate_last. destruct (IT n Hn) as [_ L]. unfold read_turns in L. rewrite flat_map_app in L. unfold e in L. cbn [flat_map app] in L. rewrite Nat.eqb_refl in L. exact L. }
      unfold unread in C. rewrite Lt, Ef in C. cbn [opt] in C. unfold IqRouterSpec.on_vc in C. rewrite filter_app, app_length in C. cbn [filter] in C. rewrite Vx, Nat.eqb_refl in C. cbn [length] in C. fold (IqRouterSpec.on_vc (IqRouterModel.f_vc f) (got n (of_net o))) in C.
      rewrite <- (p_cnt _ _ _ _ _ _ _ _ _ _ _ I n), (p_free _ _ _ _ _ _ _ _ _ _ _ I) in C. pose proof (ft_depth _ _ _ _ _ _ FT n Hn). rewrite Vx. lia. }
    assert (Vm : vcn x < m_nvc (ms n)) by (pose proof (proj2 (ft_m _ _ _ _ _ _ FT n Hn)); lia).
    rewrite eject_one by auto. exists (mkY (y_t s) (y_sl s) (fupd (y_ma s) n (load [] (ejected_one (ms n) x (y_ma s n))))), (map YT [Got n f] ++ map (YM n) [Arrive x]), (fupd av n true). cbn [evs]. fold e. split; [reflexivity|].
    constructor; cbn [y_t y_sl y_ma]; intros; rewrite ?app_assoc, ?of_net_app, ?of_master_app, ?of_slave_app, ?of_net_M, ?of_master_M, ?of_slave_M, ?of_net_T, ?of_master_T, ?of_slave_T, ?app_nil_r.
    + exact R.
    + exact D.
    + rewrite <- app_assoc. apply turn_inj. apply A1.
    + rewrite <- app_assoc. apply turn_read. apply A2.
    + rewrite sproj_app. cbn [sproj flat_map]. rewrite app_nil_r. apply (p_sl _ _ _ _ _ _ _ _ _ _ _ I).
    + eapply (p_off _ _ _ _ _ _ _ _ _ _ _ I); eauto.
    + apply (p_offg _ _ _ _ _ _ _ _ _ _ _ I).
    + apply PT.
    + apply (p_out _ _ _ _ _ _ _ _ _ _ _ I). auto.
    + rewrite mproj_app, got_app. cbn [mproj got flat_map]. unfold fupd. destruct (Nat.eqb_spec n0 n) as [->|Nn].
      * rewrite Nat.eqb_refl. cbn [app]. rewrite map_app. cbn [map]. fold x. change (load [] (ejected_one (ms n) x (y_ma s n))) with (ejected_one (ms n) x (y_ma s n)). apply (ma_one ms g n (mh n) (mproj n don) (av n)); auto; [rewrite mproj_in; exact Nt|]. apply (p_ma _ _ _ _ _ _ _ _ _ _ _ I).
      * destruct (Nat.eqb_spec n n0); [congruence|]. cbn [app]. rewrite !app_nil_r. apply (p_ma _ _ _ _ _ _ _ _ _ _ _ I).
    + apply (p_mh _ _ _ _ _ _ _ _ _ _ _ I).
    + unfold fupd. destruct (Nat.eqb_spec n0 n) as [->|Nn]; [split; reflexivity|]. apply (p_q _ _ _ _ _ _ _ _ _ _ _ I).
    + rewrite frees_app, got_app. cbn [got flat_map]. unfold IqRouterSpec.on_vc. rewrite filter_app, app_length. fold (IqRouterSpec.on_vc v (got n0 (of_net o))). rewrite <- (p_cnt _ _ _ _ _ _ _ _ _ _ _ I n0 v).
      replace (frees v (if Nat.eqb n n0 then [Arrive x] else [])) with 0 by (destruct (Nat.eqb n n0); reflexivity). unfold fupd at 1. destruct (Nat.eqb_spec n0 n) as [->|Nn].
      * rewrite Nat.eqb_refl. cbn [app filter load ejected_one ejf]. rewrite <- Vx. unfold fupd. destruct (Nat.eqb_spec v (vcn x)) as [->|Nv]; [rewrite Nat.eqb_refl, app_length; cbn [length]; lia|]. destruct (Nat.eqb_spec (vcn x) v); [congruence|]. cbn [length]. lia.
      * destruct (Nat.eqb_spec n n0); [congruence|]. cbn [filter length app]. lia.
    + rewrite freed_app. cbn [freed flat_map]. rewrite app_nil_r, frees_app. replace (frees v (if Nat.eqb n n0 then [Arrive x] else [])) with 0 by (destruct (Nat.eqb n n0); reflexivity). rewrite Nat.add_0_r. apply (p_free _ _ _ _ _ _ _ _ _ _ _ I).
  - subst ot. cbn [flat_map]. rewrite eject_nil by auto. exists (mkY (y_t s) (y_sl s) (fupd (y_ma s) n (load [] (y_ma s n)))), [], (fupd av n false). cbn [evs]. fold e. split; [reflexivity|]. rewrite app_nil_r in *.
    constructor; cbn [y_t y_sl y_ma]; intros.
    + exact R.
    + exact D.
    + apply turn_inj. apply A1.
    + apply turn_read. apply A2.
    + rewrite sproj_app. cbn [sproj flat_map]. rewrite app_nil_r. apply (p_sl _ _ _ _ _ _ _ _ _ _ _ I).
    + eapply (p_off _ _ _ _ _ _ _ _ _ _ _ I); eauto.
    + apply (p_offg _ _ _ _ _ _ _ _ _ _ _ I).
    + apply (p_put _ _ _ _ _ _ _ _ _ _ _ I).
    + apply (p_out _ _ _ _ _ _ _ _ _ _ _ I). auto.
    + rewrite mproj_app. cbn [mproj flat_map]. unfold fupd. destruct (Nat.eqb_spec n0 n) as [->|Nn].
      * rewrite Nat.eqb_refl. cbn [app]. eapply ma_none; [rewrite mproj_in; exact Nt|exact Qp|]. apply (p_ma _ _ _ _ _ _ _ _ _ _ _ I).
      * destruct (Nat.eqb_spec n n0); [congruence|]. cbn [app]. rewrite !app_nil_r. apply (p_ma _ _ _ _ _ _ _ _ _ _ _ I).
    + apply (p_mh _ _ _ _ _ _ _ _ _ _ _ I).
    + unfold fupd. destruct (Nat.eqb_spec n0 n) as [->|Nn]; [split; [reflexivity|exact Qp]|]. apply (p_q _ _ _ _ _ _ _ _ _ _ _ I).
    + unfold fupd. destruct (Nat.eqb_spec n0 n) as [->|Nn]; cbn [load ejf]; apply (p_cnt _ _ _ _ _ _ _ _ _ _ _ I).
    + rewrite freed_app. cbn [freed flat_map]. rewrite app_nil_r. apply (p_free _ _ _ _ _ _ _ _ _ _ _ I).
Qed.
End Inv.

(** ** All threads of an instant *)
Lemma act_one : forall g rdy sh mh prev don cn av es o s a, PI g rdy sh mh prev don cn av es o s -> NoDup (don ++ [a]) -> match a with AS n _ | AM n _ => n < N | ATick => True end ->
  take_turns N (prev ++ don ++ [a]) -> (forall h x, tdecent w (starts T w) h x (VTick (g_clk g))) ->
  exists s1 o1 cn1 av1, do_act w rf cs ms g rdy a s = Some (s1, o1) /\ PI g rdy sh mh prev (don ++ [a]) cn1 av1 (es ++ evs g a s o1) (o ++ o1) s1.
Proof.
  intros g rdy sh mh prev don cn av es o s a I ND Na TT1 DK. assert (TT0 : take_turns N (prev ++ don)) by (eapply turns_pre; rewrite <- app_assoc; exact TT1).
  pose proof (NoDup_remove_1 _ _ _ ND) as NDd. rewrite app_nil_r in NDd. pose proof (NoDup_remove_2 _ _ _ ND) as NIn. rewrite app_nil_r in NIn.
  destruct a as [n t|n t|].
  - destruct t; [| |destruct (act_inj I n Na NIn TT1) as [s1 [o1 [cn1 H]]]; exists s1, o1, cn1, av; exact H]; cbn [evs]; rewrite app_nil_r; [destruct (act_slave I n TIface ltac:(discriminate) Na) as [s1 [o1 H]]|destruct (act_slave I n TPack ltac:(discriminate) Na) as [s1 [o1 H]]]; exists s1, o1, cn, av; exact H.
  - destruct t; [destruct (act_eject I n Na NIn TT1) as [s1 [o1 [av1 H]]]; exists s1, o1, cn, av1; exact H| |]; [destruct (act_ma I n TDepk ltac:(discriminate) Na NIn NDd TT0) as [s1 [o1 H]]|destruct (act_ma I n TOut ltac:(discriminate) Na NIn NDd TT0) as [s1 [o1 H]]]; exists s1, o1, cn, av; exact H.
  - destruct (act_tick I TT1 (DK es (of_net o))) as [s1 [o1 H]]. exists s1, o1, cn, av. exact H.
Qed.
Lemma acts_run : forall g rdy sh mh prev l don cn av es o s, PI g rdy sh mh prev don cn av es o s -> NoDup (don ++ l) -> (forall a, In a l -> match a with AS n _ | AM n _ => n < N | ATick => True end) ->
  take_turns N (prev ++ don ++ l) -> (forall h x, tdecent w (starts T w) h x (VTick (g_clk g))) ->
  exists s' o' es' cn' av', do_acts w rf cs ms g rdy l s = Some (s', o') /\ PI g rdy sh mh prev (don ++ l) cn' av' es' (o ++ o') s'.
Proof.
  intros g rdy sh mh prev l. induction l as [|a l IH]; intros don cn av es o s I ND NO TT DK; [cbn [do_acts]; exists s, [], es, cn, av; rewrite !app_nil_r; auto|].
  assert (TT1 : take_turns N (prev ++ don ++ [a])) by (eapply turns_pre; rewrite <- !app_assoc; exact TT). assert (TT0 : take_turns N (prev ++ don)) by (eapply turns_pre; rewrite <- app_assoc; exact TT1).
  pose proof (NoDup_remove_1 _ _ _ ND) as ND0. pose proof (NoDup_remove_2 _ _ _ ND) as NI. assert (NIn : ~ In a don) by (intros H; apply NI; rewrite in_app_iff; auto).
  assert (NDd : NoDup don) by (clear - ND0; induction don as [|x d Hd]; [constructor|]; cbn [app] in ND0; inversion ND0; subst; constructor; auto; intros H; apply H1; rewrite in_app_iff; auto).
  assert (Na : match a with AS n _ | AM n _ => n < N | ATick => True end) by (apply NO; left; auto).
  assert (X : exists s1 o1 es1 cn1 av1, do_act w rf cs ms g rdy a s = Some (s1, o1) /\ PI g rdy sh mh prev (don ++ [a]) cn1 av1 es1 (o ++ o1) s1).
  { destruct (act_one g rdy sh mh prev don cn av es o s a I) as [s1 [o1 [cn1 [av1 H]]]]; auto; [|eauto 6]. rewrite <- (rev_involutive (don ++ [a])), rev_app_distr. apply NoDup_rev. cbn [rev app]. constructor; [rewrite <- in_rev; exact NIn|apply NoDup_rev; exact NDd]. }
  destruct X as [s1 [o1 [es1 [cn1 [av1 [E1 I1]]]]]]. destruct (IH (don ++ [a]) cn1 av1 es1 (o ++ o1) s1 I1) as [s2 [o2 [es2 [cn2 [av2 [E2 I2]]]]]].
  - rewrite <- app_assoc. exact ND.
  - intros x Hx. apply NO. right. auto.
  - rewrite <- app_assoc. exact TT.
  - exact DK.
  - exists s2, (o1 ++ o2), es2, cn2, av2. cbn [do_acts]. rewrite E1, E2. split; auto. rewrite <- !app_assoc in I2. exact I2.
Qed.

(** Between two instants. *)
Record BI (sh : nat -> list instant) (mh : nat -> list minstant) (prev : list act) (es : list tev) (o : list sobs) (s : sys P) : Prop := {
  b_run : term_run w rf es (term0 P w) = Some (y_t s, of_net o);
  b_dec : tdecent_run P w rf (starts T w) es;
  b_inj : forall n, inj_turns n es = inj_acts n prev;
  b_read : forall n, read_turns n es = ej_acts n prev;
  b_sl : forall n, s_run (cs (Z.of_nat n)) (sh n) (s_init (cs (Z.of_nat n))) = (y_sl s n, of_slave n o);
  b_off : forall n ev, In ev (sh n) -> offers n ev;
  b_put : forall n, map strip (took n (of_net o)) = map net_flit (injects (of_slave n o));
  b_out : forall n, N <= n -> of_slave n o = [] /\ infifo (y_sl s n) = [] /\ injfifo (y_sl s n) = [] /\ tobe (y_sl s n) = None;
  b_ma : forall n x, m_run (ms n) (mh n) (m_init (ms n) (map bs_flit (got n (of_net o)) ++ x)) = Some (load x (y_ma s n), of_master n o);
  b_mh : forall n, Forall ok_minstant (mh n);
  b_q : forall n, inq (y_ma s n) = [] /\ pendfl (y_ma s n) = None;
  b_cnt : forall n v, length (ejf (y_ma s n) v) + frees v (of_master n o) = length (IqRouterSpec.on_vc v (got n (of_net o)));
  b_free : forall n v, count_occ Nat.eq_dec (freed n es) v = frees v (of_master n o) }.
Lemma PI_start : forall g sh mh prev es o s, BI sh mh prev es o s -> (forall n, offers n (seen g n [] false)) ->
  PI g (fun n => granted cs g n (y_sl s n)) sh mh prev [] (fun _ => false) (fun _ => false) es o (mkY (y_t s) (fun n => settled cs g n (y_sl s n)) (y_ma s)).
Proof.
  intros g sh mh prev es o s B OF. constructor; cbn [y_t y_sl y_ma]; intros; rewrite ?app_nil_r.
  - apply (b_run _ _ _ _ _ _ B).
  - apply (b_dec _ _ _ _ _ _ B).
  - apply (b_inj _ _ _ _ _ _ B).
  - apply (b_read _ _ _ _ _ _ B).
  - apply sl_start. apply (b_sl _ _ _ _ _ _ B).
  - eapply (b_off _ _ _ _ _ _ B); eauto.
  - apply OF.
  - apply (b_put _ _ _ _ _ _ B).
  - apply (b_out _ _ _ _ _ _ B). auto.
  - apply ma_start. intros x. apply (b_ma _ _ _ _ _ _ B).
  - apply (b_mh _ _ _ _ _ _ B).
  - apply (b_q _ _ _ _ _ _ B).
  - apply (b_cnt _ _ _ _ _ _ B).
  - apply (b_free _ _ _ _ _ _ B).
Qed.
Lemma PI_end : forall g rdy sh mh prev don cn av es o s, PI g rdy sh mh prev don cn av es o s -> NoDup don ->
  BI (fun n => sh n ++ [seen g n (sproj n don) (cn n)]) (fun n => mh n ++ [mseen g n (mproj n don) (av n)]) (prev ++ don) es o (mkY (y_t s) (y_sl s) (fun n => commit (y_ma s n))).
Proof.
  intros g rdy sh mh prev don cn av es o s I ND. constructor; cbn [y_t y_sl y_ma]; intros.
  - apply (p_run _ _ _ _ _ _ _ _ _ _ _ I).
  - apply (p_dec _ _ _ _ _ _ _ _ _ _ _ I).
  - apply (p_inj _ _ _ _ _ _ _ _ _ _ _ I).
  - apply (p_read _ _ _ _ _ _ _ _ _ _ _ I).
  - eapply sl_run. apply (p_sl _ _ _ _ _ _ _ _ _ _ _ I).
  - apply in_app_iff in H. destruct H as [H|[<-|[]]]; [eapply (p_off _ _ _ _ _ _ _ _ _ _ _ I); eauto|]. exact (p_offg _ _ _ _ _ _ _ _ _ _ _ I n).
  - apply (p_put _ _ _ _ _ _ _ _ _ _ _ I).
  - apply (p_out _ _ _ _ _ _ _ _ _ _ _ I). auto.
  - apply ma_run. apply (p_ma _ _ _ _ _ _ _ _ _ _ _ I).
  - apply Forall_app. split; [apply (p_mh _ _ _ _ _ _ _ _ _ _ _ I)|]. constructor; [|constructor]. unfold ok_minstant. cbn [mseen mths]. apply mproj_once. exact ND.
  - exact (p_q _ _ _ _ _ _ _ _ _ _ _ I n).
  - exact (p_cnt _ _ _ _ _ _ _ _ _ _ _ I n v).
  - apply (p_free _ _ _ _ _ _ _ _ _ _ _ I).
Qed.
Lemma BI_zero : BI (fun _ => []) (fun _ => []) [] [] [] (sys0 w cs ms).
Proof.
  constructor; cbn; intros; auto; try contradiction; try (split; auto; fail); constructor.
Qed.
Lemma run_one : forall g sh mh prev es o s, BI sh mh prev es o s -> good_ginst w cs ms g -> take_turns N (prev ++ g_acts g) ->
  exists s' o' es' cn av, sys_step w rf cs ms g s = Some (s', o') /\
    BI (fun n => sh n ++ [seen g n (sproj n (g_acts g)) (cn n)]) (fun n => mh n ++ [mseen g n (mproj n (g_acts g)) (av n)]) (prev ++ g_acts g) es' (o ++ o') s'.
Proof.
  intros g sh mh prev es o s B G1 TT. destruct (acts_run g _ sh mh prev (g_acts g) [] _ _ es o _ (PI_start g sh mh prev es o s B ltac:(intros n i t Hn Hi Ht; apply (gi_txn _ _ _ _ G1); auto))) as [s1 [o1 [es1 [cn1 [av1 [E1 I1]]]]]].
  - apply (gi_once _ _ _ _ G1).
  - apply (gi_node _ _ _ _ G1).
  - exact TT.
  - intros h x. split; [apply (gi_va _ _ _ _ G1)|apply (gi_sa _ _ _ _ G1)].
  - eexists _, o1, es1, cn1, av1. split; [unfold sys_step; rewrite E1; reflexivity|]. exact (PI_end _ _ _ _ _ _ _ _ _ _ _ I1 (gi_once _ _ _ _ G1)).
Qed.
Lemma run_all : forall gs sh mh prev es o s, BI sh mh prev es o s -> Forall (good_ginst w cs ms) gs -> take_turns N (prev ++ flat_map g_acts gs) ->
  exists s' o' sh' mh' es', sys_run w rf cs ms gs s = Some (s', o') /\ BI sh' mh' (prev ++ flat_map g_acts gs) es' (o ++ o') s'.
Proof.
  intros gs. induction gs as [|g gs IH]; intros sh mh prev es o s B G TT.
  - exists s, [], sh, mh, es. cbn [sys_run flat_map]. rewrite !app_nil_r. auto.
  - inversion G as [|? ? G1 G2]; subst. cbn [flat_map] in *. destruct (run_one g sh mh prev es o s B G1) as [s1 [o1 [es1 [cn1 [av1 [E1 I1]]]]]]; [rewrite app_assoc in TT; eapply turns_pre; exact TT|].
    destruct (IH _ _ (prev ++ g_acts g) es1 (o ++ o1) _ I1 G2) as [s2 [o2 [sh2 [mh2 [es2 [E2 B2]]]]]]; [rewrite <- app_assoc; exact TT|].
    exists s2, (o1 ++ o2), sh2, mh2, es2. cbn [sys_run]. rewrite E1, E2. split; auto. rewrite !app_assoc in *. exact B2.
Qed.

(** An instant at which nothing happens. *)
Definition still : ginst := {| g_acts := []; g_inp := fun _ _ => None; g_id := fun _ => 0%Z; g_rdy := fun _ _ => false; g_now := fun _ => 0%Z; g_clk := {| k_now := 0; k_va := fun _ _ => no_match; k_sa := fun _ _ => no_match |} |}.
Theorem delivered : forall gs, Forall (good_ginst w cs ms) gs -> take_turns N (flat_map g_acts gs) ->
  exists (s : sys P) o, sys_run w rf cs ms gs (sys0 w cs ms) = Some (s, o) /\ forall d, d < N -> exists hist : list (nat * (Z * entry)),
    (forall q v, prefix (part q v hist) (filter (meant (toward d) (by_type ch) cs q v) (sent_by q o))) /\
    (forall i, prefix (seen_at d i o) (map (received (ms d) cs) (filter (to_iface (ms d) i) (map snd hist)))) /\
    (at_rest w ms (flat_map g_acts gs) s -> exists hist' : list (nat * (Z * entry)),
      (forall q v, part q v hist' = filter (meant (toward d) (by_type ch) cs q v) (sent_by q o)) /\
      (forall i, seen_at d i o = map (received (ms d) cs) (filter (to_iface (ms d) i) (map snd hist')))).
Proof.
  intros gs G TT. destruct (run_all gs _ _ _ _ _ _ BI_zero G TT) as [s [o [sh [mh [es [E B]]]]]]. cbn [app] in *. exists s, o. split; auto. intros d Hd.
  assert (OF : forall n, offers n (seen still n [] false)) by (intros n i t _ _ H; discriminate). pose proof (PI_start still sh mh _ es o s B OF) as I.
  assert (TT0 : take_turns N (flat_map g_acts gs ++ [])) by (rewrite app_nil_r; exact TT). destruct (is_noc I TT0 d Hd) as [NC NE].
  pose proof (ft_m _ _ _ _ _ _ FT d Hd) as [GM _]. pose proof (b_ma _ _ _ _ _ _ B d []) as RM. rewrite app_nil_r, load_nil in RM by apply (b_q _ _ _ _ _ _ B).
  destruct (e2e (ms d) cs _ (toward d) (by_type ch) (senders d Hd) (fun q e => noc_fits I d q e Hd) _ NC (mh d) GM (b_mh _ _ _ _ _ _ B d)) as [s1 [o1 [R1 [hist [H1 H2]]]]].
  rewrite RM in R1. injection R1 as <- <-. exists hist. split; [intros q v; rewrite <- (sent_sevs I q); apply H1|]. split; [exact H2|]. intros [A1 [A2 [A3 A4]]].
  assert (DR : TermSpec.drained w es (y_t s)).
  { split; auto. intros n Hn. destruct (A3 n Hn) as [X Y]. split; auto. unfold unread. rewrite (b_read _ _ _ _ _ _ B n). destruct Y as [-> | ->]; [reflexivity|]. destruct (last _ false); reflexivity. }
  assert (ID : forall q, idle (cs q) (sevs (g := still) (sh := sh) (don := []) (cn := fun _ => false) q)).
  { intros q. unfold idle, sevs. destruct (Z.leb_spec 0 q) as [H|H]; [|cbn; auto]. pose proof (p_srun I (Z.to_nat q)) as R. rewrite Z2Nat.id in R by auto. rewrite R. cbn [fst y_sl settled infifo injfifo tobe].
    destruct (Nat.lt_ge_cases (Z.to_nat q) N) as [Hq|Hq]; [apply (A1 _ Hq)|apply (b_out _ _ _ _ _ _ B _ Hq)]. }
  destruct (e2e_rest (ms d) cs _ (toward d) (by_type ch) (senders d Hd) (fun q e => noc_fits I d q e Hd) _ NC (mh d) _ _ GM (b_mh _ _ _ _ _ _ B d) ID (NE DR) RM) as [hist' [H3 H4]].
  - destruct (A4 d Hd) as [X2 [X3 X4]]. split; [apply (b_q _ _ _ _ _ _ B)|]. split; [apply (b_q _ _ _ _ _ _ B)|]. split; auto. intros v. destruct (Nat.lt_ge_cases v (m_nvc (ms d))) as [Hvv|Hvv]; [rewrite X2; auto|].
    pose proof (b_cnt _ _ _ _ _ _ B d v) as C. replace (length (IqRouterSpec.on_vc v (got d (of_net o)))) with 0 in C; [destruct (ejf (y_ma s d) v); [reflexivity|cbn in C; lia]|].
    symmetry. unfold IqRouterSpec.on_vc. rewrite filter_none; [reflexivity|]. intros f Hf.
    destruct (came_at I es _ _ (b_run _ _ _ _ _ _ B) (b_dec _ _ _ _ _ _ B) (turned I TT0) (b_put _ _ _ _ _ _ B) d f Hd Hf) as [_ [_ [_ [Vx [_ Vn]]]]]. rewrite <- Vx. apply Nat.eqb_neq. pose proof (proj2 (ft_m _ _ _ _ _ _ FT d Hd)). lia.
  - exists hist'. split; [intros q v; rewrite <- (sent_sevs I q); apply H3|exact H4].
Qed.

(** ** Packets longer than what the last router may send ahead *)
Lemma filter_shorter : forall A (p : A -> bool) l, length (filter p l) <= length l.
Proof. intros A p l. induction l as [|a l IH]; cbn [filter length]; [lia|]. destruct (p a); cbn [length]; lia. Qed.
(** The first flits of a sequence of long packets have no tail among them. *)
Lemma no_tail : forall (A : Type) (tl : A -> bool) (m : nat) (ps : list (list A)) l, Forall (fun p => m < length p /\ forall j f, nth_error p j = Some f -> tl f = true -> S j = length p) ps ->
  prefix l (concat ps) -> length l <= m -> forall f, In f l -> tl f = false.
Proof.
  intros A tl m ps l F [r E] L f Hf. destruct ps as [|p ps]; [cbn in E; destruct l; [destruct Hf|discriminate]|]. inversion F as [|? ? [F1 F2] _]; subst.
  apply In_nth_error in Hf. destruct Hf as [j Hj]. assert (J : j < length l) by (apply nth_error_Some; congruence). destruct (tl f) eqn:Tf; auto. exfalso.
  assert (Q : nth_error p j = Some f). { rewrite <- (nth_error_app1 p (concat ps)) by lia. cbn [concat] in E. rewrite E, nth_error_app1 by lia. exact Hj. }
  specialize (F2 j f Q Tf). lia.
Qed.
Section Long.
Variable d : nat.
Hypothesis Hd : d < N.
Hypothesis LONG : forall q i, (0 <= q < Z.of_nat N)%Z -> i < s_nif (cs q) -> (vc_size w bz vz < num_flits (s_w (cs q)) (s_dataw (cs q) i))%Z.
Definition untailed (o : list sobs) : Prop := forall f, In f (map bs_flit (got d (of_net o))) -> b_tail f = false.
Lemma none_freed : forall sh mh prev es o s, BI sh mh prev es o s -> take_turns N prev -> (forall v, frees v (of_master d o) = 0) -> untailed o.
Proof.
  intros sh mh prev es o s B TT FR y Hy. assert (OF : forall n, offers n (seen still n [] false)) by (intros n i t _ _ H; discriminate). pose proof (PI_start still sh mh _ es o s B OF) as I.
  assert (TT1 : take_turns N (prev ++ [])) by (rewrite app_nil_r; exact TT).
  assert (CAME := fun f => came_at I es (y_t s) (of_net o) (b_run _ _ _ _ _ _ B) (b_dec _ _ _ _ _ _ B) (turned I TT1) (b_put _ _ _ _ _ _ B) d f Hd).
  destruct (arrived_src I TT1 d y Hd Hy) as (Y1 & Y2 & Y3 & Y4 & Y5). set (m := sr y) in *. set (v := vcn y) in *.
  destruct (carried_at I es (y_t s) (of_net o) (b_run _ _ _ _ _ _ B) (b_dec _ _ _ _ _ _ B) (turned I TT1) (b_put _ _ _ _ _ _ B)) as [C _]. specialize (C d v Hd Y5). rewrite (b_free _ _ _ _ _ _ B), FR in C.
  unfold IqRouterSpec.on_vc in C. rewrite filter_app, app_length in C.
  destruct (is_noc I TT1 d Hd) as [(_ & _ & NC) _]. specialize (NC (Z.of_nat m) v). rewrite (trace_sevs I) in NC. destruct (Z.leb_spec 0 (Z.of_nat m)) as [_|]; [|lia]. rewrite (recv_right I), Nat2Z.id in NC by (auto; lia).
  apply (no_tail _ b_tail (Z.to_nat (vc_size w bz vz)) (map (packet_of (cs (Z.of_nat m))) (filter (fun e => toward d (target (cs (Z.of_nat m)) e) && Nat.eqb (ch (s_type (cs (Z.of_nat m)) (e_iface e))) v) (accepts (of_slave m o)))) (filter (from b_src (Z.of_nat m)) (filter (on_vc v) (map bs_flit (got d (of_net o)))))).
  - apply Forall_forall. intros p Hp. apply in_map_iff in Hp. destruct Hp as [e [<- He]]. apply filter_In in He. destruct He as [He _]. destruct (acc_ok I m e He) as [Ei _].
    destruct (ft_s _ _ _ _ _ _ FT (Z.of_nat m)) as [G _]. rewrite (packet_length (cs (Z.of_nat m)) G e Ei). unfold nflits. pose proof (LONG (Z.of_nat m) (e_iface e) ltac:(lia) Ei). split; [lia|].
    destruct (whole_packet (Z.of_nat m) e Ei) as (_ & WP & _). intros j f0 Hj Tf. apply (WP j f0 Hj) in Tf. rewrite (packet_length (cs (Z.of_nat m)) G e Ei) in Tf. exact Tf.
  - eapply prefix_trans; [exact NC|]. eapply (prefix_trans _ _ (filter (fun f => Nat.eqb (ds f) d && Nat.eqb (vcn f) v) (flat_map (packet_of (cs (Z.of_nat m))) (accepts (of_slave m o))))); [rewrite <- (once I m), filter_app; eexists; reflexivity|].
    rewrite <- flat_map_concat_map. rewrite (filter_flat_map _ _ _ _ (fun e => toward d (target (cs (Z.of_nat m)) e) && Nat.eqb (ch (s_type (cs (Z.of_nat m)) (e_iface e))) v)); [apply prefix_refl|].
    intros e z He Hz. destruct (acc_ok I m e He) as [Ei _]. assert (Hz' : In z (flat_map (packet_of (cs (Z.of_nat m))) (accepts (of_slave m o)))) by (apply in_flat_map; eauto).
    destruct (flit_facts I m z Y2 Hz') as [_ [F2 [F3 F4]]]. destruct (ft_s _ _ _ _ _ _ FT (Z.of_nat m)) as [G _]. destruct (packet_shape (cs (Z.of_nat m)) G e Ei) as (k0 & _ & SH). apply In_nth_error in Hz. destruct Hz as [j Hj]. destruct (SH j z Hj) as (_ & _ & _ & T1 & _ & _ & T2).
    unfold vcn. rewrite F2, Nat2Z.id, T1. f_equal. unfold ds, toward, target. rewrite <- T2. apply eq_true_iff_eq. rewrite Z.eqb_eq, Nat.eqb_eq. lia.
  - assert (LT : length (filter (from b_src (Z.of_nat m)) (filter (on_vc v) (map bs_flit (got d (of_net o))))) <= length (filter (fun f => Nat.eqb (IqRouterModel.f_vc f) v) (got d (of_net o)))).
    { etransitivity; [apply filter_shorter|]. unfold on_vc. rewrite filter_map_comm, map_length. apply Nat.eq_le_incl. f_equal. apply filter_same. intros z Hz. destruct (CAME z Hz) as (_ & _ & _ & -> & _). reflexivity. }
    lia.
  - apply filter_In. split; [|unfold from; apply Z.eqb_eq; exact Y1]. apply filter_In. split; [exact Hy|]. apply Nat.eqb_eq. reflexivity.
Qed.
Lemma all_quiet : forall sh mh prev es o s, BI sh mh prev es o s -> untailed o -> quiet_m (y_ma s d) /\ quiet_obs (of_master d o).
Proof.
  intros sh mh prev es o s B NT. pose proof (b_ma _ _ _ _ _ _ B d []) as R. rewrite app_nil_r in R. pose proof (m_run_arrs _ _ _ _ _ R) as Y. cbn [load inq m_init] in Y. rewrite app_nil_r in Y.
  destruct (quiet_run (ms d) _ _ _ _ R) as (A & C & _); [intros f Hf; apply NT; rewrite <- Y; exact Hf|]. split; auto. constructor; apply A.
Qed.
Lemma sys_snoc : forall l g (s0 s2 : sys P) o2 s3 o3, sys_run w rf cs ms l s0 = Some (s2, o2) -> sys_step w rf cs ms g s2 = Some (s3, o3) -> sys_run w rf cs ms (l ++ [g]) s0 = Some (s3, o2 ++ o3).
Proof.
  intros l g. induction l as [|x l IH]; intros s0 s2 o2 s3 o3 A B.
  - cbn [sys_run app] in *. injection A as <- <-. rewrite B, app_nil_r. reflexivity.
  - cbn [sys_run app] in *. destruct (sys_step w rf cs ms x s0) as [[sa oa]|]; [|discriminate]. destruct (sys_run w rf cs ms l sa) as [[sb ob']|] eqn:Eb; [|discriminate]. injection A as <- <-. rewrite (IH _ _ _ _ _ Eb B), app_assoc. reflexivity.
Qed.
Lemma quiet_frees : forall v o, quiet_obs o -> frees v o = 0.
Proof. intros v o Q. unfold frees. rewrite filter_none; [reflexivity|]. intros x Hx. destruct (Q x Hx) as [f ->]. reflexivity. Qed.
Lemma long_waits : forall gs, Forall (good_ginst w cs ms) gs -> take_turns N (flat_map g_acts gs) ->
  exists sh mh es s o, sys_run w rf cs ms gs (sys0 w cs ms) = Some (s, o) /\ BI sh mh (flat_map g_acts gs) es o s /\ untailed o.
Proof.
  intros gs. induction gs as [|g gs IH] using rev_ind; intros G TT.
  - exists (fun _ => []), (fun _ => []), [], (sys0 w cs ms), []. split; [reflexivity|]. split; [exact BI_zero|]. intros f [].
  - apply Forall_app in G. destruct G as [G1 G2]. inversion G2 as [|? ? Gg _]; subst. rewrite flat_map_app in *. cbn [flat_map] in *. rewrite app_nil_r in *. pose proof (turns_pre _ _ _ TT) as TT0.
    destruct (IH G1 TT0) as (sh & mh & es & s & o & E & H & NT). destruct (run_one g sh mh _ es o s H Gg TT) as (s1 & o1 & es1 & cn1 & av1 & E1 & H1).
    eexists _, _, es1, s1, (o ++ o1). split; [exact (sys_snoc _ _ _ _ _ _ _ E E1)|]. split; [exact H1|]. apply (none_freed _ _ _ _ _ _ H1 TT).
    destruct (all_quiet _ _ _ _ _ _ H NT) as [QM QO]. set (x := map bs_flit (got d (of_net o1))) in *.
    pose proof (b_ma _ _ _ _ _ _ H d x) as R0. pose proof (b_ma _ _ _ _ _ _ H1 d []) as R1. rewrite app_nil_r, of_net_app, got_app, map_app in R1. fold x in R1. rewrite m_run_snoc, R0 in R1. unfold m_step in R1. cbn [mseen mths] in R1.
    match type of R1 with context [m_threads ?a ?b ?c ?e] => destruct (m_threads a b c e) as [[s2 o2]|] eqn:E2; [|discriminate] end. assert (R2 : of_master d (o ++ o1) = of_master d o ++ o2) by congruence. rewrite R2.
    assert (QM0 : quiet_m (load x (y_ma s d))) by (constructor; apply QM). destruct (quiet_threads (ms d) _ _ _ _ _ E2 QM0) as (_ & QO2 & _).
    intros v. rewrite frees_app, !quiet_frees; auto.
Qed.
Theorem stuck : forall gs, Forall (good_ginst w cs ms) gs -> take_turns N (flat_map g_acts gs) ->
  exists (s : sys P) o, sys_run w rf cs ms gs (sys0 w cs ms) = Some (s, o) /\ forall i, seen_at d i o = [].
Proof.
  intros gs G TT. destruct (long_waits gs G TT) as (sh & mh & es & s & o & E & H & NT). exists s, o. split; auto. destruct (all_quiet _ _ _ _ _ _ H NT) as [_ QO]. intros i. unfold seen_at, delivers.
  assert (X : forall l, quiet_obs l -> flat_map (fun x => match x with Deliver j a => if Nat.eqb j i then [a] else [] | _ => [] end) l = []).
  { intros l. induction l as [|a l IHl]; intros Q; [reflexivity|]. cbn [flat_map]. destruct (Q a (or_introl eq_refl)) as [f ->]. apply IHl. intros z Hz. apply Q. right. exact Hz. }
  apply X. exact QO.
Qed.
End Long.
End Sys.
