(** C43-C45, C67, C68: the memory controller between its AXI-MM port and the DRAM. *)
From Coq Require Import ZArith Bool List Lia Permutation.
From Verif Require Import DramBankModel DramCtrlModel DramSpec DramCtrlProofs MemCtrlModel MemCtrlSpec MemDramModel MemCtrlProofs MemCtrlRunProofs MemDramProofs Prop_Dram.
Import ListNotations.
Local Open Scope Z_scope.

(** ** Inputs and configurations for the examples *)
(** Nothing is offered; responses are taken. *)
Definition io : minp := {| i_awvalid := false; i_awaddr := 0; i_awlen := 0; i_awsize := 6; i_wvalid := false; i_wdata := 0; i_wuser := 0;
  i_arvalid := false; i_araddr := 0; i_arlen := 0; i_arsize := 6; i_aruser := 0; i_bready := true; i_rready := true; i_other := false |}.
Definition aw (a len size : Z) (i : minp) : minp := {| i_awvalid := true; i_awaddr := a; i_awlen := len; i_awsize := size; i_wvalid := i_wvalid i; i_wdata := i_wdata i; i_wuser := i_wuser i;
  i_arvalid := i_arvalid i; i_araddr := i_araddr i; i_arlen := i_arlen i; i_arsize := i_arsize i; i_aruser := i_aruser i; i_bready := i_bready i; i_rready := i_rready i; i_other := i_other i |}.
Definition wd (u d : Z) (i : minp) : minp := {| i_awvalid := i_awvalid i; i_awaddr := i_awaddr i; i_awlen := i_awlen i; i_awsize := i_awsize i; i_wvalid := true; i_wdata := d; i_wuser := u;
  i_arvalid := i_arvalid i; i_araddr := i_araddr i; i_arlen := i_arlen i; i_arsize := i_arsize i; i_aruser := i_aruser i; i_bready := i_bready i; i_rready := i_rready i; i_other := i_other i |}.
Definition ar (u a len : Z) (i : minp) : minp := {| i_awvalid := i_awvalid i; i_awaddr := i_awaddr i; i_awlen := i_awlen i; i_awsize := i_awsize i; i_wvalid := i_wvalid i; i_wdata := i_wdata i; i_wuser := i_wuser i;
  i_arvalid := true; i_araddr := a; i_arlen := len; i_arsize := i_arsize i; i_aruser := u; i_bready := i_bready i; i_rready := i_rready i; i_other := i_other i |}.
Definition held (i : minp) : minp := {| i_awvalid := i_awvalid i; i_awaddr := i_awaddr i; i_awlen := i_awlen i; i_awsize := i_awsize i; i_wvalid := i_wvalid i; i_wdata := i_wdata i; i_wuser := i_wuser i;
  i_arvalid := i_arvalid i; i_araddr := i_araddr i; i_arlen := i_arlen i; i_arsize := i_arsize i; i_aruser := i_aruser i; i_bready := i_bready i; i_rready := false; i_other := i_other i |}.
Definition woken (i : minp) : minp := {| i_awvalid := i_awvalid i; i_awaddr := i_awaddr i; i_awlen := i_awlen i; i_awsize := i_awsize i; i_wvalid := i_wvalid i; i_wdata := i_wdata i; i_wuser := i_wuser i;
  i_arvalid := i_arvalid i; i_araddr := i_araddr i; i_arlen := i_arlen i; i_arsize := i_arsize i; i_aruser := i_aruser i; i_bready := i_bready i; i_rready := i_rready i; i_other := true |}.
Definition es_of (l : list minp) : list (bool * minp) := map (fun i => (true, i)) l.
Definition cx : mcfg := {| m_map := fun a => a; m_word := 64; m_iq := 20; m_oq := 20; m_junk := 0 |}.
Definition exq : kcfg := let g := ex_geom ex_params false 1 4 4 in
  {| k_g := g; k_decode := ex_decode g; k_per_bank := true; k_cmdq := 8; k_transq := 32; k_unified := false; k_close_page := false; k_policy := RANK_STAGGERED;
     k_refi := 3900; k_refib := 3900; k_selfref := false; k_sref_threshold := 5; k_dual := true; k_read_delay := 16 |}.
Definition no_mem : Z -> option Z := fun _ => None.
Lemma mrun_is : forall (X : dram) (A : Type) (x : option (mst X * list mev)) (f : mst X -> list mev -> A) v,
  match x with Some (s, l) => Some (f s l) | None => None end = Some v -> exists s l, x = Some (s, l) /\ f s l = v.
Proof. intros X A [[s l]|] f v H; [|discriminate]. injection H as H. eauto. Qed.

(** ** C43 *)
(** The DRAM simulator of C46-C50 is such a DRAM. *)
Theorem C43_dram : forall c, cfg_ok c -> k_selfref c = false -> dram_ok (sim_dram c) ctrl0 (reached c) sim_rd sim_wr.
Proof. exact sim_dram_ok. Qed.
Print Assumptions C43_dram.
Lemma exq_ok : cfg_ok exq.
Proof.
  destruct (ex_cfg_ok ex_params false 1 4 4 RANK_STAGGERED false false ltac:(lia) ltac:(lia) ltac:(lia)) as [H1 H2 H3]. constructor; [exact H1|exact H2|].
  intros i Hi. unfold refresh_interval in Hi. cbn in Hi. injection Hi as <-. discriminate.
Qed.
Example C43_dram_ex : cfg_ok exq /\ k_selfref exq = false.
Proof. split; [exact exq_ok|reflexivity]. Qed.

(** Responses come in the order of the requests, with user and last flag; every request has been answered, or is in one of the queues, and
    what the DRAM has returned does not wait in the controller for anything else. *)
Theorem C43_order : forall X d inv rd wr, dram_ok X d inv rd wr -> forall c mem es s l, mrun X c mem d es = Some (s, l) ->
  map ul (ars l) = map ul (rs l) ++ map ul (ms_orr s) ++ map (fun x => (snd (fst x), snd x)) (ms_ord s) ++ map ul (ms_raq s) /\ (rd (ms_dram s) = [] -> ms_ord s = []).
Proof.
  intros X d inv rd wr DO c mem es s l H. destruct (mrun_good _ _ _ _ _ _ _ DO _ _ _ H) as [_ G]. split; [|exact (no_ord _ _ _ _ _ _ _ G)].
  destruct (mi_ar _ _ _ _ _ _ _ G) as (dn & rest & E1 & E2 & E3). rewrite <- (arsn_ars l 0), E1, map_app, E2, !map_app, !map_map.
  assert (K : map ul (map fst dn) = map ul (rs l ++ ms_orr s)).
  { clear - E3. induction E3 as [|x y p q [Hu _] _ IH]; [reflexivity|]. cbn [map]. rewrite Hu, IH. reflexivity. }
  rewrite map_map in K. rewrite K, map_app, <- !app_assoc. reflexivity.
Qed.
Print Assumptions C43_order.
(** The DRAM completes the reads in the order 0, 0, 1, 16, 17. *)
Example C43_order_ex : exists s l, mrun (sim_dram exq) cx no_mem ctrl0 (es_of ([ar 1 0 0 io; ar 2 16 0 io; ar 3 1 0 io; ar 4 0 0 io; ar 5 17 0 io] ++ repeat io 100)) = Some (s, l) /\
  map ul (rs l) = [(1, true); (2, true); (3, true); (4, true); (5, true)].
Proof. apply mrun_is. vm_compute. reflexivity. Qed.

(** Once the DRAM holds no more reads, and none is offered, all responses are delivered when the other end takes them. *)
Theorem C43_delivered : forall X d inv rd wr, dram_ok X d inv rd wr -> forall c mem es s l es' s' l', mrun X c mem d es = Some (s, l) -> rd (ms_dram s) = [] -> ms_raq s = [] ->
  mrun X c mem d (es ++ es') = Some (s', l') -> Forall (fun x => i_arvalid (snd x) = false /\ i_rready (snd x) = true) es' -> (length (ms_orr s) < length es')%nat ->
  map ul (rs l') = map ul (ars l').
Proof.
  intros X d inv rd wr DO c mem es s l es' s' l' H E1 E2 H' HF HL.
  destruct (drain_run X c mem d inv rd wr DO es' es s l s' l' H (conj E1 E2) H' HF) as (_ & [R1 R2] & R3). destruct R3 as [_ R3]; [intros ->; cbn in HL; lia|].
  destruct (C43_order X d inv rd wr DO c mem _ s' l' H') as [O1 O2]. specialize (O2 R1). rewrite O1, O2, R2. destruct (ms_orr s') as [|x q]; [rewrite !app_nil_r; reflexivity|]. cbn [length] in R3. lia.
Qed.
Print Assumptions C43_delivered.
Example C43_delivered_ex : exists s l, mrun (batch 3) cx no_mem (2%nat, []) (es_of (map held [ar 7 0 2 io; io; io; io; io; io])) = Some (s, l) /\
  rd_of (snd (ms_dram s)) = [] /\ ms_raq s = [] /\ rs l = [] /\ ms_orr s = [(7, 0, false); (7, 0, false); (7, 0, true)].
Proof.
  destruct (mrun_is _ _ (mrun (batch 3) cx no_mem (2%nat, []) (es_of (map held [ar 7 0 2 io; io; io; io; io; io]))) (fun s l => (rd_of (snd (ms_dram s)), ms_raq s, rs l, ms_orr s)) _ ltac:(vm_compute; reflexivity)) as (s & l & E & F).
  exists s, l. injection F as F1 F2 F3 F4. auto.
Qed.

(** No assertion fails and no empty queue is read, if write data are offered only for write addresses taken before. *)
Theorem C43_no_abort : forall X d inv rd wr, dram_ok X d inv rd wr -> forall c mem es, announced X c mem d es -> mrun X c mem d es <> None.
Proof. intros X d inv rd wr DO c mem es H. destruct (mrun_total _ _ _ _ _ _ _ DO _ H) as (s & l & E & _). congruence. Qed.
Print Assumptions C43_no_abort.
Lemma announced_nil : forall X c mem d, announced X c mem d [].
Proof. intros X c mem d es1 o i es2 s l E. destruct es1; discriminate. Qed.
Lemma announced_snoc : forall X c mem d es o i, announced X c mem d es -> (forall s l, mrun X c mem d es = Some (s, l) -> i_wvalid i = true -> (length (ws l) < length (aws l))%nat) -> announced X c mem d (es ++ [(o, i)]).
Proof.
  intros X c mem d es o i H HS es1 o1 i1 es2 s l E. destruct es2 as [|y es2] using rev_ind.
  - apply app_inj_tail in E. destruct E as [<- E]. injection E as <- <-. apply HS.
  - clear IHes2. rewrite app_comm_cons, app_assoc in E. apply app_inj_tail in E. destruct E as [E _]. apply (H _ _ _ _ _ _ E).
Qed.
Example C43_no_abort_ex : announced (batch 1) cx no_mem (0%nat, []) (es_of [aw 0 0 6 io; aw 64 0 6 (wd 1 11 io); wd 2 12 io]).
Proof.
  apply (announced_snoc _ _ _ _ (es_of [aw 0 0 6 io; aw 64 0 6 (wd 1 11 io)])); [apply (announced_snoc _ _ _ _ (es_of [aw 0 0 6 io])); [apply (announced_snoc _ _ _ _ []); [apply announced_nil|]|]|]; intros s l H Hw; [discriminate| |].
  - assert (K : match mrun (batch 1) cx no_mem (0%nat, []) (es_of [aw 0 0 6 io]) with Some (_, l) => Some (length (ws l), length (aws l)) | None => None end = Some (0, 1)%nat) by (vm_compute; reflexivity). rewrite H in K. injection K as -> ->. lia.
  - assert (K : match mrun (batch 1) cx no_mem (0%nat, []) (es_of [aw 0 0 6 io; aw 64 0 6 (wd 1 11 io)]) with Some (_, l) => Some (length (ws l), length (aws l)) | None => None end = Some (1, 2)%nat) by (vm_compute; reflexivity). rewrite H in K. injection K as -> ->. lia.
Qed.
(** Write data beyond the addresses are taken because the occupancy signal is a cycle old, and then the front of an empty queue is read. *)
Theorem C43_refuted : exists c es, mrun (batch 1) c no_mem (0%nat, []) es = None.
Proof. exists cx, (es_of [aw 0 0 6 io; wd 1 11 io; wd 2 12 io]). vm_compute. reflexivity. Qed.
Print Assumptions C43_refuted.

(** ** C44 *)
(** The stores are the first of the writes, in order, the i-th data at the i-th address; the rest is in the queues; the memory holds the result. *)
Theorem C44_stored : forall X d inv rd wr, dram_ok X d inv rd wr -> forall c mem es s l, mrun X c mem d es = Some (s, l) ->
  stores l = map (fun x => (w_addr x, w_data x)) (firstn (length (stores l)) (writes l)) /\ (length (stores l) + length (ms_owr s) + length (ms_wdq s) = length (ws l))%nat /\
  (length (stores l) + length (ms_owr s) + length (ms_waq s) = length (aws l))%nat /\ length (wr (ms_dram s)) = length (ms_owr s) /\
  forall a, word_at (ms_mem s) a = value mem (stores l) a.
Proof.
  intros X d inv rd wr DO c mem es s l H. destruct (mrun_good _ _ _ _ _ _ _ DO _ _ _ H) as [_ G]. pose proof (stored_length _ _ _ _ _ _ _ G) as HL.
  destruct (wr_stored _ _ _ _ _ _ _ G) as (F1 & _ & _ & F2 & F3 & F4 & _). split; [exact F1|]. split; [rewrite F3, !app_length, !map_length, HL; lia|].
  split; [rewrite F2, !app_length, combine_length, !map_length, F4, HL; lia|]. split; [exact F4|]. exact (mi_mem _ _ _ _ _ _ _ G).
Qed.
Print Assumptions C44_stored.
Example C44_stored_ex : exists s l, mrun (sim_dram exq) cx no_mem ctrl0 (es_of ([aw 0 1 6 io; aw 0 0 6 (wd 1 11 io); wd 1 12 io; wd 2 13 io] ++ repeat io 10)) = Some (s, l) /\
  stores l = [(0, 11); (64, 12); (0, 13)] /\ word_at (ms_mem s) 0 = 13.
Proof.
  destruct (mrun_is _ _ (mrun (sim_dram exq) cx no_mem ctrl0 (es_of ([aw 0 1 6 io; aw 0 0 6 (wd 1 11 io); wd 1 12 io; wd 2 13 io] ++ repeat io 10))) (fun s l => (stores l, word_at (ms_mem s) 0)) _ ltac:(vm_compute; reflexivity)) as (s & l & E & F).
  exists s, l. injection F as F1 F2. auto.
Qed.
(** A burst that is taken is [awlen]+1 times the words of a beat, from the base upwards; the last one is marked. *)
Theorem C44_burst : forall X d c mem es s l o i s' e, mrun X c mem d es = Some (s, l) -> edge X c o i s = Some (s', e) -> aws e <> [] ->
  0 < m_word c -> 0 <= i_awsize i <= 7 -> 0 <= i_awlen i < 256 -> 0 <= i_awaddr i ->
  let n := (2 ^ i_awsize i + m_word c - 1) / m_word c * (i_awlen i + 1) in n * m_word c < 2 ^ 32 -> i_awaddr i + n * m_word c < 2 ^ 64 ->
  aws e = map (fun b => (m_map c (i_awaddr i + Z.of_nat b * m_word c), Z.of_nat b =? n - 1)) (seq 0 (Z.to_nat n)).
Proof.
  intros X d c mem es s l o i s' e _ HE Hne Hw Hs Hl Ha n Hn Hb. rewrite (edge_aw _ _ _ _ _ _ _ HE) in *. destruct (_ && _); [|congruence]. unfold slots, burst_size. fold n.
  assert (P : 0 < 2 ^ i_awsize i <= 2 ^ 7) by (split; [apply Z.pow_pos_nonneg; lia|apply Z.pow_le_mono_r; lia]).
  assert (Hn0 : 0 <= n) by (apply Z.mul_nonneg_nonneg; [apply Z.div_pos; lia|lia]).
  assert (Hn1 : n < 2 ^ 32) by nia. replace (u32 n) with n by (unfold u32; rewrite Z.mod_small by lia; reflexivity). apply map_ext_in. intros b Hin. apply in_seq in Hin.
  assert (Hbm : 0 <= Z.of_nat b * m_word c < n * m_word c) by nia. unfold u32, m_u64. rewrite (Z.mod_small (Z.of_nat b * m_word c)) by lia. rewrite Z.mod_small by lia. reflexivity.
Qed.
Print Assumptions C44_burst.
Example C44_burst_ex : exists s l s' e, mrun (batch 1) cx no_mem (0%nat, []) [] = Some (s, l) /\ edge (batch 1) cx true (aw 640 1 7 io) s = Some (s', e) /\ aws e = [(640, false); (704, false); (768, false); (832, true)].
Proof.
  eexists _, _. destruct (mrun_is _ _ (edge (batch 1) cx true (aw 640 1 7 io) (mst0 (batch 1) cx no_mem (0%nat, []))) (fun s e => aws e) _ ltac:(vm_compute; reflexivity)) as (s' & e & E & F).
  exists s', e. split; [reflexivity|]. auto.
Qed.
(** When a beat is wider than a word, a burst takes more addresses than it has data: the data of the next burst go to the rest of the first. *)
Theorem C44_refuted : exists es s l, mrun (batch 1) cx no_mem (0%nat, []) es = Some (s, l) /\ es = es_of ([aw 0 0 7 io; wd 1 11 io; aw 640 0 7 io; wd 2 12 io] ++ repeat io 4) /\ stores l = [(0, 11); (64, 12)].
Proof.
  destruct (mrun_is _ _ (mrun (batch 1) cx no_mem (0%nat, []) (es_of ([aw 0 0 7 io; wd 1 11 io; aw 640 0 7 io; wd 2 12 io] ++ repeat io 4))) (fun s l => stores l) _ ltac:(vm_compute; reflexivity)) as (s & l & E & F).
  eexists _, s, l. split; [exact E|]. auto.
Qed.
Print Assumptions C44_refuted.

(** ** C45 *)
(** A read that is taken after the response to the burst of a write to its address has been returned gets the data of that write or of a later
    one to the address. *)
Theorem C45_fresh : forall X d inv rd wr, dram_ok X d inv rd wr -> forall c mem es s l l1 u a b l2 i w r, mrun X c mem d es = Some (s, l) -> l = l1 ++ EvAR u a b :: l2 ->
  nth_error (writes l) i = Some w -> w_addr w = a -> (length (filter w_last (firstn i (writes l))) < length (bs l1))%nat ->
  nth_error (rs l) (length (ars l1)) = Some r ->
  ul r = (u, b) /\ exists i' w', (i <= i')%nat /\ nth_error (writes l) i' = Some w' /\ w_addr w' = a /\ snd (fst r) = w_data w'.
Proof.
  intros X d inv rd wr DO c mem es s l l1 u a b l2 i w r H El Ew Ea Hi Er. destruct (mrun_good _ _ _ _ _ _ _ DO _ _ _ H) as [_ G].
  destruct (wr_stored _ _ _ _ _ _ _ G) as (F1 & L1 & L2 & F2 & F3 & _). pose proof (mi_pre _ _ _ _ _ _ _ G l1 _ El) as HP. destruct (mi_ar _ _ _ _ _ _ _ G) as (dn & rest & E1 & _ & E3).
  assert (En : nth_error (arsn_from 0 l) (length (ars l1)) = Some (u, a, b, length (stores l1))).
  { rewrite El, arsn_app. cbn [arsn_from]. rewrite nth_error_app2 by (rewrite <- (arsn_ars l1 0), map_length; lia). rewrite <- (arsn_ars l1 0), map_length, Nat.sub_diag. reflexivity. }
  assert (HK : forall k, (k <= length (stores l))%nat -> length (filter snd (firstn k (aws l))) = length (filter w_last (firstn k (writes l)))).
  { intros k Hk. unfold writes. assert (Hl1 : (k <= length (aws l))%nat) by lia. assert (Hl2 : (k <= length (ws l))%nat) by lia. clear - Hl1 Hl2. revert Hl1 Hl2. generalize (aws l) (ws l). induction k as [|k IH]; intros p q Hp Hq; [reflexivity|].
    destruct p as [|x p]; cbn in Hp; [lia|]. destruct q as [|y q]; cbn in Hq; [lia|]. cbn [firstn combine filter]. unfold w_last at 1. cbn [fst]. specialize (IH p q ltac:(lia) ltac:(lia)). destruct (snd x); cbn [length]; rewrite IH; reflexivity. }
  assert (Hs1 : (length (stores l1) <= length (stores l))%nat) by (rewrite El, stores_app, app_length; lia).
  assert (Hlt : (i < length (stores l1))%nat).
  { destruct (Nat.lt_ge_cases i (length (stores l1))) as [|Hge]; [assumption|]. exfalso. rewrite HK in HP by exact Hs1. pose proof (filter_firstn_mono _ w_last (writes l) _ _ Hge). lia. }
  assert (Hd : nth_error dn (length (ars l1)) = Some (u, a, b, length (stores l1)) /\ ok_resp mem (stores l) (u, a, b, length (stores l1)) r).
  { assert (Er' : nth_error (rs l ++ ms_orr s) (length (ars l1)) = Some r) by (rewrite nth_error_app1 by (apply nth_error_Some; congruence); exact Er).
    assert (Hld : length dn = length (rs l ++ ms_orr s)) by (clear - E3; induction E3; [reflexivity|]; cbn [length]; congruence).
    assert (Hnd : nth_error dn (length (ars l1)) = Some (u, a, b, length (stores l1))).
    { rewrite E1, nth_error_app1 in En; [exact En|]. rewrite Hld. apply nth_error_Some. congruence. }
    split; [exact Hnd|]. revert Hnd Er'. generalize (length (ars l1)) as k. revert E3. generalize (rs l ++ ms_orr s). clear. intros q E3. induction E3 as [|x y p q Hx _ IH]; intros [|k] A B; try discriminate; [|eapply IH; eauto].
    injection A as <-. injection B as <-. exact Hx. }
  destruct Hd as (_ & Hu & n & Hn & Hv). cbn [fst snd] in *. split; [symmetry; exact Hu|].
  assert (Hst : nth_error (firstn n (stores l)) i = Some (a, w_data w)).
  { assert (Hst : nth_error (stores l) i = Some (a, w_data w)).
    { rewrite F1. unfold stored. assert (Hf : nth_error (firstn (length (stores l)) (writes l)) i = Some w).
      { rewrite <- Ew. rewrite <- (firstn_skipn (length (stores l)) (writes l)) at 2. symmetry. apply nth_error_app1. rewrite firstn_length. assert (i < length (writes l))%nat by (apply nth_error_Some; congruence). lia. }
      rewrite (map_nth_error _ _ _ Hf), Ea. reflexivity. }
    rewrite <- Hst. rewrite <- (firstn_skipn n (stores l)) at 2. symmetry. apply nth_error_app1. rewrite firstn_length. lia. }
  destruct (value_after mem _ _ _ _ Hst) as (i' & Hle & Hi').
  assert (Hi'' : nth_error (stores l) i' = Some (a, snd (fst r))).
  { rewrite <- (firstn_skipn n (stores l)). rewrite nth_error_app1 by (apply nth_error_Some; congruence). rewrite Hi', Hv. reflexivity. }
  rewrite F1 in Hi''. rewrite nth_error_map in Hi''. destruct (nth_error (stored l) i') as [w'|] eqn:Ew'; [|discriminate]. injection Hi'' as G1 G2. exists i', w'. split; [exact Hle|]. split; [|split; [exact G1|symmetry; exact G2]].
  unfold stored in Ew'. rewrite <- (firstn_skipn (length (stores l)) (writes l)). rewrite nth_error_app1 by (apply nth_error_Some; congruence). exact Ew'.
Qed.
Print Assumptions C45_fresh.
Example C45_fresh_ex : exists s l l1 l2, mrun (sim_dram exq) cx no_mem ctrl0 (es_of ([aw 0 0 6 io; wd 1 11 io] ++ repeat io 8 ++ [ar 5 0 0 io] ++ repeat io 60)) = Some (s, l) /\ l = l1 ++ EvAR 5 0 true :: l2 /\
  nth_error (writes l) 0 = Some (0, true, (1, 11)) /\ (length (filter w_last (firstn 0 (writes l))) < length (bs l1))%nat /\ nth_error (rs l) (length (ars l1)) = Some (5, 11, true).
Proof.
  destruct (mrun_is _ _ (mrun (sim_dram exq) cx no_mem ctrl0 (es_of ([aw 0 0 6 io; wd 1 11 io] ++ repeat io 8 ++ [ar 5 0 0 io] ++ repeat io 60))) (fun s l => l) _ ltac:(vm_compute; reflexivity)) as (s & l & E & F).
  exists s, l, [EvAW 0 true; EvW 1 11; EvStore 0 11; EvB 1], [EvR 5 11 true]. split; [exact E|]. rewrite F. repeat split. cbn. lia.
Qed.

(** ** C67 *)
(** There are never more write responses than bursts whose last word has been stored. *)
Theorem C67_after : forall X d inv rd wr, dram_ok X d inv rd wr -> forall c mem es s l l1 l2, mrun X c mem d es = Some (s, l) -> l = l1 ++ l2 ->
  (length (bs l1) <= length (filter snd (firstn (length (stores l1)) (aws l))))%nat.
Proof. intros X d inv rd wr DO c mem es s l l1 l2 H E. destruct (mrun_good _ _ _ _ _ _ _ DO _ _ _ H) as [_ G]. exact (mi_pre _ _ _ _ _ _ _ G l1 l2 E). Qed.
Print Assumptions C67_after.
Example C67_after_ex : exists s l, mrun (batch 1) cx no_mem (0%nat, []) (es_of [aw 0 1 6 io; wd 1 11 io; wd 1 12 io; io; io; io]) = Some (s, l) /\
  l = [EvAW 0 false; EvAW 64 true; EvW 1 11; EvW 1 12; EvStore 0 11; EvStore 64 12] ++ [EvB 1].
Proof. apply mrun_is. vm_compute. reflexivity. Qed.
(** They have the users of the bursts in order, if Assign runs at every edge. *)
Theorem C67_users : forall X d inv rd wr, dram_ok X d inv rd wr -> forall c mem es s l, mrun X c mem d es = Some (s, l) -> Forall (fun x => i_other (snd x) = true) es ->
  bs l = firstn (length (bs l)) (map w_user (filter w_last (firstn (length (stores l)) (writes l)))).
Proof. intros X d inv rd wr DO c mem es s l H HF. apply (woken_run X c mem d inv rd wr DO es s l H HF). Qed.
Print Assumptions C67_users.
Definition stream : list minp := [aw 0 0 6 io; aw 64 0 6 (wd 1 11 io); aw 128 0 6 (wd 2 12 io); aw 192 0 6 (wd 3 13 io); aw 256 0 6 (wd 4 14 io); wd 5 15 io; io; io; io; io; io; io].
Example C67_users_ex : exists s l, mrun (sim_dram exq) cx no_mem ctrl0 (es_of (map woken stream)) = Some (s, l) /\ Forall (fun x => i_other (snd x) = true) (es_of (map woken stream)) /\ bs l = [1; 2; 3; 4; 5].
Proof.
  destruct (mrun_is _ _ (mrun (sim_dram exq) cx no_mem ctrl0 (es_of (map woken stream))) (fun s l => bs l) _ ltac:(vm_compute; reflexivity)) as (s & l & E & F). exists s, l. split; [exact E|]. split; [|exact F]. repeat constructor.
Qed.
(** Otherwise not: a stream of writes gets the response address of the third burst twice and that of the fourth never. *)
Theorem C67_refuted : exists s l, mrun (sim_dram exq) cx no_mem ctrl0 (es_of stream) = Some (s, l) /\ map w_user (filter w_last (firstn (length (stores l)) (writes l))) = [1; 2; 3; 4; 5] /\ bs l = [1; 2; 3; 3; 5].
Proof.
  destruct (mrun_is _ _ (mrun (sim_dram exq) cx no_mem ctrl0 (es_of stream)) (fun s l => (map w_user (filter w_last (firstn (length (stores l)) (writes l))), bs l)) _ ltac:(vm_compute; reflexivity)) as (s & l & E & F).
  exists s, l. injection F as F1 F2. auto.
Qed.
Print Assumptions C67_refuted.

(** ** C68 *)
(** A write address offered while awready is high is taken. *)
Theorem C68_taken : forall X c mem d es s l o i s' e, 16 <= m_iq c < 2 ^ 32 -> mrun X c mem d es = Some (s, l) -> edge X c o i s = Some (s', e) -> i_awvalid i = true -> ms_awready s = true ->
  aws e = slots c (i_awaddr i) (i_awlen i) (i_awsize i).
Proof.
  intros X c mem d es s l o i s' e Hq H HE Hv Hr. rewrite (edge_aw _ _ _ _ _ _ _ HE), Hv. rewrite (awready_run _ _ _ _ _ _ _ H) in Hr. apply Z.ltb_lt in Hr. unfold u32 in Hr. rewrite Z.mod_small in Hr by lia.
  assert (Hl : (ms_waocc s <? m_iq c) = true) by (apply Z.ltb_lt; lia). rewrite Hl. reflexivity.
Qed.
Print Assumptions C68_taken.
Example C68_taken_ex : exists s l, mrun (batch 1) cx no_mem (0%nat, []) (es_of [aw 0 1 6 io]) = Some (s, l) /\ ms_awready s = true.
Proof. apply mrun_is. vm_compute. reflexivity. Qed.
(** It is also taken while awready is low: an address that is held until awready is taken several times. *)
Theorem C68_refuted : exists s l s' e, mrun (batch 1) cx no_mem (0%nat, []) (es_of [aw 0 7 6 io; aw 640 0 6 io]) = Some (s, l) /\ ms_awready s = false /\
  edge (batch 1) cx true (aw 640 0 6 io) s = Some (s', e) /\ aws l = map (fun x => (64 * x, x =? 7)) [0; 1; 2; 3; 4; 5; 6; 7] ++ [(640, true)] /\ aws e = [(640, true)].
Proof.
  destruct (mrun_is _ _ (mrun (batch 1) cx no_mem (0%nat, []) (es_of [aw 0 7 6 io; aw 640 0 6 io]))
    (fun s l => (ms_awready s, aws l, match edge (batch 1) cx true (aw 640 0 6 io) s with Some (_, e) => Some (aws e) | None => None end)) _ ltac:(vm_compute; reflexivity)) as (s & l & E & F).
  injection F as F1 F2 F3. destruct (edge (batch 1) cx true (aw 640 0 6 io) s) as [[s' e]|] eqn:Ee; [|discriminate]. injection F3 as F3. exists s, l, s', e. split; [exact E|]. split; [exact F1|]. split; [exact Ee|]. split; [rewrite F2; reflexivity|exact F3].
Qed.
Print Assumptions C68_refuted.
(** A read address is lost although arready is high: the number of outstanding requests falls before that of waiting responses rises. *)
Theorem C68_lost_refuted : exists es s l s' e i, mrun (batch 41) cx no_mem (40%nat, []) es = Some (s, l) /\ ms_arready s = true /\ i_arvalid i = true /\ edge (batch 41) cx true i s = Some (s', e) /\ e = [].
Proof.
  set (es := es_of (map held (ar 1 0 29 io :: repeat io 40))). set (i := held (ar 2 0 0 io)).
  destruct (mrun_is _ _ (mrun (batch 41) cx no_mem (40%nat, []) es) (fun s l => (ms_arready s, match edge (batch 41) cx true i s with Some (_, e) => Some e | None => None end)) _ ltac:(vm_compute; reflexivity)) as (s & l & E & F).
  injection F as F1 F2. destruct (edge (batch 41) cx true i s) as [[s' e]|] eqn:Ee; [|discriminate]. injection F2 as F2. exists es, s, l, s', e, i. repeat split; assumption.
Qed.
Print Assumptions C68_lost_refuted.
