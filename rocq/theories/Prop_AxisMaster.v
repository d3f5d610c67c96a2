(** C05, C06, C56, C57 : the AXI-S master adapter. *)
From Coq Require Import ZArith Bool List Lia.
From Verif Require Import Bits Fupd AxisFormatModel AxisSlaveModel AxisMasterModel AxisMasterSpec AxisMasterProofs.
Import ListNotations.
Local Open Scope Z_scope.

(** C05. No undefined behaviour occurs, and there is a list [dl] of whole packets such that
    [dl] restricted to a channel is a prefix of the packets sent on that channel, in order,
    and the transactions seen at an interface are a prefix of the contents of the packets of
    [dl] that name this interface.  So packets are never mixed, reordered or duplicated. *)
Theorem C05_whole_once_in_order : forall c input ps evs,
  good_mcfg c -> good_input c input ps -> Forall ok_minstant evs ->
  exists s o, m_run c evs (m_init c input) = Some (s, o) /\
  exists dl : list (nat * list bflit),
    (forall v, exists rest, ps v = map snd (filter (fun x => Nat.eqb (fst x) v) dl) ++ rest) /\
    (forall i, exists rest,
       map (spec_out c) (filter (fun p => Nat.eqb (pkt_iface c p) i) (map snd dl)) = delivers i o ++ rest).
Proof. exact run_safe. Qed.
Print Assumptions C05_whole_once_in_order.

(** Two channels, two interfaces of 64 bits (two flits per packet). *)
Definition ex_mcfg : mcfg :=
  {| m_w := repo_widths; m_nvc := 2; m_nif := 2; m_dataw := fun _ => 64; m_ejdepth := 4; m_obdepth := 2 |}.
Definition ex_bfl (h t : bool) (vc ifc d : Z) : bflit :=
  {| b_head := h; b_tail := t; b_type := 0; b_vc := vc; b_src := 0;
     b_dst := {| bs_node := 1; bs_remote := 1; bs_rad := 0 |}; b_iface := ifc; b_pid := 9; b_data := d |}.
Definition ex_pA : list bflit := [ex_bfl true false 0 1 5; ex_bfl false true 0 1 3].
Definition ex_pB : list bflit := [ex_bfl true false 1 1 7; ex_bfl false true 1 1 2].
Definition ex_ps (v : nat) : list (list bflit) :=
  match v with O => [ex_pA; ex_pA] | S O => [ex_pB] | _ => [] end.
(** The packets of the two channels arrive interleaved, and the third packet lacks its tail. *)
Definition ex_minput : list bflit :=
  [ex_bfl true false 0 1 5; ex_bfl true false 1 1 7; ex_bfl false true 1 1 2; ex_bfl false true 0 1 3;
   ex_bfl true false 0 1 5].
Definition ex_round : list minstant :=
  [ {| mths := [TEject; TOut]; mavail := true; mrdy := fun _ => true |};
    {| mths := [TDepk]; mavail := true; mrdy := fun _ => false |} ].

Lemma ex_wf : wf_packet ex_mcfg ex_pA /\ wf_packet ex_mcfg ex_pB.
Proof.
  split; (unfold wf_packet; split; [discriminate|]; split; [vm_compute; lia|]; split; [vm_compute; lia|]; split;
  [intros [|[|[|j]]] f H; inversion H; subst; cbn; split; intros; (lia || discriminate || auto)
  |intros f [<-|[<-|[]]]; reflexivity]).
Qed.

Lemma ex_good_input : good_input ex_mcfg ex_minput ex_ps.
Proof.
  split.
  - intros f H. repeat destruct H as [<-|H]; try contradiction; unfold vcn; cbn; lia.
  - destruct ex_wf as (A & B). intros [|[|v]].
    + split; [exact (Forall_cons _ A (Forall_cons _ A (Forall_nil _)))|]. exists [ex_bfl false true 0 1 3]. reflexivity.
    + split; [exact (Forall_cons _ B (Forall_nil _))|]. exists []. reflexivity.
    + split; [constructor|]. exists []. reflexivity.
Qed.

Lemma ex_good_mcfg : good_mcfg ex_mcfg.
Proof. split; cbn; lia. Qed.

Example C05_whole_once_in_order_ex :
  good_mcfg ex_mcfg /\ good_input ex_mcfg ex_minput ex_ps /\ Forall ok_minstant (concat (repeat ex_round 9)) /\
  match m_run ex_mcfg (concat (repeat ex_round 9)) (m_init ex_mcfg ex_minput) with
  | Some (_, o) => delivers 1 o = [spec_out ex_mcfg ex_pB; spec_out ex_mcfg ex_pA] /\ delivers 0 o = []
  | None => False
  end /\ spec_out ex_mcfg ex_pA <> spec_out ex_mcfg ex_pB.
Proof.
  split; [exact ex_good_mcfg|]. split; [exact ex_good_input|]. split.
  - repeat constructor; cbn; intuition discriminate.
  - vm_compute. repeat split; try reflexivity. discriminate.
Qed.

(** C05. Every complete packet is delivered: after enough rounds in which the NoC hands over
    a flit, the adapter clock ticks and the module is ready, what has been read and is not
    delivered contains no tail, so is less than one packet per channel. *)
Theorem C05_all_delivered : forall c input ps evs, good_mcfg c -> good_input c input ps -> Forall ok_minstant evs ->
  (1 <= m_obdepth c)%nat -> (forall v p, In p (ps v) -> (length p <= m_ejdepth c)%nat) ->
  (forall v, (m_nvc c <= v)%nat -> ps v = []) ->
  mrounds (5 * length input + 1) evs ->
  exists s o, m_run c evs (m_init c input) = Some (s, o) /\
  exists dl : list (nat * list bflit),
    (forall v, exists rest part, ps v = map snd (filter (fun x => Nat.eqb (fst x) v) dl) ++ rest /\
       filter (on_vc v) input = concat (map snd (filter (fun x => Nat.eqb (fst x) v) dl)) ++ part /\
       (forall f, In f part -> b_tail f = false)) /\
    (forall i, map (spec_out c) (filter (fun p => Nat.eqb (pkt_iface c p) i) (map snd dl)) = delivers i o).
Proof. exact run_progress. Qed.
Print Assumptions C05_all_delivered.

Lemma ex_mrounds : forall n, mrounds n (concat (repeat ex_round n)).
Proof.
  induction n as [|n IH]; [constructor|]. cbn [repeat concat]. constructor; auto.
  - eexists. split; [left; reflexivity|]. split; [left|]; reflexivity.
  - eexists. split; [right; left; reflexivity|]. left; reflexivity.
  - eexists. split; [left; reflexivity|]. split; [right; left; reflexivity|]. reflexivity.
Qed.

Example C05_all_delivered_ex :
  good_mcfg ex_mcfg /\ good_input ex_mcfg ex_minput ex_ps /\ (1 <= m_obdepth ex_mcfg)%nat /\
  (forall v p, In p (ex_ps v) -> (length p <= m_ejdepth ex_mcfg)%nat) /\
  (forall v, (m_nvc ex_mcfg <= v)%nat -> ex_ps v = []) /\
  mrounds (5 * length ex_minput + 1) (concat (repeat ex_round (5 * length ex_minput + 1))) /\
  Forall ok_minstant (concat (repeat ex_round (5 * length ex_minput + 1))).
Proof.
  split; [exact ex_good_mcfg|]. split; [exact ex_good_input|]. split; [cbn; lia|]. split.
  - intros [|[|v]] p H; cbn in H; repeat destruct H as [<-|H]; try contradiction; cbn; lia.
  - split; [|split; [apply ex_mrounds|repeat constructor; cbn; intuition discriminate]].
    intros [|[|v]] H; cbn in *; (lia || reflexivity).
Qed.

(** C06. From any reachable state, whatever arrived: an asserted port keeps its value over
    every sequence of instants in which the module does not accept on that interface, and
    nothing is accepted there meanwhile. *)
Theorem C06_valid_stable : forall c input evs1 evs2 s1 o1 s2 o2 i a,
  m_run c evs1 (m_init c input) = Some (s1, o1) -> port s1 i = Some a ->
  m_run c evs2 s1 = Some (s2, o2) ->
  (forall ev, In ev evs2 -> ~ In TOut (mths ev) \/ mrdy ev i = false) ->
  port s2 i = Some a /\ forall b, ~ In (Deliver i b) o2.
Proof.
  intros c input evs1 evs2 s1 o1 s2 o2 i a E1 P E2 H.
  destruct (run_port c evs1 (m_init c input) s1 o1) as (W & _); [discriminate|exact E1|].
  destruct (run_port c evs2 s1 s2 o2 W E2) as (_ & X). apply X; auto.
Qed.
Print Assumptions C06_valid_stable.

Definition ex_stall : list minstant :=
  [ {| mths := [TOut; TEject; TDepk]; mavail := true; mrdy := fun i => Nat.eqb i 0 |};
    {| mths := [TDepk; TEject]; mavail := true; mrdy := fun _ => true |};
    {| mths := [TDepk; TOut]; mavail := true; mrdy := fun i => Nat.eqb i 0 |} ].
Example C06_valid_stable_ex :
  match m_run ex_mcfg (concat (repeat ex_round 5)) (m_init ex_mcfg ex_minput) with
  | Some (s1, _) =>
    port s1 1%nat = Some (spec_out ex_mcfg ex_pB) /\
    match m_run ex_mcfg ex_stall s1 with Some (s2, _) => outq s2 1%nat <> outq s1 1%nat | None => False end
  | None => False
  end /\
  forall ev, In ev ex_stall -> ~ In TOut (mths ev) \/ mrdy ev 1%nat = false.
Proof.
  split.
  - vm_compute. split; [reflexivity|discriminate].
  - intros ev H. repeat destruct H as [<-|H]; try contradiction; cbn; intuition discriminate.
Qed.

(** C06. A transaction is accepted only where tvalid was asserted before, with the value
    that the port had, at an edge of the interface thread at which the module was ready. *)
Theorem C06_accept_port : forall c input evs s o ev s' o' i a,
  m_run c evs (m_init c input) = Some (s, o) -> m_step c ev s = Some (s', o') -> ok_minstant ev ->
  In (Deliver i a) o' -> port s i = Some a /\ In TOut (mths ev) /\ mrdy ev i = true.
Proof.
  intros c input evs s o ev s' o' i a E1 E2 ND H.
  exact (run_deliver_port c evs (m_init c input) s o (fun _ _ X => ltac:(discriminate X)) E1 ev s' o' i a E2 ND H).
Qed.
Print Assumptions C06_accept_port.

Example C06_accept_port_ex :
  match m_run ex_mcfg (concat (repeat ex_round 5)) (m_init ex_mcfg ex_minput) with
  | Some (s, _) =>
    match m_step ex_mcfg {| mths := [TEject; TOut]; mavail := true; mrdy := fun _ => true |} s with
    | Some (_, o') => In (Deliver 1 (spec_out ex_mcfg ex_pB)) o'
    | None => False
    end
  | None => False
  end.
Proof. vm_compute. left. reflexivity. Qed.

(** C56. The adapter waits for a whole packet in the ejection FIFO before it drains it, so
    packets that do not fit the FIFO are never delivered, for every schedule. *)
Theorem C56_long_packet_stuck : forall c input ps evs, good_mcfg c -> wide_input c input ps ->
  (forall v p, In p (ps v) -> (m_ejdepth c < length p)%nat) ->
  exists s o, m_run c evs (m_init c input) = Some (s, o) /\ forall i, delivers i o = [].
Proof. exact run_jam. Qed.
Print Assumptions C56_long_packet_stuck.

Definition ex_mcfg1 : mcfg :=
  {| m_w := repo_widths; m_nvc := 2; m_nif := 2; m_dataw := fun _ => 64; m_ejdepth := 1; m_obdepth := 2 |}.
Example C56_long_packet_stuck_ex :
  good_mcfg ex_mcfg1 /\ wide_input ex_mcfg1 ex_minput ex_ps /\
  (forall v p, In p (ex_ps v) -> (m_ejdepth ex_mcfg1 < length p)%nat) /\ ex_minput <> [].
Proof.
  split; [split; cbn; lia|]. split; [exact (good_wide _ _ _ ex_good_input)|]. split; [|discriminate].
  intros [|[|v]] p H; cbn in H; repeat destruct H as [<-|H]; try contradiction; cbn; lia.
Qed.

(** A packet of five flits for an interface that needs two, then one of two. *)
Definition ex_pW : list bflit :=
  [ex_bfl true false 0 1 5; ex_bfl false false 0 1 3; ex_bfl false false 0 1 4; ex_bfl false false 0 1 2; ex_bfl false true 0 1 1].
Definition ex_psW (v : nat) : list (list bflit) := match v with O => [ex_pW; ex_pA] | _ => [] end.
Definition ex_mcfgW : mcfg :=
  {| m_w := repo_widths; m_nvc := 2; m_nif := 2; m_dataw := fun _ => 64; m_ejdepth := 5; m_obdepth := 2 |}.

Lemma ex_wide_input : wide_input ex_mcfgW (ex_pW ++ ex_pA) ex_psW.
Proof.
  split.
  - intros f H. repeat destruct H as [<-|H]; try contradiction; unfold vcn; cbn; lia.
  - assert (A : wf_wide ex_mcfgW ex_pW /\ wf_wide ex_mcfgW ex_pA).
    { split; (unfold wf_wide; split; [discriminate|]; split; [vm_compute; lia|]; split; [vm_compute; lia|]; split;
      [intros [|[|[|[|[|[|j]]]]]] f H; inversion H; subst; cbn; split; intros; (lia || discriminate || auto)
      |intros f F; repeat destruct F as [<-|F]; try contradiction; reflexivity]). }
    destruct A as (A & B). intros [|v].
    + split; [exact (Forall_cons _ A (Forall_cons _ B (Forall_nil _)))|]. exists []. reflexivity.
    + split; [constructor|]. exists []. destruct v; reflexivity.
Qed.

(** C57. What the adapter does with packets of any length: C05 holds with every packet shown
    [transfers] times, which is its number of flits divided by those of the receiving interface,
    rounded up; each time the full contents are shown. *)
Theorem C57_delivered_per_transfer : forall c input ps evs, good_mcfg c -> wide_input c input ps -> Forall ok_minstant evs ->
  exists s o, m_run c evs (m_init c input) = Some (s, o) /\
  exists dl : list (nat * list bflit),
    (forall v, exists rest, ps v = map snd (filter (fun x => Nat.eqb (fst x) v) dl) ++ rest) /\
    (forall i, exists rest,
       flat_map (fun p => repeat (spec_out c p) (transfers c p)) (filter (fun p => Nat.eqb (pkt_iface c p) i) (map snd dl)) = delivers i o ++ rest).
Proof. exact run_safe_wide. Qed.
Print Assumptions C57_delivered_per_transfer.

Example C57_delivered_per_transfer_ex :
  good_mcfg ex_mcfgW /\ wide_input ex_mcfgW (ex_pW ++ ex_pA) ex_psW /\ map (transfers ex_mcfgW) [ex_pW; ex_pA] = [3%nat; 1%nat] /\
  match m_run ex_mcfgW (concat (repeat ex_round 12)) (m_init ex_mcfgW (ex_pW ++ ex_pA)) with
  | Some (_, o) => delivers 1 o = [spec_out ex_mcfgW ex_pW; spec_out ex_mcfgW ex_pW]
  | None => False
  end.
Proof. split; [split; cbn; lia|]. split; [exact ex_wide_input|]. split; vm_compute; reflexivity. Qed.

(** C57. And every complete packet is shown that often when time goes on, as in C05. *)
Theorem C57_all_delivered : forall c input ps evs, good_mcfg c -> wide_input c input ps -> Forall ok_minstant evs ->
  (1 <= m_obdepth c)%nat -> (forall v p, In p (ps v) -> (length p <= m_ejdepth c)%nat) ->
  (forall v, (m_nvc c <= v)%nat -> ps v = []) ->
  mrounds (5 * length input + 1) evs ->
  exists s o, m_run c evs (m_init c input) = Some (s, o) /\
  exists dl : list (nat * list bflit),
    (forall v, exists rest part, ps v = map snd (filter (fun x => Nat.eqb (fst x) v) dl) ++ rest /\
       filter (on_vc v) input = concat (map snd (filter (fun x => Nat.eqb (fst x) v) dl)) ++ part /\
       (forall f, In f part -> b_tail f = false)) /\
    (forall i, flat_map (fun p => repeat (spec_out c p) (transfers c p)) (filter (fun p => Nat.eqb (pkt_iface c p) i) (map snd dl)) = delivers i o).
Proof. exact run_progress_wide. Qed.
Print Assumptions C57_all_delivered.

Example C57_all_delivered_ex :
  (forall v p, In p (ex_psW v) -> (length p <= m_ejdepth ex_mcfgW)%nat) /\
  (forall v, (m_nvc ex_mcfgW <= v)%nat -> ex_psW v = []) /\
  match m_run ex_mcfgW (concat (repeat ex_round 36)) (m_init ex_mcfgW (ex_pW ++ ex_pA)) with
  | Some (_, o) => delivers 1 o = [spec_out ex_mcfgW ex_pW; spec_out ex_mcfgW ex_pW; spec_out ex_mcfgW ex_pW; spec_out ex_mcfgW ex_pA]
  | None => False
  end.
Proof.
  split; [|split].
  - intros [|v] p H; cbn in H; repeat destruct H as [<-|H]; try contradiction; cbn; lia.
  - intros [|v] H; cbn in *; (lia || reflexivity).
  - vm_compute. reflexivity.
Qed.

(** The expectation of C57 that a packet is shown once is false: a packet with more flits than the receiving interface expects is not split
    into parts; its full contents are shown once per part. *)
Definition ex_pL : list bflit :=
  [ex_bfl true false 0 1 5; ex_bfl false false 0 1 3; ex_bfl false false 0 1 4; ex_bfl false true 0 1 1].
Theorem C57_single_delivery_refuted :
  ~ (forall c p evs s o, good_mcfg c -> p <> [] -> (pkt_iface c p < m_nif c)%nat ->
       (forall f, In f p -> 0 <= b_vc f < Z.of_nat (m_nvc c)) ->
       (length p <= m_ejdepth c)%nat -> (1 <= m_obdepth c)%nat ->
       (forall j f, nth_error p j = Some f -> (b_tail f = true <-> S j = length p)) ->
       (forall f, In f p -> b_iface f = b_iface (hd f p) /\ b_vc f = b_vc (hd f p)) ->
       Forall ok_minstant evs -> m_run c evs (m_init c p) = Some (s, o) ->
       (length (delivers (pkt_iface c p) o) <= 1)%nat).
Proof.
  intros H.
  assert (L : match m_run ex_mcfg (concat (repeat ex_round 14)) (m_init ex_mcfg ex_pL) with
              | Some (_, o) => length (delivers 1 o) = 2%nat | None => False end) by (vm_compute; reflexivity).
  destruct (m_run ex_mcfg (concat (repeat ex_round 14)) (m_init ex_mcfg ex_pL)) as [[s o]|] eqn:E; [|contradiction].
  rename L into X.
  specialize (H ex_mcfg ex_pL (concat (repeat ex_round 14)) s o ex_good_mcfg).
  change (pkt_iface ex_mcfg ex_pL) with 1%nat in H. rewrite X in H.
  assert (2 <= 1)%nat; [|lia]. apply H; auto; try (cbn; lia).
  - discriminate.
  - intros f F. repeat destruct F as [<-|F]; try contradiction; cbn; lia.
  - intros [|[|[|[|[|j]]]]] f F; inversion F; subst; cbn; split; intros; (lia || discriminate || auto).
  - intros f F. repeat destruct F as [<-|F]; try contradiction; split; reflexivity.
  - repeat constructor; cbn; intuition discriminate.
Qed.
Print Assumptions C57_single_delivery_refuted.

Example C57_single_delivery_refuted_ex :
  match m_run ex_mcfg (concat (repeat ex_round 14)) (m_init ex_mcfg ex_pL) with
  | Some (_, o) => delivers 1 o = [spec_out ex_mcfg ex_pL; spec_out ex_mcfg ex_pL]
  | None => False
  end.
Proof. vm_compute. reflexivity. Qed.
