(** C02, C03, C04 : the AXI-S slave adapter. *)
From Coq Require Import ZArith Bool List Lia.
From Verif Require Import Bits AxisFormatModel AxisSlaveModel AxisSlaveSpec AxisSlaveProofs.
Import ListNotations.
Local Open Scope Z_scope.

(** C02. The flits injected are a prefix of the packets of the accepted transactions, in
    acceptance order, and what is missing is what the buffers hold: nothing is missing when
    they are empty.  All schedules, including ones with several edges per instant. *)
Theorem C02_exactly_once : forall c, good_scfg c -> forall evs s o,
  s_run c evs (s_init c) = (s, o) ->
  exists rest, flat_map (packet_of c) (accepts o) = injects o ++ rest /\
    (infifo s = [] -> injfifo s = [] -> tobe s = None -> rest = []).
Proof. exact exactly_once_full. Qed.
Print Assumptions C02_exactly_once.

(** A schedule on two interfaces with a stall: the 64-bit packet leaves, the 512-bit one is under way. *)
Definition ex_evs : list instant :=
  [ ex_inst [TIface] (Some (1%nat, ex_txn 77)) 5 false;
    ex_inst [TPack; TIface] (Some (0%nat, ex_txn 88)) 6 false;
    ex_inst [TInj; TPack] None 0 false;
    ex_inst [TPack; TInj] None 0 true;
    ex_inst [TInj; TPack] None 0 true ].
Example C02_exactly_once_ex :
  good_scfg ex_scfg /\
  let '(s, o) := s_run ex_scfg ex_evs (s_init ex_scfg) in
  map e_id (accepts o) = [5; 6] /\ map b_pid (injects o) = [5; 5] /\
  map b_head (injects o) = [true; false] /\ map b_tail (injects o) = [false; true] /\
  length (packet_of ex_scfg {| e_txn := ex_txn 88; e_id := 6; e_iface := 0 |}) = 8%nat.
Proof.
  split.
  - unfold good_scfg. cbn. repeat split; try lia; destruct i; lia.
  - vm_compute. repeat split; reflexivity.
Qed.

(** C02. The shape of the packet of one transaction: one head first, one tail last, all flits
    with the id, type, source and destination of the transaction. *)
Theorem C02_packet_shape : forall c, good_scfg c -> forall e, (e_iface e < s_nif c)%nat ->
  exists n, length (packet_of c e) = S n /\
  forall j f, nth_error (packet_of c e) j = Some f ->
    (b_head f = true <-> j = 0%nat) /\ (b_tail f = true <-> j = n) /\
    b_pid f = e_id e /\ b_type f = s_type c (e_iface e) /\
    b_src f = s_node c /\ b_iface f = iface_of_tid (s_w c) (t_tid (e_txn e)) /\
    b_dst f = to_booksim_dest (s_w c) (s_rad c) (s_portal c) (t_dest (e_txn e)).
Proof. exact packet_shape. Qed.
Print Assumptions C02_packet_shape.

Example C02_packet_shape_ex :
  (1 < s_nif ex_scfg)%nat /\
  map (fun f => (b_head f, b_tail f, b_pid f, b_src f, b_iface f))
    (packet_of ex_scfg {| e_txn := ex_txn 88; e_id := 6; e_iface := 1 |}) =
  [(true, false, 6, 3, 1); (false, true, 6, 3, 1)].
Proof. vm_compute. split; [lia|reflexivity]. Qed.

(** C02. The packet carries the accepted payload. *)
Theorem C02_packet_payload : forall c, good_scfg c -> forall e, (e_iface e < s_nif c)%nat ->
  0 <= t_user (e_txn e) < 2 ^ userw (s_w c) -> 0 <= t_data (e_txn e) < 2 ^ s_dataw c (e_iface e) ->
  unpack (s_w c) (reassemble (s_w c) (map b_data (packet_of c e))) =
  (t_last (e_txn e), t_user (e_txn e), t_data (e_txn e)).
Proof. exact packet_payload. Qed.
Print Assumptions C02_packet_payload.

Example C02_packet_payload_ex :
  let e := {| e_txn := ex_txn (2 ^ 500 + 9); e_id := 6; e_iface := 0 |} in
  0 <= t_user (e_txn e) < 2 ^ userw (s_w ex_scfg) /\
  0 <= t_data (e_txn e) < 2 ^ s_dataw ex_scfg (e_iface e) /\
  unpack (s_w ex_scfg) (reassemble (s_w ex_scfg) (map b_data (packet_of ex_scfg e))) = (true, 5, 2 ^ 500 + 9).
Proof. vm_compute. repeat split; reflexivity || discriminate. Qed.

(** C02. Progress: everything accepted so far has left after enough rounds, whatever else is
    accepted meanwhile. A round is a stretch of the schedule with one packetiser edge and one
    NoC edge at which the NoC has room. *)
Theorem C02_progress : forall c, good_scfg c -> (1 <= s_depth c)%nat ->
  forall evs1 evs2 s1 o1 s2 o2 n,
  s_run c evs1 (s_init c) = (s1, o1) -> s_run c evs2 s1 = (s2, o2) ->
  rounds n evs2 -> (3 * length (flat_map (packet_of c) (accepts o1)) <= n)%nat ->
  exists more, injects (o1 ++ o2) = flat_map (packet_of c) (accepts o1) ++ more.
Proof. exact progress. Qed.
Print Assumptions C02_progress.

Definition ex_round : list instant := [ex_inst [TPack] None 0 false; ex_inst [TInj] None 0 true].
Lemma ex_rounds : forall n, rounds n (concat (repeat ex_round n)).
Proof.
  induction n; cbn [repeat concat]; constructor; auto.
  - exists (ex_inst [TPack] None 0 false). cbn. auto.
  - exists (ex_inst [TInj] None 0 true). cbn. auto.
Qed.
Example C02_progress_ex :
  (1 <= s_depth ex_scfg)%nat /\ rounds 30 (concat (repeat ex_round 30)) /\
  length (flat_map (packet_of ex_scfg) (accepts (snd (s_run ex_scfg ex_evs (s_init ex_scfg))))) = 10%nat.
Proof. split; [cbn; lia|]. split; [apply ex_rounds|]. vm_compute. reflexivity. Qed.

(** C03. At most one interface is accepted per node edge, and no FIFO exceeds its size. *)
Theorem C03_bounds : forall c evs s o, Forall ok_instant evs ->
  s_run c evs (s_init c) = (s, o) ->
  (length (infifo s) <= 2)%nat /\ (length (injfifo s) <= s_depth c)%nat.
Proof. exact bounds. Qed.
Print Assumptions C03_bounds.

(** Two accepted transactions fill the capture FIFO, the third has to wait. *)
Example C03_bounds_ex :
  let ev id := ex_inst [TIface] (Some (0%nat, ex_txn id)) id true in
  Forall ok_instant [ev 1; ev 2; ev 3] /\
  let '(s, o) := s_run ex_scfg [ev 1; ev 2; ev 3] (s_init ex_scfg) in
  map e_id (infifo s) = [1; 2] /\ map e_id (accepts o) = [1; 2].
Proof.
  split; [|vm_compute; auto].
  repeat constructor; cbn; intuition.
Qed.

Theorem C03_one_ready : forall c ev s s' o, ok_instant ev -> s_step c ev s = (s', o) ->
  (length (accepts o) <= 1)%nat.
Proof. exact one_accept. Qed.
Print Assumptions C03_one_ready.

(** Both interfaces request in the same instant, one is accepted. *)
Example C03_one_ready_ex :
  let ev := {| ths := [TIface]; inp := fun _ => Some (ex_txn 1); new_id := 4; can := true |} in
  ok_instant ev /\ map e_iface (accepts (snd (s_step ex_scfg ev (s_init ex_scfg)))) = [0%nat].
Proof. split; [repeat constructor; cbn; intuition|reflexivity]. Qed.

(** C04 as stated is false: with interface 0 always requesting, interface 1 is never accepted,
    although every clock ticks in every instant and the NoC always has room. *)
Theorem C04_no_starvation_refuted : forall n, exists evs, length evs = n /\
  (forall ev, In ev evs -> ok_instant ev /\ inp ev 1%nat <> None /\
     ths ev = [TIface; TPack; TInj] /\ can ev = true) /\
  forall s o, s_run ex_scfg evs (s_init ex_scfg) = (s, o) ->
  forall e, In e (accepts o) -> e_iface e <> 1%nat.
Proof. exact starvation. Qed.
Print Assumptions C04_no_starvation_refuted.

(** In that schedule transactions of interface 0 do flow. *)
Example C04_no_starvation_refuted_ex :
  map e_iface (accepts (snd (s_run ex_scfg (starve_evs 40) (s_init ex_scfg)))) = [0; 0; 0; 0; 0; 0]%nat.
Proof. vm_compute. reflexivity. Qed.

(** What does hold: the arbitration is a fixed priority. Only the lowest requesting
    interface is ever accepted ... *)
Theorem C04_fixed_priority : forall c evs ev s s' o o' e,
  s_run c evs (s_init c) = (s, o) -> s_step c ev s = (s', o') -> In e (accepts o') ->
  (e_iface e < s_nif c)%nat /\ inp ev (e_iface e) = Some (e_txn e) /\
  forall j, (j < e_iface e)%nat -> inp ev j = None.
Proof. exact run_accept_lowest. Qed.
Print Assumptions C04_fixed_priority.

Example C04_fixed_priority_ex :
  let ev := {| ths := [TIface]; inp := fun i => match i with O => None | _ => Some (ex_txn 1) end; new_id := 4; can := true |} in
  map e_iface (accepts (snd (s_step ex_scfg ev (s_init ex_scfg)))) = [1%nat].
Proof. reflexivity. Qed.

(** ... and it is accepted at the next node clock edge unless a buffer was full. *)
Theorem C04_lowest_served : forall c evs ev s s' o o' i t,
  s_run c evs (s_init c) = (s, o) -> s_step c ev s = (s', o') ->
  In TIface (ths ev) -> infull s = false -> injfull s = false ->
  (i < s_nif c)%nat -> inp ev i = Some t -> (forall j, (j < i)%nat -> inp ev j = None) ->
  In {| e_txn := t; e_id := new_id ev; e_iface := i |} (accepts o').
Proof. exact run_lowest_served. Qed.
Print Assumptions C04_lowest_served.

Example C04_lowest_served_ex :
  let '(s, o) := s_run ex_scfg (ex_evs ++ [ex_inst [TIface] None 0 true]) (s_init ex_scfg) in
  infull s = false /\ injfull s = false /\ length (injfifo s) = 2%nat.
Proof. vm_compute. repeat split. Qed.
