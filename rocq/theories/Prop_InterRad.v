(** C16-C19 : the network between devices. *)
From Coq Require Import ZArith Bool List Lia Sorted.
From Verif Require Import Bits AxisFormatModel InterRadModel InterRadSpec InterRadProofs PortalModel CrossModel CrossSpec CrossProofs.
Import ListNotations.

(** C17. What a device is shown is, in order, a prefix of what entered for it, each at least the
    configured latency after it entered. *)
Theorem C17_order_latency : forall c l s os d, ir_run c l irst0 = Some (s, os) -> (d < ir_rads c)%nat ->
  exists pre rest, entered c d 0 os = pre ++ rest /\
    Forall2 (fun a b => snd a = snd b /\ (Z.of_nat (fst a) + ir_latency c <= Z.of_nat (fst b))%Z /\ (fst a < fst b)%nat) pre (shown d 0 os).
Proof. exact run_safety. Qed.
Print Assumptions C17_order_latency.

Definition exw : widths := {| linkw := 82; maxdw := 512; userw := 75; destfw := 4; ifacew := 5; tidw := 32 |}.
Definition exc : ircfg := {| ir_w := exw; ir_rads := 2; ir_slots := 4; ir_accept := 1; ir_total := 2; ir_latency := 3 |}.
(** A transaction for node [n] of device [r]. *)
Definition cross (v r n : Z) : txn := {| x_data := v; x_user := v + 1; x_last := true; x_dest := (r * 256 + n * 16 + 9)%Z |}.
Definition only (i : nat) (t : txn) : irin := fun j => if Nat.eqb j i then Some t else None.
Definition none : irin := fun _ => None.
Definition ex_in : list (bool * irin) :=
  [(true, none); (true, only 0 (cross 7 1 5)); (false, only 0 (cross 8 1 6)); (true, none); (true, none); (false, none); (true, none); (true, none)].

Example C17_order_latency_ex : match ir_run exc ex_in irst0 with Some (s, os) => map fst (entered exc 1 0 os) = [1; 2]%nat /\ map fst (shown 1 0 os) = [4; 6]%nat /\ map x_data (map snd (shown 1 0 os)) = [7; 8]%Z | None => False end.
Proof. vm_compute. repeat split; auto; congruence. Qed.

(** C17. At most one transaction per clock cycle for each device. *)
Theorem C17_one_per_cycle : forall c l s os d, ir_run c l irst0 = Some (s, os) -> StronglySorted lt (map fst (shown d 0 os)).
Proof. intros c l s os d _. apply (shown_sorted os d 0). Qed.
Print Assumptions C17_one_per_cycle.

Example C17_one_per_cycle_ex : match ir_run exc ex_in irst0 with Some (s, os) => length (shown 1 0 os) = 2%nat | None => False end.
Proof. vm_compute. repeat split; auto; congruence. Qed.

(** C17. Everything kept is shown once the latency and one cycle per transaction waiting have passed. *)
Theorem C17_delivered : forall c l1 l2 s os d, ir_run c (l1 ++ l2) irst0 = Some (s, os) -> (d < ir_rads c)%nat ->
  let os1 := firstn (length l1) os in
  (Z.max (ir_latency c) 0 + (Z.of_nat (length (entered c d 0 os1)) - Z.of_nat (length (shown d 0 os1))) <= Z.of_nat (length l2))%Z ->
  (length (entered c d 0 os1) <= length (shown d 0 os))%nat.
Proof. exact run_progress. Qed.
Print Assumptions C17_delivered.

Example C17_delivered_ex : match ir_run exc (firstn 3 ex_in ++ skipn 3 ex_in) irst0 with Some (s, os) => length (entered exc 1 0 (firstn 3 os)) = 2%nat /\ (3 + (2 - 0) <= Z.of_nat (length (skipn 3 ex_in)))%Z | None => False end.
Proof. vm_compute. repeat split; auto; congruence. Qed.

(** C17. The network never stops as long as the addressed devices exist. *)
Theorem C17_runs : forall c l, (forall o inp i t, In (o, inp) l -> inp i = Some t -> (0 < destfw (ir_w c))%Z /\
    (Z.to_nat (dest_rad (ir_w c) (x_dest t)) < ir_rads c)%nat) -> exists s os, ir_run c l irst0 = Some (s, os).
Proof.
  intros c l H. destruct (run_total c l irst0 (quiet0 c)) as [[s os] E]; [|eauto].
  intros [o inp] Hin i t Hi. destruct (H o inp i t Hin Hi) as [P Q]. destruct (swap_fields (ir_w c) (x_dest t) P) as [-> _]. auto.
Qed.
Print Assumptions C17_runs.

Example C17_runs_ex : (Z.to_nat (dest_rad exw (x_dest (cross 7 1 5))) < ir_rads exc)%nat /\ In (true, only 0 (cross 7 1 5)) ex_in.
Proof. split; [vm_compute; lia|right; left; reflexivity]. Qed.

(** C18 is false: two devices send to the same device in the same cycle, one slot is free. *)
Definition exc1 : ircfg := {| ir_w := exw; ir_rads := 3; ir_slots := 1; ir_accept := 1; ir_total := 1; ir_latency := 3 |}.
Definition both : irin := fun j => match j with 0 => Some (cross 7 2 5) | 1 => Some (cross 8 2 5) | _ => None end.
Theorem C18_no_loss_refuted : ~ (forall c l s os, (1 <= ir_slots c)%nat -> ir_run c l irst0 = Some (s, os) -> forall o, In o os -> ~ drops_in o).
Proof.
  intros H.
  assert (X : match ir_run exc1 [(true, none); (true, both)] irst0 with
              | Some (s, os) => match nth_error os 1 with Some o => nth_error (fst o) 1 = Some (1%nat, stored exw (cross 8 2 5), false) | None => False end
              | None => False end).
  { vm_compute. reflexivity. }
  destruct (ir_run exc1 [(true, none); (true, both)] irst0) as [[s os]|] eqn:E; [|contradiction].
  destruct (nth_error os 1) as [o|] eqn:X1; [|contradiction]. rename X into X2. apply (H exc1 _ _ _ (le_n 1) E o (nth_error_In _ _ X1)).
  exists (1%nat, stored exw (cross 8 2 5), false). split; [apply (nth_error_In _ _ X2)|auto].
Qed.
Print Assumptions C18_no_loss_refuted.

Example C18_no_loss_refuted_ex : match ir_run exc1 [(true, none); (true, both)] irst0 with Some (s, os) => i_drops s = 1%Z | None => False end.
Proof. vm_compute. repeat split; auto; congruence. Qed.

(** C18. What holds: a transaction is dropped exactly when as many transactions as there are
    slots are inside for its device, counted after the earlier handshakes of the same edge and
    before anything leaves at this edge. *)
Theorem C18_drop_exact : forall c l s os k out e1 i t b e2, ir_run c l irst0 = Some (s, os) -> nth_error os k = Some (e1 ++ (i, t, b) :: e2, out) ->
  let d := Z.to_nat (dest_rad (ir_w c) (x_dest t)) in
  (d < ir_rads c)%nat /\
  (b = true <-> (length (entered c d 0 (firstn k os)) + length (kept_at c d e1) < ir_slots c + length (shown d 0 (firstn k os)))%nat).
Proof. exact run_drop_exact. Qed.
Print Assumptions C18_drop_exact.

Example C18_drop_exact_ex : match ir_run exc1 [(true, none); (true, both)] irst0 with
  | Some (s, os) => option_map fst (nth_error os 1) = Some ([(0%nat, stored exw (cross 7 2 5), true)] ++ [(1%nat, stored exw (cross 8 2 5), false)])
  | None => False end.
Proof. vm_compute. reflexivity. Qed.

(** C19. After the two start-up edges, in every window of [total] edges a device gets at most
    [accept] transactions in. *)
Theorem C19_bandwidth : forall c l s os i start, ir_run c l irst0 = Some (s, os) -> (1 <= ir_total c)%Z -> (0 <= ir_accept c)%Z ->
  (2 <= start)%nat ->
  (Z.of_nat (list_sum (map (handshakes i) (firstn (Z.to_nat (ir_total c)) (skipn start os)))) <= ir_accept c)%Z.
Proof. exact run_bandwidth. Qed.
Print Assumptions C19_bandwidth.

Definition always : list (bool * irin) := repeat (true, only 0 (cross 7 1 5)) 6.
Example C19_bandwidth_ex : match ir_run exc always irst0 with Some (s, os) => map (handshakes 0) os = [0; 1; 1; 0; 1; 0]%nat | None => False end.
Proof. vm_compute. repeat split; auto; congruence. Qed.

(** C19 is false for the window that starts at the first edge with traffic. *)
Theorem C19_first_window_refuted : ~ (forall c l s os i start, ir_run c l irst0 = Some (s, os) -> (1 <= ir_total c)%Z -> (0 <= ir_accept c)%Z ->
  (Z.of_nat (list_sum (map (handshakes i) (firstn (Z.to_nat (ir_total c)) (skipn start os)))) <= ir_accept c)%Z).
Proof.
  intros H.
  assert (X : match ir_run exc always irst0 with Some (s, os) => map (handshakes 0) (firstn 2 (skipn 1 os)) = [1; 1]%nat | None => False end) by (vm_compute; reflexivity).
  destruct (ir_run exc always irst0) as [[s os]|] eqn:E; [|contradiction].
  specialize (H _ _ _ _ 0%nat 1%nat E ltac:(cbn; lia) ltac:(cbn; lia)). change (Z.to_nat (ir_total exc)) with 2%nat in H. rewrite X in H. cbn in H. lia.
Qed.
Print Assumptions C19_first_window_refuted.

Example C19_first_window_refuted_ex : match ir_run exc always irst0 with Some (s, os) => list_sum (map (handshakes 0) (firstn 2 (skipn 1 os))) = 2%nat | None => False end.
Proof. vm_compute. repeat split; auto; congruence. Qed.

(** C16. A destination that names node [n] of another device [r] is first sent to the portal of the
    sender's device, reaches device [r], and is then routed to node [n]. *)
Theorem C16_address : forall w my r n portal portal' d,
  (0 < destfw w)%Z -> (0 <= my < 2 ^ destfw w)%Z -> (0 <= portal < 2 ^ destfw w)%Z -> dest_rad w d = r -> dest_remote w d = n -> r <> my ->
  let b1 := to_booksim_dest w my portal d in
  let d2 := swap_dest w (from_booksim_dest w b1) in
  bs_node b1 = portal /\ dest_rad w d2 = r /\ bs_node (to_booksim_dest w r portal' d2) = n.
Proof. exact cross_address. Qed.
Print Assumptions C16_address.

Example C16_address_ex : dest_rad exw (x_dest (cross 7 12 13)) = 12%Z /\ dest_remote exw (x_dest (cross 7 12 13)) = 13%Z /\
  bs_node (to_booksim_dest exw 12 3 (swap_dest exw (from_booksim_dest exw (to_booksim_dest exw 2 11 (x_dest (cross 7 12 13)))))) = 13%Z.
Proof. vm_compute. auto. Qed.

(** C16. Across portals and network: there is one order of entry into the network such that each
    device's portal contributes what its NoC handed over, in order, payload unchanged and the node
    on the other device as the new local destination; and each NoC gets, in that order, exactly a
    prefix of what was kept for its device. *)
Theorem C16_end_to_end : forall c l s os, (0 < destfw (ir_w c))%Z -> crun c l csys0 = Some (s, os) ->
  exists order : list accept_ev,
  (forall i, (i < ir_rads c)%nat -> exists gone rest, sent_by i os = gone ++ rest /\ Forall2 (arrives_as (ir_w c)) gone (of_source i order)) /\
  (forall d, (d < ir_rads c)%nat -> exists rest, kept_for (ir_w c) d order = got_by d os ++ rest).
Proof. intros c l s os W H. exists (serial os). exact (cross_delivery c l s os W H). Qed.
Print Assumptions C16_end_to_end.

Definition ex_noc : list cin :=
  {| ci_w := true; ci_tx := fun i => if Nat.eqb i 0 then Some (cross 7 1 5) else Some (cross 8 0 6); ci_rdy := fun _ => true |} ::
  repeat {| ci_w := true; ci_tx := none; ci_rdy := fun _ => true |} 9.
Example C16_end_to_end_ex : match crun exc ex_noc csys0 with Some (s, os) => map x_data (got_by 1 os) = [7]%Z /\ map x_data (got_by 0 os) = [8]%Z | None => False end.
Proof. vm_compute. repeat split; auto; congruence. Qed.
