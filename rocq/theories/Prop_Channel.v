(** C34, C35 : channels between routers, and time. *)
From Coq Require Import ZArith Arith Bool List Lia.
From Verif Require Import ChannelModel ChannelProofs.
Import ListNotations.
Open Scope Z_scope.

(** C34. Whatever the times are, nothing is lost, duplicated or reordered: what came out followed by
    what is in the channel is what was sent, where each cycle counts its last Send. *)
Theorem C34_order : forall A d tm (l : list (list (option A))) s os, ch_run d tm 0 l (chan0 A) = (s, os) ->
  somes os ++ map snd (ch_q s) = somes (map (fun xs => last xs None) l) /\ length os = length l.
Proof. intros A d tm l s os E. destruct (run_order A d tm l 0 (chan0 A) s os eq_refl E) as [H1 [H2 _]]. auto. Qed.
Print Assumptions C34_order.
Example C34_order_ex : let '(s, os) := ch_run 3 (fun k => Z.of_nat k) 0 [[Some 7]; [Some 8]; []; [Some 9]] (chan0 Z) in
  os = [None; None; Some 7; Some 8] /\ map snd (ch_q s) = [9].
Proof. vm_compute. auto. Qed.

(** C34. When time advances by one per cycle the flit sent in cycle k comes out in cycle k + delay - 1,
    and nothing else comes out. *)
Theorem C34_delay : forall A d t0 (l : list (list (option A))), 1 <= d ->
  snd (ch_run d (fun k => t0 + Z.of_nat k) 0 l (chan0 A)) = firstn (length l) (repeat None (Z.to_nat (d - 1)) ++ map (fun xs => last xs None) l).
Proof.
  intros A d t0 l Hd. rewrite (run_ext A d _ (fun k => t0 + Z.of_nat k * 1)) by (intros; lia). rewrite reg_all by lia.
  rewrite Z.div_1_r. replace (d - 1 + 1 - 1) with (d - 1) by lia. reflexivity.
Qed.
Print Assumptions C34_delay.
Example C34_delay_ex : snd (ch_run 3 (fun k => 100 + Z.of_nat k) 0 [[Some 7]; [None; Some 8]; []; []] (chan0 Z)) = [None; None; Some 7; Some 8].
Proof. vm_compute. reflexivity. Qed.

(** C34. Two Sends between two cycles lose the first flit. *)
Theorem C34_two_sends_refuted : forall A d tm (x y : A), exists s os, ch_run d tm 0 [[Some x; Some y]] (chan0 A) = (s, os) /\
  somes os ++ map snd (ch_q s) = [y].
Proof.
  intros. destruct (ch_run d tm 0 [[Some x; Some y]] (chan0 A)) as [s os] eqn:E. exists s, os. split; auto. exact (proj1 (C34_order _ _ _ _ _ _ E)).
Qed.
Print Assumptions C34_two_sends_refuted.
Example C34_two_sends_refuted_ex : snd (ch_run 1 (fun k => Z.of_nat k) 0 [[Some 1; Some 2]; []] (chan0 Z)) = [Some 2; None].
Proof. vm_compute. reflexivity. Qed.

(** C35. Time is in picoseconds: with a clock of period P the extra delay of a channel is (delay - 1) / P
    cycles, rounded up. *)
Theorem C35_cycles : forall A P d t0 (l : list (list (option A))), 0 < P -> 1 <= d ->
  snd (ch_run d (fun k => t0 + Z.of_nat k * P) 0 l (chan0 A)) =
    firstn (length l) (repeat None (Z.to_nat ((d - 1 + P - 1) / P)) ++ map (fun xs => last xs None) l).
Proof.
  exact reg_all.
Qed.
Print Assumptions C35_cycles.
Example C35_cycles_ex : snd (ch_run 9 (fun k => 0 + Z.of_nat k * 1000) 0 [[Some 7]; [Some 8]; []] (chan0 Z)) = [None; Some 7; Some 8].
Proof. vm_compute. reflexivity. Qed.

(** C35. So a configured delay of three or more cycles is not kept when the period is longer than a
    picosecond. *)
Theorem C35_cycles_refuted : forall A P d (x : A), 2 <= P -> 3 <= d ->
  exists j, (j < Z.to_nat (d - 1))%nat /\ nth j (snd (ch_run d (fun k => Z.of_nat k * P) 0 ([Some x] :: repeat [] (Z.to_nat (d - 1))) (chan0 A))) None = Some x.
Proof.
  intros A P d x HP Hd. set (e := (d - 1 + P - 1) / P).
  assert (He : 0 <= e < d - 1). { unfold e. split; [apply Z.div_pos; lia|]. apply Z.div_lt_upper_bound; [lia|]. nia. }
  exists (Z.to_nat e). split; [lia|].
  rewrite (run_ext A d _ (fun k => 0 + Z.of_nat k * P)) by (intros; lia). rewrite reg_all by lia. fold e.
  rewrite nth_first by (cbn [length]; rewrite repeat_length; lia).
  rewrite app_nth2; rewrite repeat_length; [|lia]. rewrite Nat.sub_diag. reflexivity.
Qed.
Print Assumptions C35_cycles_refuted.
Example C35_cycles_refuted_ex : nth 1 (snd (ch_run 5 (fun k => Z.of_nat k * 1000) 0 ([Some 7] :: repeat [] 4) (chan0 Z))) None = Some 7 /\
  nth 4 (snd (ch_run 5 (fun k => Z.of_nat k * 1) 0 ([Some 7] :: repeat [] 4) (chan0 Z))) None = Some 7.
Proof. vm_compute. auto. Qed.

(** C35. Time is kept in an int: a flit sent in the last cycle before it wraps is held back for all cycles
    of the next 2^32 picoseconds, together with everything sent after it. *)
Theorem C35_wrap_refuted : forall A P d K n (x : A) l, 0 < P -> 2 <= d -> Z.of_nat K * P + d - 1 < 2 ^ 31 <= (Z.of_nat K + 1) * P ->
  length l = n -> Z.of_nat (K + n) * P < 2 ^ 32 + Z.of_nat K * P + d - 1 ->
  snd (ch_run d (sim_time P) K ([Some x] :: l) (chan0 A)) = None :: map (fun _ => None) l.
Proof.
  intros A P d K n x l HP Hd HK Hl Hn. cbn [ch_run].
  assert (TK : sim_time P K = Z.of_nat K * P) by (unfold sim_time; apply wrap_small; nia).
  set (s := ch_cycle d (sim_time P K) [Some x] (chan0 A)).
  assert (S : ch_out s = None /\ ch_in s = None /\ ch_q s = [(Z.of_nat K * P + d - 1, x)]).
  { unfold s, ch_cycle. rewrite sends by reflexivity. unfold ch_read, ch_write. cbn [eff last ch_in ch_q chan0 app]. rewrite TK, (proj2 (Z.ltb_lt _ _)) by lia. auto. }
  destruct S as [S1 [S2 S3]]. assert (T : forall i, (S K <= i < S K + length l)%nat -> sim_time P i < Z.of_nat K * P + d - 1).
  { intros i Hi. unfold sim_time. rewrite Hl in Hi. assert (Z.of_nat i * P <= Z.of_nat (K + n) * P) by nia. assert ((Z.of_nat K + 1) * P <= Z.of_nat i * P) by nia.
    destruct (Z_lt_dec (Z.of_nat i * P) (2 ^ 32 + 2 ^ 31)); [rewrite wrap_high by nia; lia|]. exfalso. nia. }
  pose proof (blocked A d (sim_time P) l (S K) _ _ _ s T S2 S3) as B.
  destruct (ch_run d (sim_time P) (S K) l s) as [s' os]. cbn [snd] in *. rewrite S1, B. reflexivity.
Qed.
Print Assumptions C35_wrap_refuted.
Example C35_wrap_refuted_ex : Z.of_nat 2 * 1000000000 + 3 - 1 < 2 ^ 31 <= (Z.of_nat 2 + 1) * 1000000000 /\ Z.of_nat (2 + 4) * 1000000000 < 2 ^ 32 + Z.of_nat 2 * 1000000000 + 3 - 1 /\
  snd (ch_run 3 (sim_time 1000000000) 2 [[Some 7]; []; [Some 8]; []; []] (chan0 Z)) = [None; None; None; None; None] /\
  snd (ch_run 3 (sim_time 1000000000) 0 [[Some 7]; []; []] (chan0 Z)) = [None; Some 7; None].
Proof. split; [lia|]. split; [lia|]. vm_compute. auto. Qed.

(** C35. A router stage with delay 1 finishes each entry in the cycle it arrives, while the time is not
    negative. *)
Theorem C35_stage : forall A tm (l : list (list A)) k, (forall i, (k <= i < k + length l)%nat -> 0 <= tm i) -> st_run 1 tm k l [] = Some ([], l).
Proof. exact stage_one. Qed.
Print Assumptions C35_stage.
Example C35_stage_ex : st_run 1 (sim_time 800) 5 [[1; 2]; []; [3]] [] = Some ([], [[1; 2]; []; [3]]) /\ (forall i, (5 <= i < 5 + 3)%nat -> 0 <= sim_time 800 i).
Proof. split; [vm_compute; reflexivity|]. intros i Hi. unfold sim_time. rewrite wrap_small; lia. Qed.

(** C35. A stage with a longer delay that is not a whole number of periods stops the simulation at the
    assertion that the entry is taken exactly at its time. *)
Theorem C35_stage_refuted : forall A P d (x : A) n, 0 < P -> 1 <= d -> (d - 1) mod P <> 0 -> d - 1 < Z.of_nat n * P ->
  st_run d (fun i => Z.of_nat i * P) 0 ([x] :: repeat [] n) [] = None.
Proof.
  intros A P d x n HP Hd Hm Hn. cbn [st_run]. unfold st_cycle. cbn [fold_left st_push app st_eval Z.leb Z.compare].
  assert (1 < d). { destruct (Z.eq_dec d 1) as [->|]; [|lia]. exfalso. apply Hm. apply Z.mod_0_l. lia. }
  cbn [st_update]. change (Z.of_nat 0 * P) with 0. cbn [Z.add]. rewrite (proj2 (Z.ltb_ge (d - 1) 0)), (proj2 (Z.ltb_lt 0 (d - 1))) by lia. cbn [orb].
  pose proof (stage_assert A P d x n 0 0 HP ltac:(lia)) as S. cbn [Z.add] in S. rewrite S; auto; lia.
Qed.
Print Assumptions C35_stage_refuted.
Example C35_stage_refuted_ex : st_run 2 (fun i => Z.of_nat i * 1000) 0 [[7]; []] [] = None /\ st_run 2 (fun i => Z.of_nat i * 1) 0 [[7]; []] [] = Some ([], [[]; [7]]).
Proof. vm_compute. auto. Qed.

(** C35. A stage that takes more than one cycle is not a pipeline: with a delay of [q] periods, whatever arrives in the [q] cycles in which an entry is under way is started only when
    that entry is done, and comes out [q] cycles after its start, all of it at once. *)
Theorem C35_stage_busy : forall A P (x : A) l, 0 < P -> (0 < length l)%nat ->
  st_run (Z.of_nat (length l) * P + 1) (fun i => Z.of_nat i * P) 0 ([x] :: l ++ repeat [] (S (length l))) [] =
  Some ([], repeat [] (length l) ++ [x] :: repeat [] (length l) ++ [concat l]).
Proof. exact stage_serial. Qed.
Print Assumptions C35_stage_busy.
Example C35_stage_busy_ex : st_run (Z.of_nat 3 * 800 + 1) (fun i => Z.of_nat i * 800) 0 [[1]; [2]; []; [3; 4]; []; []; []; []] [] = Some ([], [[]; []; []; [1]; []; []; []; [2; 3; 4]]).
Proof. exact (C35_stage_busy Z 800 1 [[2]; []; [3; 4]] ltac:(lia) ltac:(cbn [length]; lia)). Qed.

(** C35. While the int is negative, that is from 2^31 to 2^32 picoseconds, no stage of any router finishes
    an entry, even with delay 1. *)
Theorem C35_stall_refuted : forall A P (l : list (list A)) k, 0 < P -> 2 ^ 31 <= Z.of_nat k * P -> Z.of_nat (k + length l) * P <= 2 ^ 32 ->
  exists s, st_run 1 (sim_time P) k l [] = Some (s, map (fun _ => []) l) /\ map snd s = concat l.
Proof.
  intros A P l k HP Hk Hl. apply (stage_stall A (sim_time P) l k []); [intros u x []|].
  intros i Hi. unfold sim_time. rewrite wrap_high by nia. nia.
Qed.
Print Assumptions C35_stall_refuted.
Example C35_stall_refuted_ex : exists s, st_run 1 (sim_time 1000000000) 3 [[1]; [2]] [] = Some (s, [[]; []]) /\ map snd s = [1; 2] /\
  st_run 1 (sim_time 1000000000) 0 [[1]; [2]] [] = Some ([], [[1]; [2]]).
Proof. eexists. vm_compute. auto. Qed.
