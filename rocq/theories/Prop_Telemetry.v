(** C21, C61 : telemetry. *)
From Coq Require Import ZArith Bool List Lia Permutation.
From Verif Require Import ZMap TelemetryModel TelemetrySpec TelemetryProofs.
Import ListNotations.
Local Open Scope Z_scope.

(** C21. The ids handed out are 1, 2, 3, ... one per initiation, hence all different. *)
Theorem C21_ids_fresh : forall fw l b ids, trun fw l book0 = (b, ids) ->
  length ids = length (inits l) /\ NoDup ids /\ forall k i, nth_error ids k = Some i -> i = Z.of_nat k + 1.
Proof.
  intros fw l b ids H. destruct (trun_ids _ _ _ _ _ H) as [-> _]. cbn [gid book0]. split; [rewrite map_length, seq_length; auto|].
  split.
  - apply FinFun.Injective_map_NoDup; [intros x y; lia|apply seq_NoDup].
  - intros k i E. rewrite nth_error_map in E. destruct (nth_error (seq 1 (length (inits l))) k) as [x|] eqn:X; [|discriminate].
    cbn [option_map] in E. assert (K : (k < length (inits l))%nat) by (rewrite <- (seq_length (length (inits l)) 1); apply nth_error_Some; congruence).
    pose proof (@seq_nth (length (inits l)) 1 k 0%nat K) as Y. rewrite (nth_error_nth _ _ 0%nat X) in Y. inversion E; subst. lia.
Qed.
Print Assumptions C21_ids_fresh.

Definition ex_calls : list call :=
  [Init 1 5 0 100 0 10; Ev Packet 1 12; Init 2 (3 * 128 + 5) 0 50 0 13; Ev Inject 1 14; Ev Packet 2 15; Hops 1 4; Ev Receipt 2 20; Init 1 5 0 30 0 22].
Example C21_ids_fresh_ex : exists b, trun 7 ex_calls book0 = (b, [1; 2; 3]).
Proof. eexists. reflexivity. Qed.

(** C21. The record of a transaction holds what was given at its initiation, the hops last set for
    it, and for each kind of event the time of the last one naming it; nothing else touches it. *)
Theorem C21_record : forall fw l1 src dest ty dw net t l2 b' ids, 0 <= fw ->
  trun fw (l1 ++ Init src dest ty dw net t :: l2) book0 = (b', ids) ->
  let id := Z.of_nat (length (inits l1)) + 1 in
  exists e, mfind id (table b') = Some e /\
    src_node e = src /\ dest_node e = dest mod 2 ^ fw /\ ttype e = ty /\ dataw e = dw /\ network_id e = net /\ t_init e = t /\
    num_hops e = last_hops id l2 0 /\ (forall k, time_of k e = last_time k id l2 0) /\
    latency e = (if existsb (fun c => match c with Ev Receipt i _ => id =? i | _ => false end) l2 then time_of Receipt e - t else 0).
Proof. exact record_of. Qed.
Print Assumptions C21_record.

Example C21_record_ex : exists b ids e, trun 7 (firstn 2 ex_calls ++ Init 2 (3 * 128 + 5) 0 50 0 13 :: skipn 3 ex_calls) book0 = (b, ids) /\
  mfind 2 (table b) = Some e /\ dest_node e = 5 /\ t_packet e = 15 /\ t_inject e = 0 /\ latency e = 7.
Proof. do 3 eexists. split; [reflexivity|]. split; [reflexivity|]. vm_compute. auto. Qed.

(** C21. Whatever the order in which the hash table yields its entries, the dumped volume between
    two nodes is the sum of the widths of the transactions initiated between them, as long as that
    sum fits an unsigned int. *)
Theorem C21_volumes : forall fw nodes l b ids order f n s d, 0 <= fw -> trun fw l book0 = (b, ids) -> names_known 0 l ->
  Forall (sane fw) l -> Permutation order (map snd (table b)) -> add_flows nodes order no_flows = Some f ->
  volume fw n s d l < 2 ^ 32 ->
  (match mfind d (f n s) with Some v => v | None => 0 end) = volume fw n s d l.
Proof. exact dump_sum. Qed.
Print Assumptions C21_volumes.

Example C21_volumes_ex : names_known 0 ex_calls /\ Forall (sane 7) ex_calls /\ volume 7 0 1 5 ex_calls = 130 /\
  match add_flows [16] (map snd (table (fst (trun 7 ex_calls book0)))) no_flows with Some f => f 0 1 = [(5, 130)] | None => False end.
Proof.
  split; [cbn; lia|]. split; [repeat constructor; unfold small; cbn; lia|]. vm_compute. auto.
Qed.

(** C21 is false for larger volumes: the sum wraps. *)
Definition big : list call := repeat (Init 1 5 0 (2 ^ 31 - 1) 0 10) 3.
Theorem C21_volume_overflow_refuted : ~ (forall fw nodes l b ids order f n s d, 0 <= fw -> trun fw l book0 = (b, ids) -> names_known 0 l ->
  Forall (sane fw) l -> Permutation order (map snd (table b)) -> add_flows nodes order no_flows = Some f ->
  (match mfind d (f n s) with Some v => v | None => 0 end) = volume fw n s d l).
Proof.
  intros H.
  assert (X : match add_flows [16] (map snd (table (fst (trun 7 big book0)))) no_flows with Some f => f 0 1 = [(5, 2147483645)] | None => False end) by (vm_compute; reflexivity).
  destruct (add_flows [16] (map snd (table (fst (trun 7 big book0)))) no_flows) as [f|] eqn:E; [|contradiction].
  assert (W : match mfind 5 (f 0 1) with Some v => v | None => 0 end = volume 7 0 1 5 big).
  { apply (H 7 [16] big (fst (trun 7 big book0)) (snd (trun 7 big book0)) (map snd (table (fst (trun 7 big book0))))).
    - lia.
    - reflexivity.
    - cbn. auto.
    - repeat constructor; unfold small; cbn; lia.
    - apply Permutation_refl.
    - exact E. }
  rewrite X in W. vm_compute in W. discriminate W.
Qed.
Print Assumptions C21_volume_overflow_refuted.

Example C21_volume_overflow_refuted_ex : volume 7 0 1 5 big = 6442450941.
Proof. reflexivity. Qed.

(** C61 is false: the table is shared by all devices, so the dump of one device counts the
    traffic of the others.  [l] pairs each call with the device that makes it. *)
Theorem C61_per_device_refuted : ~ (forall fw nodes (l : list (nat * call)) b ids order f r n s d, 0 <= fw -> trun fw (map snd l) book0 = (b, ids) ->
  names_known 0 (map snd l) -> Forall (sane fw) (map snd l) -> Permutation order (map snd (table b)) -> add_flows nodes order no_flows = Some f ->
  volume fw n s d (map snd l) < 2 ^ 32 ->
  (match mfind d (f n s) with Some v => v | None => 0 end) = volume fw n s d (map snd (filter (fun x => Nat.eqb (fst x) r) l))).
Proof.
  intros H.
  pose (l := [(0%nat, Init 1 5 0 100 0 10); (1%nat, Init 1 5 0 30 0 11)]).
  assert (X : match add_flows [16] (map snd (table (fst (trun 7 (map snd l) book0)))) no_flows with Some f => f 0 1 = [(5, 130)] | None => False end) by (vm_compute; reflexivity).
  destruct (add_flows [16] (map snd (table (fst (trun 7 (map snd l) book0)))) no_flows) as [f|] eqn:E; [|contradiction].
  assert (W : match mfind 5 (f 0 1) with Some v => v | None => 0 end = volume 7 0 1 5 (map snd (filter (fun x => Nat.eqb (fst x) 0%nat) l))).
  { apply (H 7 [16] l (fst (trun 7 (map snd l) book0)) (snd (trun 7 (map snd l) book0)) (map snd (table (fst (trun 7 (map snd l) book0))))).
    - lia.
    - reflexivity.
    - cbn. auto.
    - repeat constructor; unfold small; cbn; lia.
    - apply Permutation_refl.
    - exact E.
    - vm_compute. reflexivity. }
  rewrite X in W. vm_compute in W. discriminate W.
Qed.
Print Assumptions C61_per_device_refuted.

Example C61_per_device_refuted_ex : volume 7 0 1 5 (map snd [(0%nat, Init 1 5 0 100 0 10); (1%nat, Init 1 5 0 30 0 11)]) = 130.
Proof. reflexivity. Qed.

(** C61. What holds: the dumped volume is the sum over all devices.  [devs] lists the devices. *)
Theorem C61_sum_of_devices : forall fw nodes (l : list (nat * call)) devs b ids order f n s d, 0 <= fw -> trun fw (map snd l) book0 = (b, ids) ->
  names_known 0 (map snd l) -> Forall (sane fw) (map snd l) -> Permutation order (map snd (table b)) -> add_flows nodes order no_flows = Some f ->
  volume fw n s d (map snd l) < 2 ^ 32 -> NoDup devs -> (forall x, In x l -> In (fst x) devs) ->
  (match mfind d (f n s) with Some v => v | None => 0 end) =
    fold_right Z.add 0 (map (fun r => volume fw n s d (map snd (filter (fun x => Nat.eqb (fst x) r) l))) devs).
Proof.
  intros fw nodes l devs b ids order f n s d F H1 H2 H3 H4 H5 H6 ND HD.
  rewrite (dump_sum fw nodes (map snd l) b ids order f n s d F H1 H2 H3 H4 H5 H6). apply volume_split; assumption.
Qed.
Print Assumptions C61_sum_of_devices.

Example C61_sum_of_devices_ex :
  let l := [(0%nat, Init 1 5 0 100 0 10); (1%nat, Init 1 5 0 30 0 11); (0%nat, Init 2 5 0 7 0 12)] in
  map (fun r => volume 7 0 1 5 (map snd (filter (fun x => Nat.eqb (fst x) r) l))) [0%nat; 1%nat] = [100; 30] /\
  match add_flows [16] (map snd (table (fst (trun 7 (map snd l) book0)))) no_flows with Some f => f 0 1 = [(5, 130)] | None => False end /\
  names_known 0 (map snd l) /\ Forall (sane 7) (map snd l).
Proof. split; [reflexivity|]. split; [vm_compute; reflexivity|]. split; [cbn; auto|]. repeat constructor; unfold small; cbn; lia. Qed.
