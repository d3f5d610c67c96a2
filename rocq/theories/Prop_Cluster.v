(** C23 : the cluster stops exactly when every device is done; exit status. *)
From Coq Require Import ZArith Bool List Lia.
From Verif Require Import ClusterModel ClusterProofs.
Import ListNotations.

(** C23. The loop stops after [k] steps where every device has declared itself done, and had not
    after any smaller number of steps. *)
Theorem C23_stops_when_all_done : forall n ticks k l, main_loop ticks (cluster0 n) = Stopped k l ->
  (forall i, (i < n)%nat -> In (SetDone i) (concat (firstn k ticks))) /\
  (forall j, (j < k)%nat -> ~ forall i, (i < n)%nat -> In (SetDone i) (concat (firstn j ticks))).
Proof. exact stop_exact. Qed.
Print Assumptions C23_stops_when_all_done.

Definition ex_ticks : list (list rev) := [[SetDone 1]; []; [ReportFailure 1; SetDone 2]; [SetDone 0; SetDone 1]; [SetDone 0]].
Example C23_stops_when_all_done_ex : exists l, main_loop ex_ticks (cluster0 3) = Stopped 4 l.
Proof. eexists. reflexivity. Qed.

(** C23. While it runs some device is not done. *)
Theorem C23_runs_while_not_done : forall n ticks, main_loop ticks (cluster0 n) = Running ->
  ~ forall i, (i < n)%nat -> In (SetDone i) (concat ticks).
Proof. exact runs_on. Qed.
Print Assumptions C23_runs_while_not_done.

Example C23_runs_while_not_done_ex : main_loop (firstn 3 ex_ticks) (cluster0 3) = Running.
Proof. reflexivity. Qed.

(** C23. The exit status is non-zero exactly when device 0 reported a failure before the stop. *)
Theorem C23_exit_status : forall n ticks k l c, main_loop ticks (cluster0 n) = Stopped k l -> exit_status l = Some c ->
  (c <> 0%Z <-> In (ReportFailure 0) (concat (firstn k ticks))).
Proof. exact exit_zero_dev. Qed.
Print Assumptions C23_exit_status.

Example C23_exit_status_ex : exists l, main_loop [[SetDone 1; ReportFailure 0]; [SetDone 0]] (cluster0 2) = Stopped 2 l /\ exit_status l = Some 1%Z.
Proof. eexists. split; reflexivity. Qed.

(** C23 is false for the exit status: device 1 fails and the status is 0. *)
Theorem C23_exit_status_refuted : ~ (forall n ticks k l c i, main_loop ticks (cluster0 n) = Stopped k l -> exit_status l = Some c ->
  (i < n)%nat -> In (ReportFailure i) (concat (firstn k ticks)) -> c <> 0%Z).
Proof.
  intros H. apply (H 3%nat ex_ticks 4%nat _ 0%Z 1%nat eq_refl eq_refl); [lia| |reflexivity]. right. left. reflexivity.
Qed.
Print Assumptions C23_exit_status_refuted.

Example C23_exit_status_refuted_ex : exists l, main_loop ex_ticks (cluster0 3) = Stopped 4 l /\ exit_status l = Some 0%Z.
Proof. eexists. split; reflexivity. Qed.
