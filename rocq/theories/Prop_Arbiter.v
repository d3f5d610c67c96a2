(** C24, C25, C26, C62 : the arbiters. *)
From Coq Require Import ZArith Arith Bool List Lia.
From Verif Require Import ArbiterModel ArbiterSpec ArbiterProofs ArbiterFair.
Import ListNotations.

(** C24. A legal sequence of calls never fails an assert, and every Arbitrate call grants a
    request of top priority exactly when there is a request. *)
Theorem C24_sound : forall n l, legal n [] false l ->
  exists s outs, arun (round_robin n) l (a_init (round_robin n)) = Some (s, outs) /\ Forall2 good (asked [] l) outs.
Proof. intros n l H. exact (new_arbiter_runs RoundRobin n _ l eq_refl H). Qed.
Print Assumptions C24_sound.

Definition ex_calls : list aop := [Add 2 10 5; Add 0 11 5; Add 3 12 1; Arb; Upd; Clr; Arb; Clr; Add 1 13 0; Add 3 14 0; Arb].
Example C24_sound_ex : legal 4 [] false ex_calls /\
  asked [] ex_calls = [[(2, 10%Z, 5%Z); (0, 11%Z, 5%Z); (3, 12%Z, 1%Z)]; []; [(1, 13%Z, 0%Z); (3, 14%Z, 0%Z)]] /\
  match arun (round_robin 4) ex_calls (rr0 4) with Some (_, o) => o = [Some (0, 11%Z, 5%Z); None; Some (1, 13%Z, 0%Z)] | None => False end.
Proof. split; [cbn; intuition lia|]. split; [reflexivity|vm_compute; reflexivity]. Qed.

(** C24. Among the requests of top priority the next one in cyclic order after the last used
    grant wins. *)
Theorem C24_turn : forall n l, 0 < n -> Forall (round_ok n) l ->
  exists s outs, arun (round_robin n) (rounds_ops l) (a_init (round_robin n)) = Some (s, outs) /\ rr_results n 0 l outs.
Proof. intros n l H F. exact (rr_rounds n l 0 _ H (rr0_turn n) F). Qed.
Print Assumptions C24_turn.

Definition rd (l : list (nat * Z)) (u : bool) : round := {| rq := map (fun x => (fst x, 0%Z, snd x)) l; used := u |}.
Definition ex_rounds : list round := [rd [(0, 1%Z); (2, 1%Z)] true; rd [(0, 1%Z); (2, 1%Z)] false; rd [(0, 1%Z); (1, 0%Z); (2, 1%Z)] true; rd [] true; rd [(0, 1%Z); (1, 1%Z)] true].
Lemma ex_rounds_ok : Forall (round_ok 3) ex_rounds.
Proof.
  repeat (apply Forall_cons; [split; cbn; [repeat (apply NoDup_cons; [cbn; intuition lia|]); apply NoDup_nil|
    repeat (apply Forall_cons; [cbn; lia|]); apply Forall_nil]|]); apply Forall_nil.
Qed.
Example C24_turn_ex : Forall (round_ok 3) ex_rounds /\
  match arun (round_robin 3) (rounds_ops ex_rounds) (rr0 3) with
  | Some (_, o) => map (option_map r_in) o = [Some 0; Some 2; Some 2; None; Some 0] | None => False end.
Proof. split; [exact ex_rounds_ok|vm_compute; reflexivity]. Qed.

(** C24. An input that keeps requesting with top priority sees at most size-1 used grants before
    its own, after any earlier rounds. *)
Theorem C24_no_starvation : forall n pre l i, i < n -> Forall (round_ok n) (pre ++ l) -> Forall (wants i) l ->
  exists s0 outs0 s outs, arun (round_robin n) (rounds_ops pre) (a_init (round_robin n)) = Some (s0, outs0) /\
    arun (round_robin n) (rounds_ops l) s0 = Some (s, outs) /\ (Forall (not_granted i) outs -> length (filter used l) < n).
Proof. intros n. exact (fair_starve n _ (rr_fair n)). Qed.
Print Assumptions C24_no_starvation.

Definition ex_window : list round := [rd [(0, 1%Z); (1, 1%Z)] true; rd [(0, 1%Z); (1, 1%Z); (2, 1%Z)] true; rd [(0, 1%Z); (2, 0%Z)] true].
Lemma ex_window_ok : Forall (round_ok 3) (ex_rounds ++ ex_window).
Proof.
  apply Forall_app. split; [exact ex_rounds_ok|].
  repeat (apply Forall_cons; [split; cbn; [repeat (apply NoDup_cons; [cbn; intuition lia|]); apply NoDup_nil|
    repeat (apply Forall_cons; [cbn; lia|]); apply Forall_nil]|]); apply Forall_nil.
Qed.
Lemma ex_window_wants : Forall (wants 0) ex_window.
Proof.
  repeat (apply Forall_cons; [exists (0, 0%Z, 1%Z); cbn; split; [auto|]; split; [auto|]; intros j J;
    repeat (destruct J as [<-|J]; [cbn; lia|]); destruct J|]); apply Forall_nil.
Qed.
(** After [ex_rounds] input 0 waits for inputs 1 and 2 before it is granted. *)
Example C24_no_starvation_ex : Forall (round_ok 3) (ex_rounds ++ ex_window) /\ Forall (wants 0) ex_window /\
  match arun (round_robin 3) (rounds_ops (ex_rounds ++ ex_window)) (rr0 3) with
  | Some (_, o) => map (option_map r_in) (skipn 5 o) = [Some 1; Some 2; Some 0] | None => False end.
Proof. split; [exact ex_window_ok|]. split; [exact ex_window_wants|vm_compute; reflexivity]. Qed.

(** C25. The matrix arbiter never fails an assert in a legal sequence of calls and grants a request
    of top priority exactly when there is a request. *)
Theorem C25_sound : forall n l, legal n [] false l ->
  exists s outs, arun (matrix n) l (a_init (matrix n)) = Some (s, outs) /\ Forall2 good (asked [] l) outs.
Proof. intros n l H. exact (new_arbiter_runs Matrix n _ l eq_refl H). Qed.
Print Assumptions C25_sound.

Example C25_sound_ex : legal 4 [] false ex_calls /\
  match arun (matrix 4) ex_calls (mat0 4) with Some (_, o) => o = [Some (2, 10%Z, 5%Z); None; Some (3, 14%Z, 0%Z)] | None => False end.
Proof. split; [cbn; intuition lia|vm_compute; reflexivity]. Qed.

(** C25. The winner is the least recently granted of the requests of top priority. *)
Theorem C25_least_recent : forall n l, Forall (round_ok n) l ->
  exists s outs, arun (matrix n) (rounds_ops l) (a_init (matrix n)) = Some (s, outs) /\ lrg_results [] l outs.
Proof. intros n l F. exact (mat_rounds n l [] _ (mat0_inv n) F). Qed.
Print Assumptions C25_least_recent.

Example C25_least_recent_ex : Forall (round_ok 3) (ex_rounds ++ ex_window) /\
  match arun (matrix 3) (rounds_ops (ex_rounds ++ ex_window)) (mat0 3) with
  | Some (_, o) => map (option_map r_in) o = [Some 2; Some 0; Some 0; None; Some 1; Some 0; Some 2; Some 0] | None => False end.
Proof. split; [exact ex_window_ok|vm_compute; reflexivity]. Qed.

(** C25. An input that keeps requesting with top priority sees at most size-1 used grants before
    its own. *)
Theorem C25_no_starvation : forall n pre l i, i < n -> Forall (round_ok n) (pre ++ l) -> Forall (wants i) l ->
  exists s0 outs0 s outs, arun (matrix n) (rounds_ops pre) (a_init (matrix n)) = Some (s0, outs0) /\
    arun (matrix n) (rounds_ops l) s0 = Some (s, outs) /\ (Forall (not_granted i) outs -> length (filter used l) < n).
Proof. intros n. exact (fair_starve n _ (mat_fair n)). Qed.
Print Assumptions C25_no_starvation.

Example C25_no_starvation_ex : Forall (round_ok 3) (ex_rounds ++ ex_window) /\ Forall (wants 0) ex_window.
Proof. split; [exact ex_window_ok|exact ex_window_wants]. Qed.

(** C26. Every arbiter that can be constructed, trees of trees included, never fails an assert in a
    legal sequence of calls, and grants a request of top priority exactly when there is a request. *)
Theorem C26_sound : forall k n a l, new_arbiter k n = Some a -> legal n [] false l ->
  exists s outs, arun a l (a_init a) = Some (s, outs) /\ Forall2 good (asked [] l) outs.
Proof. exact new_arbiter_runs. Qed.
Print Assumptions C26_sound.

Example C26_sound_ex : legal 4 [] false ex_calls /\
  match new_arbiter (TreeOf 2 (TreeOf 1 Matrix)) 4 with
  | Some a => match arun a ex_calls (a_init a) with Some (_, o) => o = [Some (2, 10%Z, 5%Z); None; Some (1, 13%Z, 0%Z)] | None => False end
  | None => False end.
Proof. split; [cbn; intuition lia|vm_compute; reflexivity]. Qed.

(** C26. Which trees can be constructed: the number of groups divides the size. *)
Theorem C26_constructible : forall g k n, (exists a, new_arbiter (TreeOf g k) n = Some a) <->
  g <> 0 /\ n mod g = 0 /\ (exists a, new_arbiter k (n / g) = Some a) /\ (exists a, new_arbiter k g = Some a).
Proof.
  intros g k n. cbn [new_arbiter]. destruct (Nat.eqb_spec g 0); [split; [intros [a X]; discriminate|tauto]|].
  destruct (Nat.eqb_spec (n mod g) 0); [|split; [intros [a X]; discriminate|tauto]].
  destruct (new_arbiter k (n / g)), (new_arbiter k g); (split; [intros [x X]|intros [_ [_ [[x X] [y Y]]]]]); try discriminate; eauto 8.
Qed.
Print Assumptions C26_constructible.

Example C26_constructible_ex : (exists a, new_arbiter (TreeOf 4 (TreeOf 2 RoundRobin)) 8 = Some a) /\ new_arbiter (TreeOf 3 RoundRobin) 8 = None.
Proof. split; [eexists; reflexivity|reflexivity]. Qed.

(** C62. Every arbiter that can be constructed lets an input that keeps requesting with top
    priority see at most size-1 used grants before its own. *)
Theorem C62_no_starvation : forall k n a pre l i, new_arbiter k n = Some a -> i < n -> Forall (round_ok n) (pre ++ l) -> Forall (wants i) l ->
  exists s0 outs0 s outs, arun a (rounds_ops pre) (a_init a) = Some (s0, outs0) /\
    arun a (rounds_ops l) s0 = Some (s, outs) /\ (Forall (not_granted i) outs -> length (filter used l) < n).
Proof. intros k n a pre l i E. exact (fair_starve n a (new_arbiter_fair k n a E) pre l i). Qed.
Print Assumptions C62_no_starvation.

(** In a tree of two groups of two, input 3 waits for three grants: the bound is reached. *)
Definition all4 : round := rd [(0, 1%Z); (1, 1%Z); (2, 1%Z); (3, 1%Z)] true.
Example C62_no_starvation_ex : Forall (wants 3) (repeat all4 4) /\
  match new_arbiter (TreeOf 2 RoundRobin) 4 with
  | Some a => match arun a (rounds_ops (repeat all4 4)) (a_init a) with
              | Some (_, o) => map (option_map r_in) o = [Some 0; Some 2; Some 1; Some 3] | None => False end
  | None => False end.
Proof.
  split; [|vm_compute; reflexivity]. repeat (apply Forall_cons; [exists (3, 0%Z, 1%Z); cbn; split; [auto|]; split; [auto|]; intros j J;
    repeat (destruct J as [<-|J]; [cbn; lia|]); destruct J|]); apply Forall_nil.
Qed.
