(** The programs of the MLP design, executed one instruction after the other. *)
From Coq Require Import ZArith Arith Bool List Lia.
From Verif Require Import StreamSpec MvmModel MvmSpec MvmProofs MvmProgress MlpModel MlpSpec.
Import ListNotations.
Open Scope nat_scope.

(** ** Sums *)
Lemma sum_ext : forall f g k, (forall i, i < k -> f i = g i) -> sum f k = sum g k.
Proof. induction k as [|k IH]; intros H; [reflexivity|]. cbn. rewrite IH by (intros; apply H; lia). rewrite H by lia. reflexivity. Qed.
Lemma sum_plus : forall f a b, sum f (a + b) = (sum f a + sum (fun i => f (a + i)%nat) b)%Z.
Proof. induction b as [|b IH]; [rewrite Nat.add_0_r; cbn; lia|]. rewrite Nat.add_succ_r. cbn. rewrite IH. lia. Qed.
Lemma sum_zero : forall f k, (forall i, i < k -> f i = 0%Z) -> sum f k = 0%Z.
Proof. induction k as [|k IH]; intros H; [reflexivity|]. cbn. rewrite IH by (intros; apply H; lia). rewrite H by lia. reflexivity. Qed.
Lemma sum_add : forall f g k, sum (fun i => f i + g i)%Z k = (sum f k + sum g k)%Z.
Proof. induction k as [|k IH]; [reflexivity|]. cbn. rewrite IH. lia. Qed.
Lemma sum_grid : forall f c k, sum (fun i => sum (fun j => f (i * c + j)) c) k = sum f (k * c).
Proof. induction k as [|k IH]; [reflexivity|]. cbn [sum]. rewrite IH. replace (S k * c) with (k * c + c) by lia. rewrite sum_plus. reflexivity. Qed.
Lemma sum_swap : forall (f : nat -> nat -> Z) a b, sum (fun i => sum (f i) b) a = sum (fun j => sum (fun i => f i j) a) b.
Proof. intros f. induction a as [|a IH]; intros b; cbn [sum]; [symmetry; apply sum_zero; reflexivity|]. rewrite IH. rewrite <- sum_add. apply sum_ext. reflexivity. Qed.

Lemma wrap_eq : forall a b, (a mod 2 ^ 32 = b mod 2 ^ 32)%Z -> wrap a = wrap b.
Proof. intros a b H. rewrite <- (wrap_mod a), <- (wrap_mod b), H. reflexivity. Qed.
Lemma wrap_modulo : forall a, (wrap a mod 2 ^ 32 = a mod 2 ^ 32)%Z.
Proof.
  intros. unfold wrap. rewrite Zminus_mod, Zmod_mod, <- Zminus_mod. f_equal. lia.
Qed.
Lemma wrap_cong_mul : forall a b, ((wrap a * b) mod 2 ^ 32 = (a * b) mod 2 ^ 32)%Z.
Proof. intros. rewrite Zmult_mod, wrap_modulo, <- Zmult_mod. reflexivity. Qed.
Lemma sum_mod : forall f g k, (forall i, i < k -> (f i mod 2 ^ 32 = g i mod 2 ^ 32)%Z) -> (sum f k mod 2 ^ 32 = sum g k mod 2 ^ 32)%Z.
Proof. induction k as [|k IH]; intros H; [reflexivity|]. cbn [sum]. rewrite Zplus_mod, IH by (intros; apply H; lia). rewrite H by lia. rewrite <- Zplus_mod. reflexivity. Qed.

Lemma inner_sum : forall f g n a, inner (map f (seq a n)) (map g (seq a n)) = sum (fun e => f (a + e)%nat * g (a + e)%nat)%Z n.
Proof.
  intros f g. induction n as [|n IH]; intros a; [reflexivity|]. cbn [seq map inner]. rewrite IH. replace (S n) with (1 + n) by lia. rewrite sum_plus. cbn [sum]. rewrite Nat.add_0_r, Z.add_0_l. f_equal.
  apply sum_ext. intros i _. replace (a + (1 + i)) with (S a + i) by lia. reflexivity.
Qed.

(** ** Lists *)
Lemma nth_map_seq : forall A (f : nat -> A) d n i, i < n -> nth i (map f (seq 0 n)) d = f i.
Proof. intros A f d n i H. rewrite (nth_indep _ d (f 0)) by (rewrite map_length, seq_length; exact H). rewrite map_nth, seq_nth by exact H. reflexivity. Qed.
Lemma seq_more : forall n a, seq a (S n) = seq a n ++ [a + n].
Proof. intros. replace (S n) with (n + 1) by lia. rewrite seq_app. reflexivity. Qed.
Lemma flat_len : forall A (g : nat -> nat -> A) c N, length (flat_map (fun i => map (g i) (seq 0 c)) (seq 0 N)) = N * c.
Proof. intros A g c. induction N as [|N IH]; [reflexivity|]. rewrite seq_more, flat_map_app, app_length, IH. cbn. rewrite app_nil_r, map_length, seq_length. lia. Qed.
Lemma nth_grid : forall A (g : nat -> nat -> A) c N i j, i < N -> j < c -> nth_error (flat_map (fun i => map (g i) (seq 0 c)) (seq 0 N)) (i * c + j) = Some (g i j).
Proof.
  intros A g c. induction N as [|N IH]; intros i j Hi Hj; [lia|]. rewrite seq_more, flat_map_app. cbn [flat_map plus]. rewrite app_nil_r.
  destruct (Nat.eq_dec i N) as [-> |NE].
  - rewrite nth_error_app2; rewrite flat_len; [|lia]. replace (N * c + j - N * c) with j by lia. erewrite map_nth_error; [reflexivity|]. rewrite nth_error_nth' with (d := 0) by (rewrite seq_length; exact Hj). rewrite seq_nth by exact Hj. reflexivity.
  - rewrite nth_error_app1 by (rewrite flat_len; nia). apply IH; lia.
Qed.
Lemma flat_stride : forall A (f : nat -> list A) K m N, m < K -> flat_map (fun i => if i mod K =? m then f i else []) (seq 0 (N * K)) = flat_map (fun i => f (i * K + m)) (seq 0 N).
Proof.
  intros A f K m N H. induction N as [|N IH]; [reflexivity|]. replace (S N * K) with (N * K + K) by lia. rewrite seq_app, flat_map_app, seq_more, flat_map_app, IH. f_equal. cbn [flat_map plus]. rewrite app_nil_r.
  assert (G : forall k a, a + k <= K -> flat_map (fun i => if i mod K =? m then f i else []) (seq (N * K + a) k) = if (a <=? m) && (m <? a + k) then f (N * K + m) else []).
  { induction k as [|k IHk]; intros a L; cbn [seq flat_map].
    - destruct (a <=? m) eqn:E1; [|reflexivity]. destruct (Nat.ltb_spec m (a + 0)); [apply Nat.leb_le in E1; lia|reflexivity].
    - replace (S (N * K + a)) with (N * K + S a) by lia. rewrite IHk by lia. rewrite Nat.add_comm, Nat.mod_add by lia. rewrite Nat.mod_small by lia.
      destruct (Nat.eqb_spec a m) as [-> |NE].
      + replace (m <=? m) with true by (symmetry; apply Nat.leb_le; lia). replace (m <? m + S k) with true by (symmetry; apply Nat.ltb_lt; lia). replace (S m <=? m) with false by (symmetry; apply Nat.leb_gt; lia). cbn. rewrite app_nil_r. f_equal. lia.
      + cbn [app]. replace (S a <=? m) with (a <=? m); [replace (S a + k) with (a + S k) by lia; reflexivity|]. destruct (Nat.leb_spec a m), (Nat.leb_spec (S a) m); try reflexivity; lia. }
  specialize (G K 0). rewrite Nat.add_0_r in G. cbn [plus] in G. rewrite G by lia. cbn [Nat.leb andb]. destruct (Nat.ltb_spec m K); [reflexivity|lia].
Qed.

(** ** Instructions *)
Lemma runs_app : forall n depth prog W s k1 o1 s1 k2 o2 s2, runs n depth prog W s k1 o1 s1 -> runs n depth prog W s1 k2 o2 s2 -> runs n depth prog W s (k1 + k2) (o1 ++ o2) s2.
Proof.
  intros n depth prog W s k1 o1 s1 k2 o2 s2 A B. induction B as [|k os sa o sb B IH E]; [rewrite Nat.add_0_r, app_nil_r; exact A|].
  rewrite Nat.add_succ_r, app_assoc. econstructor; eassumption.
Qed.

Section Engine.
Variables (n depth : nat) (prog : list inst) (W : list (list vec)) (X Y : nat) (red : bool) (dst : nat -> Z * Z).
Hypothesis HX : 0 < X. Hypothesis HY : 0 < Y. Hypothesis HD : X * Y + 1 <= depth.
Hypothesis HP : forall i j, i < X -> j < Y -> nth_error prog (i * Y + j) =
  Some {| i_en := true; i_jump := false; i_reduce := red && (i =? X - 1); i_accum := j; i_accum_en := negb (i =? 0); i_release := i =? X - 1; i_raddr := i * Y + j; i_last := j =? Y - 1;
          i_layer := fst (dst j); i_mvm := snd (dst j) |}.
Hypothesis HJ : nth_error prog (X * Y) = Some jump_line.
Notation istep := (istep n depth prog W).
Notation runs := (runs n depth prog W).

Definition row (i j d : nat) : vec := nth (i * Y + j) (nth d W []) [].

Section One.
Variables (xs rs : list vec) (rest rest' : list vec).
Hypothesis LX : length xs = X. Hypothesis LR : length rs = if red then Y else 0.

Definition upto (i j d : nat) : Z := sum (fun i' => inner (nth i' xs []) (row i' j d)) i.
Definition extra (j d : nat) : Z := if red then nth d (nth j rs []) 0%Z else 0%Z.
(** What is kept in slot [j] after [i] blocks. *)
Definition part (i j : nat) : vec := map (fun d => wrap (upto i j d + if i =? X then extra j d else 0%Z)) (seq 0 n).
Definition ready (i j : nat) (K : list (nat * vec)) : Prop := (forall j', j' < j -> slot j' K = Some (part (S i) j')) /\ (0 < i -> forall j', j <= j' < Y -> slot j' K = Some (part i j')).
Definition at_op (i j : nat) (K : list (nat * vec)) : istate :=
  {| k_pc := i * Y + j; k_ins := skipn (if j =? Y then S i else i) xs ++ rest; k_reds := skipn (if red && (i =? X - 1) then j else if red && (i =? X) then Y else 0) rs ++ rest'; k_kept := K |}.
Definition outs (j : nat) : list result := map (fun j' => (part X j', fst (dst j'), snd (dst j'))) (seq 0 j).

Lemma slot_cons : forall a b v K, slot a ((b, v) :: K) = if b =? a then Some v else slot a K.
Proof. intros. unfold slot. cbn. destruct (b =? a); reflexivity. Qed.

Lemma op_step : forall i j K, i < X -> j < Y -> ready i j K -> exists K', istep (at_op i j K) = Go (at_op i (S j) K') (if i =? X - 1 then [(part X j, fst (dst j), snd (dst j))] else []) /\ ready i (S j) K'.
Proof.
  intros i j K Hi Hj [R1 R2]. unfold MvmSpec.istep, at_op. cbn [k_pc k_ins k_reds k_kept]. rewrite (HP i j Hi Hj). cbn [i_en i_jump i_reduce i_accum i_accum_en i_release i_raddr i_last i_layer i_mvm negb].
  destruct (Nat.leb_spec depth (i * Y + j)) as [B|_]; [exfalso; nia|]. destruct (Nat.leb_spec depth j) as [B|_]; [exfalso; nia|].
  destruct (Nat.eqb_spec j Y) as [B|_]; [lia|]. destruct (Nat.eqb_spec i X) as [B|_]; [lia|]. rewrite andb_false_r.
  assert (SX : skipn i xs = nth i xs [] :: skipn (S i) xs).
  { clear - Hi LX. revert i X LX Hi. induction xs as [|x l IH]; intros i X0 L H; [cbn in L; lia|]. destruct i; [reflexivity|]. cbn [skipn nth]. apply (IH i (X0 - 1)); cbn in L; lia. }
  rewrite SX. cbn [app].
  set (r := if red && (i =? X - 1) then nth j rs [] else repeat 0%Z n).
  assert (SR : (if red && (i =? X - 1) then match skipn (if red && (i =? X - 1) then j else 0) rs ++ rest' with [] => None | a :: q => Some (a, q) end
                else Some (repeat 0%Z n, skipn (if red && (i =? X - 1) then j else 0) rs ++ rest')) = Some (r, skipn (if red && (i =? X - 1) then S j else 0) rs ++ rest')).
  { subst r. destruct (red && (i =? X - 1)) eqn:E; [|reflexivity]. apply andb_true_iff in E as [E _]. rewrite E in LR.
    assert (S2 : skipn j rs = nth j rs [] :: skipn (S j) rs).
    { clear - Hj LR. revert j Y LR Hj. induction rs as [|x l IH]; intros j Y0 L H; [cbn in L; lia|]. destruct j; [reflexivity|]. cbn [skipn nth]. apply (IH j (Y0 - 1)); cbn in L; lia. }
    rewrite S2. reflexivity. }
  rewrite SR. set (kept := if negb (i =? 0) then slot j K else None).
  assert (KE : kept = if i =? 0 then None else Some (part i j)). { subst kept. destruct (Nat.eqb_spec i 0); [reflexivity|]. cbn [negb]. apply R2; lia. }
  assert (PR : product n W (i * Y + j) (nth i xs []) r kept = part (S i) j).
  { unfold product, part. apply map_ext_in. intros d Hd. apply in_seq in Hd. rewrite KE. change (nth (i * Y + j) (nth d W []) []) with (row i j d).
    unfold upto at 1. cbn [sum]. fold (upto i j d). destruct (Nat.eqb_spec i 0) as [-> |N0].
    - unfold upto. cbn [sum]. rewrite Z.add_0_r, Z.add_0_l. f_equal. f_equal. subst r. unfold extra. destruct (Nat.eqb_spec 0 (X - 1)) as [E|E].
      + replace (1 =? X) with true by (symmetry; apply Nat.eqb_eq; lia). rewrite andb_true_r. destruct red; [reflexivity|apply nth_repeat].
      + rewrite andb_false_r. replace (1 =? X) with false by (symmetry; apply Nat.eqb_neq; lia). apply nth_repeat.
    - unfold part. rewrite nth_map_seq by lia. destruct (Nat.eqb_spec i X) as [B|_]; [lia|]. rewrite Z.add_0_r. rewrite (Z.add_comm _ (wrap _)), wrap_idem. f_equal.
      assert (RX : nth d r 0%Z = if S i =? X then extra j d else 0%Z); [|rewrite RX; lia].
      subst r. unfold extra. destruct (Nat.eqb_spec i (X - 1)) as [E|E].
      + replace (S i =? X) with true by (symmetry; apply Nat.eqb_eq; lia). rewrite andb_true_r. destruct red; [reflexivity|apply nth_repeat].
      + rewrite andb_false_r. replace (S i =? X) with false by (symmetry; apply Nat.eqb_neq; lia). apply nth_repeat. }
  exists ((j, part (S i) j) :: K). split.
  - transitivity (Go {| k_pc := S (i * Y + j); k_ins := if j =? Y - 1 then skipn (S i) xs ++ rest else nth i xs [] :: skipn (S i) xs ++ rest; k_reds := skipn (if red && (i =? X - 1) then S j else 0) rs ++ rest'; k_kept := (j, part (S i) j) :: K |}
            (if i =? X - 1 then [(part (S i) j, fst (dst j), snd (dst j))] else [])).
    { rewrite <- PR. subst kept. destruct (Nat.eqb_spec i 0); cbn [negb] in *; [reflexivity|]. rewrite KE. reflexivity. }
    f_equal.
    + f_equal; [lia|]. destruct (Nat.eqb_spec (S j) Y), (Nat.eqb_spec j (Y - 1)); try lia; [reflexivity|]. rewrite SX. reflexivity.
    + destruct (Nat.eqb_spec i (X - 1)); [|reflexivity]. replace (S i) with X by lia. reflexivity.
  - split.
    + intros j' Hj'. rewrite slot_cons. destruct (Nat.eqb_spec j j') as [-> |NE]; [reflexivity|]. apply R1. lia.
    + intros I0 j' Hj'. rewrite slot_cons. destruct (Nat.eqb_spec j j') as [-> |NE]; [lia|]. apply R2; lia.
Qed.

Lemma row_steps : forall i K, i < X -> ready i 0 K -> forall j, j <= Y -> exists K', runs (at_op i 0 K) j (if i =? X - 1 then outs j else []) (at_op i j K') /\ ready i j K'.
Proof.
  intros i K Hi R. induction j as [|j IH]; intros Hj.
  - exists K. split; [|exact R]. destruct (i =? X - 1); apply runs_none.
  - destruct IH as [K1 [A B]]; [lia|]. destruct (op_step i j K1 Hi) as [K2 [C D]]; [lia|exact B|]. exists K2. split; [|exact D].
    replace (if i =? X - 1 then outs (S j) else []) with ((if i =? X - 1 then outs j else []) ++ (if i =? X - 1 then [(part X j, fst (dst j), snd (dst j))] else [])).
    + econstructor; eassumption.
    + destruct (i =? X - 1); [|reflexivity]. unfold outs. rewrite seq_more, map_app. reflexivity.
Qed.

Lemma next_row : forall i K, i < X -> at_op i Y K = at_op (S i) 0 K.
Proof.
  intros i K Hi. unfold at_op. rewrite Nat.eqb_refl. destruct (Nat.eqb_spec 0 Y); [lia|]. f_equal; [lia|]. f_equal. destruct (Nat.eqb_spec i X); [lia|]. rewrite andb_false_r.
  destruct (Nat.eqb_spec i (X - 1)).
  - replace (S i =? X - 1) with false by (symmetry; apply Nat.eqb_neq; lia). replace (S i =? X) with true by (symmetry; apply Nat.eqb_eq; lia). rewrite andb_true_r, andb_false_r. destruct red; reflexivity.
  - rewrite andb_false_r. replace (S i =? X) with false by (symmetry; apply Nat.eqb_neq; lia). rewrite andb_false_r. destruct (Nat.eqb_spec (S i) (X - 1)); [rewrite andb_true_r; destruct red; reflexivity|]. rewrite andb_false_r. reflexivity.
Qed.

Lemma rows_steps : forall K, forall i, i <= X -> exists K', runs (at_op 0 0 K) (i * Y) (if i =? X then outs Y else []) (at_op i 0 K') /\ ready i 0 K'.
Proof.
  intros K. induction i as [|i IH]; intros Hi.
  - exists K. split; [|split; lia]. destruct (Nat.eqb_spec 0 X); [lia|]. apply runs_none.
  - destruct IH as [K1 [A B]]; [lia|]. destruct (row_steps i K1 ltac:(lia) B Y (Nat.le_refl _)) as [K2 [C [D1 D2]]]. rewrite next_row in C by lia. exists K2.
    destruct (Nat.eqb_spec i X); [lia|]. cbn [app] in A. split.
    + replace (S i * Y) with (i * Y + Y) by lia. replace (if S i =? X then outs Y else []) with ([] ++ (if i =? X - 1 then outs Y else [])); [eapply runs_app; eassumption|].
      cbn [app]. destruct (Nat.eqb_spec i (X - 1)), (Nat.eqb_spec (S i) X); try lia; reflexivity.
    + split; [intros; lia|]. intros _ j' Hj'. apply D1. lia.
Qed.

Lemma one_vector : forall K, exists K', runs {| k_pc := 0; k_ins := xs ++ rest; k_reds := rs ++ rest'; k_kept := K |} (X * Y + 1) (outs Y) {| k_pc := 0; k_ins := rest; k_reds := rest'; k_kept := K' |}.
Proof.
  intros K. destruct (rows_steps K X (Nat.le_refl _)) as [K' [A _]]. rewrite Nat.eqb_refl in A. exists K'.
  replace (X * Y + 1) with (S (X * Y)) by lia. rewrite <- (app_nil_r (outs Y)). eapply runs_one with (s' := at_op X 0 K').
  - replace {| k_pc := 0; k_ins := xs ++ rest; k_reds := rs ++ rest'; k_kept := K |} with (at_op 0 0 K); [exact A|]. unfold at_op. destruct (Nat.eqb_spec 0 Y); [lia|]. destruct (Nat.eqb_spec 0 X); [lia|]. rewrite andb_false_r.
    destruct (red && (0 =? X - 1)); reflexivity.
  - unfold at_op, MvmSpec.istep. cbn [k_pc k_ins k_reds k_kept]. rewrite Nat.add_0_r, HJ. cbn [jump_line i_raddr i_en i_jump negb]. destruct (Nat.leb_spec depth 0) as [B|_]; [nia|]. f_equal. f_equal.
    + destruct (Nat.eqb_spec 0 Y); [lia|]. rewrite skipn_all2 by lia. reflexivity.
    + rewrite Nat.eqb_refl. rewrite skipn_all2; [reflexivity|]. rewrite LR. destruct red; cbn [andb]; [|lia]. destruct (Nat.eqb_spec X (X - 1)); lia.
Qed.
End One.

(** A number of vectors. *)
Lemma all_vectors : forall (xs rs : nat -> list vec), (forall t, length (xs t) = X) -> (forall t, length (rs t) = if red then Y else 0) -> forall T a K, exists K',
  runs {| k_pc := 0; k_ins := flat_map xs (seq a T); k_reds := flat_map rs (seq a T); k_kept := K |} (T * (X * Y + 1)) (flat_map (fun t => outs (xs t) (rs t) Y) (seq a T)) {| k_pc := 0; k_ins := []; k_reds := []; k_kept := K' |}.
Proof.
  intros xs rs LX LR. induction T as [|T IH]; intros a K.
  - exists K. apply runs_none.
  - cbn [seq flat_map]. destruct (one_vector (xs a) (rs a) (flat_map xs (seq (S a) T)) (flat_map rs (seq (S a) T)) (LX a) (LR a) K) as [K1 A]. destruct (IH (S a) K1) as [K2 B]. exists K2.
    replace (S T * (X * Y + 1)) with (X * Y + 1 + T * (X * Y + 1)) by lia. eapply runs_app; eassumption.
Qed.
Lemma waits : forall K, istep {| k_pc := 0; k_ins := []; k_reds := []; k_kept := K |} = Wait.
Proof.
  intros K. unfold MvmSpec.istep. cbn [k_pc k_ins k_reds k_kept]. pose proof (HP 0 0 HX HY) as E. rewrite Nat.mul_0_l, Nat.add_0_l in E. rewrite E. cbn [i_raddr i_en i_jump negb]. destruct (Nat.leb_spec depth 0) as [B|_]; [nia|]. reflexivity.
Qed.
End Engine.
