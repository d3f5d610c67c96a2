(** Proofs about the credit tracker. *)
From Coq Require Import ZArith Arith Bool List Lia.
From Verif Require Import Fupd BufferModel BufferSpec.
Import ListNotations.
Open Scope Z_scope.

(** ** Sums *)
Lemma sum_app : forall l1 l2, fold_right Z.add 0 (l1 ++ l2) = fold_right Z.add 0 l1 + fold_right Z.add 0 l2.
Proof. induction l1; intros; cbn [app fold_right]; [lia|rewrite IHl1; lia]. Qed.
Lemma total_S : forall f n, total f (S n) = total f n + f n.
Proof. intros. unfold total. rewrite seq_S, map_app, sum_app. cbn [plus map fold_right]. lia. Qed.
Lemma total_ext : forall f g n, (forall v, (v < n)%nat -> f v = g v) -> total f n = total g n.
Proof. intros f g n. induction n; intros H; [reflexivity|]. rewrite !total_S, IHn, H; auto. Qed.
Lemma total_fupd_out : forall f v x n, (n <= v)%nat -> total (fupd f v x) n = total f n.
Proof. intros. apply total_ext. intros w Hw. apply fupd_other. lia. Qed.
Lemma total_fupd : forall f v x n, (v < n)%nat -> total (fupd f v x) n = total f n + x - f v.
Proof.
  intros f v x n. induction n; intros H; [lia|]. rewrite !total_S. destruct (Nat.eq_dec v n) as [->|Ne].
  - rewrite total_fupd_out, fupd_same by lia. lia.
  - rewrite IHn, fupd_other by lia. lia.
Qed.
Lemma total_add : forall f g n, total (fun v => f v + g v) n = total f n + total g n.
Proof. intros. induction n; [reflexivity|]. rewrite !total_S, IHn. lia. Qed.
Lemma total_le : forall f g n, (forall v, (v < n)%nat -> f v <= g v) -> total f n <= total g n.
Proof. intros f g n. induction n; intros H; [reflexivity|]. rewrite !total_S. specialize (IHn (fun v Hv => H v (Nat.lt_lt_succ_r _ _ Hv))). specialize (H n). lia. Qed.
Lemma total_zero : forall n, total (fun _ => 0) n = 0.
Proof. induction n; [reflexivity|]. rewrite total_S, IHn. lia. Qed.
Lemma total_nonneg : forall f n, (forall v, (v < n)%nat -> 0 <= f v) -> 0 <= total f n.
Proof. intros. rewrite <- (total_zero n). apply total_le. auto. Qed.
Lemma total_ge : forall f n v, (forall v, (v < n)%nat -> 0 <= f v) -> (v < n)%nat -> f v <= total f n.
Proof.
  intros f n v H Hv. pose proof (total_nonneg (fupd f v 0) n) as X. rewrite total_fupd in X by auto.
  enough (0 <= total f n + 0 - f v) by lia. apply X. intros w Hw. unfold fupd. destruct (w =? v)%nat; auto. lia.
Qed.
Lemma total_swap : forall f n m, total (fun i => total (fun v => f i v) n) m = total (fun v => total (fun i => f i v) m) n.
Proof.
  intros f n m. induction m.
  - rewrite (total_ext (fun v => total (fun i => f i v) 0) (fun _ => 0)) by reflexivity. rewrite total_zero. reflexivity.
  - rewrite total_S, IHm, <- total_add. apply total_ext. intros v _. rewrite total_S. reflexivity.
Qed.
Lemma total_one : forall k x n, (k < n)%nat -> total (fun i => if Nat.eqb k i then x else 0) n = x.
Proof.
  intros k x n H. rewrite (total_ext _ (fupd (fun _ => 0) k x)).
  - rewrite total_fupd, total_zero by auto. lia.
  - intros v _. unfold fupd. rewrite (Nat.eqb_sym k v). reflexivity.
Qed.

(** ** The tracker, for any policy that keeps an invariant *)
Definition take_b (v : nat) (tag : Z) (b : bst) : bst :=
  {| b_occ := b_occ b; b_vocc := b_vocc b; b_use := fupd (b_use b) v tag; b_tail := fupd (b_tail b) v false |}.
Definition inc_b (v : nat) (b : bst) : bst := {| b_occ := b_occ b + 1; b_vocc := fupd (b_vocc b) v (b_vocc b v + 1); b_use := b_use b; b_tail := b_tail b |}.
Definition send_b (w : bool) (v : nat) (tail : bool) (b : bst) : bst :=
  if tail then {| b_occ := b_occ b + 1; b_vocc := fupd (b_vocc b) v (b_vocc b v + 1); b_use := if w then b_use b else fupd (b_use b) v (-1); b_tail := fupd (b_tail b) v true |}
  else inc_b v b.
Definition dec_b (w : bool) (v : nat) (b : bst) : bst :=
  {| b_occ := b_occ b - 1; b_vocc := fupd (b_vocc b) v (b_vocc b v - 1);
     b_use := if w && (b_vocc b v - 1 =? 0) && b_tail b v then fupd (b_use b) v (-1) else b_use b; b_tail := b_tail b |}.

(** A packet is under way. *)
Definition act (b : bst) (v : nat) : Prop := 0 <= b_use b v /\ b_tail b v = false.

(** The invariant of the base class. *)
Record base_ok (c : bcfg) (b : bst) : Prop := {
  bo_sum : b_occ b = total (b_vocc b) (bc_vcs c);
  bo_pos : forall v, (v < bc_vcs c)%nat -> 0 <= b_vocc b v;
  bo_nowait : bc_wait c = false -> forall v, (v < bc_vcs c)%nat -> 0 <= b_use b v -> b_tail b v = false;
  bo_wait : bc_wait c = true -> forall v, (v < bc_vcs c)%nat ->
            (b_use b v < 0 -> b_vocc b v = 0) /\ (0 <= b_use b v -> b_tail b v = true -> 0 < b_vocc b v) }.

Record policy_ok (c : bcfg) (P : bpolicy) (I : bst -> po_st P -> Prop) : Prop := {
  pk_init : I bst0 (po_init P);
  pk_full : forall t b p v, base_ok c b -> I b p -> (v < bc_vcs c)%nat -> exists f, po_full P t b v p = Some f;
  pk_take : forall b p v tag, base_ok c b -> I b p -> (v < bc_vcs c)%nat -> b_use b v < 0 -> 0 <= tag ->
            exists p', po_take P v p = Some p' /\ I (take_b v tag b) p';
  pk_send : forall t b p v tail, base_ok c b -> I b p -> (v < bc_vcs c)%nat -> act b v -> po_full P t b v p = Some false ->
            b_occ b + 1 <= bc_size c /\ exists p', po_send P t (inc_b v b) v tail p = Some p' /\ I (send_b (bc_wait c) v tail b) p';
  pk_free : forall t b p v, base_ok c b -> I b p -> (v < bc_vcs c)%nat -> 0 < b_vocc b v -> (bc_wait c = true -> 0 <= b_use b v) ->
            exists p', po_free P t (dec_b (bc_wait c) v b) v p = Some p' /\ I (dec_b (bc_wait c) v b) p' }.

(** A condition for sending that taking other channels does not end. *)
Record room_ok (c : bcfg) (P : bpolicy) (I : bst -> po_st P -> Prop) (R : Z -> bst -> nat -> po_st P -> Prop) : Prop := {
  rm_full : forall t b p v, po_full P t b v p = Some false -> R t b v p;
  rm_take : forall t b p v w tag p', v <> w -> po_take P v p = Some p' -> R t b w p -> R t (take_b v tag b) w p';
  rm_send : forall t b p v tail, base_ok c b -> I b p -> (v < bc_vcs c)%nat -> act b v -> R t b v p ->
            b_occ b + 1 <= bc_size c /\ exists p', po_send P t (inc_b v b) v tail p = Some p' /\ I (send_b (bc_wait c) v tail b) p' }.

Lemma base0 : forall c, base_ok c bst0.
Proof. intros. constructor; cbn; intros; try lia. symmetry. apply total_zero. Qed.

Ltac fu := unfold fupd in *; repeat match goal with |- context [Nat.eqb ?a ?b] => destruct (Nat.eqb_spec a b); subst | H : context [Nat.eqb ?a ?b] |- _ => destruct (Nat.eqb_spec a b); subst end.

Lemma take_base : forall c b v tag, base_ok c b -> (v < bc_vcs c)%nat -> b_use b v < 0 -> 0 <= tag -> base_ok c (take_b v tag b).
Proof.
  intros c b v tag [A1 A2 A3 A4] Hv Hu Ht. constructor; cbn [take_b b_occ b_vocc b_use b_tail]; auto.
  - intros W w Hw. fu; auto.
  - intros W w Hw. specialize (A4 W w Hw). fu; [|auto]. split; [lia|discriminate].
Qed.
Lemma send_base : forall c b v tail, base_ok c b -> (v < bc_vcs c)%nat -> act b v -> base_ok c (send_b (bc_wait c) v tail b).
Proof.
  intros c b v tail [A1 A2 A3 A4] Hv [Hu Ht]. constructor.
  - destruct tail; cbn [send_b inc_b b_occ b_vocc]; rewrite total_fupd by auto; lia.
  - intros w Hw. specialize (A2 w Hw). destruct tail; cbn [send_b inc_b b_vocc]; fu; lia.
  - intros W w Hw. specialize (A3 W w Hw). rewrite W. destruct tail; cbn [send_b inc_b b_use b_tail]; auto. fu; auto. lia.
  - intros W w Hw. pose proof (A4 W w Hw) as [B1 B2]. specialize (A2 w Hw). rewrite W. destruct tail; cbn [send_b inc_b b_use b_tail b_vocc]; fu; split; intros; try lia; auto.
Qed.
Lemma dec_base : forall c b v, base_ok c b -> (v < bc_vcs c)%nat -> 0 < b_vocc b v -> base_ok c (dec_b (bc_wait c) v b).
Proof.
  intros c b v [A1 A2 A3 A4] Hv Hp. constructor; cbn [dec_b b_occ b_vocc b_use b_tail].
  - rewrite total_fupd by auto. lia.
  - intros w Hw. specialize (A2 w Hw). fu; lia.
  - intros W w Hw. rewrite W. cbn [andb]. auto.
  - intros W w Hw. rewrite W. cbn [andb]. destruct (A4 W w Hw) as [B1 B2]. destruct (b_vocc b v - 1 =? 0) eqn:E; cbn [andb].
    + destruct (b_tail b v) eqn:T.
      * fu; split; intros; try lia; auto.
      * fu; split; intros; try lia; try congruence; auto.
    + apply Z.eqb_neq in E. fu; split; intros; try lia; auto.
Qed.

Section Tracker.
Variables (c : bcfg) (P : bpolicy) (I : bst -> po_st P -> Prop).
Hypothesis HP : policy_ok c P I.

(** The state agrees with the history. *)
Record st_ok (h : list (Z * bev)) (s : bufs P) : Prop := {
  so_base : base_ok c (bs_b s);
  so_pol : I (bs_b s) (bs_p s);
  so_occ : forall v, (v < bc_vcs c)%nat -> b_vocc (bs_b s) v = sent v h - credited v h;
  so_busy : forall v, (v < bc_vcs c)%nat -> busy v h = true <-> act (bs_b s) v }.

Lemma sent_app : forall v h1 h2, sent v (h1 ++ h2) = sent v h1 + sent v h2.
Proof. intros v h1 h2. induction h1 as [|[t e] h1 IH]; cbn [app sent]; [lia|]. destruct e; cbn [sent]; lia. Qed.
Lemma credited_app : forall v h1 h2, credited v (h1 ++ h2) = credited v h1 + credited v h2.
Proof. intros v h1 h2. induction h1 as [|[t e] h1 IH]; cbn [app credited]; [lia|]. destruct e; cbn [credited]; lia. Qed.
Lemma busy_snoc : forall v h e, busy v (h ++ [e]) = busy_step v (busy v h) e.
Proof. intros. unfold busy. rewrite fold_left_app. reflexivity. Qed.

Lemma credit1_ok : forall t v s, base_ok c (bs_b s) -> I (bs_b s) (bs_p s) -> (v < bc_vcs c)%nat -> 0 < b_vocc (bs_b s) v ->
  exists s', bs_credit1 c P t v s = Some s' /\ bs_b s' = dec_b (bc_wait c) v (bs_b s) /\ I (bs_b s') (bs_p s').
Proof.
  intros t v s B HI Hv Hp.
  assert (U : bc_wait c = true -> 0 <= b_use (bs_b s) v).
  { intros W. destruct (Z.le_gt_cases 0 (b_use (bs_b s) v)) as [|G]; auto. pose proof (proj1 (bo_wait c _ B W v Hv) G). lia. }
  destruct (pk_free c P I HP t (bs_b s) (bs_p s) v B HI Hv Hp U) as [p' [E HI']].
  unfold bs_credit1. rewrite (proj2 (Nat.ltb_lt _ _) Hv). cbn [negb].
  assert (X : bc_wait c && (b_use (bs_b s) v <? 0) = false).
  { destruct (bc_wait c); auto. cbn [andb]. apply Z.ltb_ge. auto. }
  rewrite X. pose proof (total_ge (b_vocc (bs_b s)) (bc_vcs c) v (bo_pos c _ B) Hv) as G. rewrite <- (bo_sum c _ B) in G.
  rewrite (proj2 (Z.ltb_ge (b_occ (bs_b s) - 1) 0)), (proj2 (Z.ltb_ge (b_vocc (bs_b s) v - 1) 0)) by lia.
  unfold empty_for. cbn [b_vocc b_tail b_use b_occ]. rewrite fupd_same.
  assert (Y : bc_wait c && (b_vocc (bs_b s) v - 1 =? 0) && b_tail (bs_b s) v && (b_use (bs_b s) v <? 0) = false).
  { destruct (bc_wait c); auto. cbn [andb]. rewrite (proj2 (Z.ltb_ge _ _)) by auto. apply andb_false_r. }
  rewrite Y. match goal with |- context [po_free P t ?x v _] => assert (Z1 : x = dec_b (bc_wait c) v (bs_b s)) by (unfold dec_b; destruct (bc_wait c && (b_vocc (bs_b s) v - 1 =? 0) && b_tail (bs_b s) v); reflexivity) end.
  rewrite Z1, E. eexists. split; [reflexivity|]. cbn [bs_b bs_p]. auto.
Qed.

Lemma credits_ok : forall t vs s, base_ok c (bs_b s) -> I (bs_b s) (bs_p s) -> NoDup vs ->
  Forall (fun v => (v < bc_vcs c)%nat /\ 0 < b_vocc (bs_b s) v) vs ->
  exists s', bs_credit c P t vs s = Some s' /\ base_ok c (bs_b s') /\ I (bs_b s') (bs_p s') /\
    (forall v, b_vocc (bs_b s') v = b_vocc (bs_b s) v - Z.of_nat (count_occ Nat.eq_dec vs v)) /\
    (forall v, (v < bc_vcs c)%nat -> act (bs_b s') v <-> act (bs_b s) v).
Proof.
  intros t vs. induction vs as [|v vs IH]; intros s B HI ND F.
  - exists s. cbn. split; [auto|]. split; [auto|]. split; [auto|]. split; [intros; lia|tauto].
  - apply NoDup_cons_iff in ND. destruct ND as [Ni ND]. inversion F as [|? ? [Hv Hp] F']; subst.
    destruct (credit1_ok t v s B HI Hv Hp) as [s1 [E1 [D1 I1]]]. cbn [bs_credit]. rewrite E1.
    assert (B1 : base_ok c (bs_b s1)) by (rewrite D1; apply dec_base; auto).
    destruct (IH s1 B1 I1 ND) as [s' [E2 [B2 [I2 [C2 A2]]]]].
    { rewrite Forall_forall in F' |- *. intros w Hw. destruct (F' w Hw) as [X Y]. split; auto. rewrite D1. cbn [dec_b b_vocc].
      rewrite fupd_other; auto. intros ->. contradiction. }
    exists s'. split; [auto|]. split; [auto|]. split; [auto|]. split.
    + intros w. rewrite C2, D1. cbn [dec_b b_vocc count_occ]. fu.
      * destruct (Nat.eq_dec v v); [|congruence]. lia.
      * destruct (Nat.eq_dec v w); [congruence|]. lia.
    + intros w Hw. rewrite A2 by auto. rewrite D1. unfold act. cbn [dec_b b_use b_tail].
      destruct (bc_wait c && (b_vocc (bs_b s) v - 1 =? 0) && b_tail (bs_b s) v) eqn:E; [|tauto].
      apply andb_true_iff in E. destruct E as [_ T]. fu; [|tauto]. rewrite T. split; intros [X Y]; [lia|discriminate].
Qed.

Lemma send_step : forall h t v tail s, st_ok h s -> (v < bc_vcs c)%nat -> act (bs_b s) v ->
  (b_occ (bs_b s) + 1 <= bc_size c /\ exists p', po_send P t (inc_b v (bs_b s)) v tail (bs_p s) = Some p' /\ I (send_b (bc_wait c) v tail (bs_b s)) p') ->
  exists s', bs_send c P t v tail s = Some s' /\ st_ok (h ++ [(t, ESend v tail)]) s'.
Proof.
  intros h t v tail s [B HI O Y] Hv Hb [Hs [p' [E HI']]].
  assert (X : exists s', bs_send c P t v tail s = Some s' /\ bs_b s' = send_b (bc_wait c) v tail (bs_b s) /\ bs_p s' = p').
  { unfold bs_send. rewrite (proj2 (Nat.ltb_lt _ _) Hv), (proj2 (Z.ltb_ge _ _) Hs). cbn [negb]. fold (inc_b v (bs_b s)). rewrite E.
    destruct tail; [|eexists; split; [reflexivity|]; cbn; auto].
    destruct (bc_wait c) eqn:W; [eexists; split; [reflexivity|]; cbn; auto|].
    cbn [inc_b b_use]. destruct Hb as [Hu _]. rewrite (proj2 (Z.ltb_ge _ _) Hu). eexists. split; [reflexivity|]. cbn. auto. }
  destruct X as [s' [E' [Eb Ep]]]. exists s'. split; [auto|]. constructor.
  - rewrite Eb. apply send_base; auto.
  - rewrite Eb, Ep. auto.
  - intros w Hw. rewrite sent_app, credited_app, Eb. cbn [sent credited]. specialize (O w Hw).
    assert (Z1 : b_vocc (send_b (bc_wait c) v tail (bs_b s)) w = fupd (b_vocc (bs_b s)) v (b_vocc (bs_b s) v + 1) w) by (destruct tail; reflexivity).
    rewrite Z1, (Nat.eqb_sym v w). fu; lia.
  - intros w Hw. rewrite busy_snoc, Eb. cbn [busy_step]. specialize (Y w Hw). unfold act in *. rewrite (Nat.eqb_sym v w). destruct tail; cbn [send_b inc_b b_use b_tail].
    + destruct (bc_wait c); fu; cbn [negb]; try exact Y; split; try discriminate; intros [_ X]; discriminate.
    + fu; [|auto]. cbn [negb]. tauto.
Qed.
Lemma step_ok : forall h e s, st_ok h s -> legal c P h s e -> exists s', bs_step c P e s = Some s' /\ st_ok (h ++ [e]) s'.
Proof.
  intros h [t e] s [B HI O Y] L. destruct e as [v tag|v tail|vs]; cbn [legal] in L; cbn [bs_step].
  - destruct L as [Hv [Ht A]]. unfold available_for in A. apply Z.ltb_lt in A.
    destruct (pk_take c P I HP (bs_b s) (bs_p s) v tag B HI Hv A Ht) as [p' [E HI']].
    unfold bs_take. rewrite (proj2 (Nat.ltb_lt _ _) Hv), (proj2 (Z.leb_gt _ _) A), E. cbn [negb]. eexists. split; [reflexivity|].
    constructor; cbn [bs_b bs_p].
    + apply take_base; auto.
    + auto.
    + intros w Hw. rewrite sent_app, credited_app. cbn [sent credited b_vocc]. rewrite O by auto. lia.
    + intros w Hw. rewrite busy_snoc. cbn [busy_step]. unfold act in *. cbn [b_use b_tail]. rewrite (Nat.eqb_sym v w). fu; [|apply Y; auto].
      split; intros; auto.
  - destruct L as [Hv [Hb Hf]]. apply Y in Hb; auto.
    apply (send_step h t v tail s (Build_st_ok _ _ B HI O Y) Hv Hb). exact (pk_send c P I HP t (bs_b s) (bs_p s) v tail B HI Hv Hb Hf).
  - destruct L as [ND F]. destruct (credits_ok t vs s B HI ND) as [s' [E [B' [I' [C' A']]]]].
    { rewrite Forall_forall in F |- *. intros v Hv. destruct (F v Hv) as [X1 X2]. split; auto. rewrite O by auto. lia. }
    exists s'. split; [auto|]. constructor; auto.
    + intros w Hw. rewrite sent_app, credited_app, C', O by auto. cbn [sent credited]. lia.
    + intros w Hw. rewrite busy_snoc. cbn [busy_step]. rewrite A' by auto. apply Y. auto.
Qed.

Lemma run_ok : forall es h s, st_ok h s -> lawful_from c P h es s -> exists s', bs_run c P es s = Some s' /\ st_ok (h ++ es) s'.
Proof.
  intros es. induction es as [|e es IH]; intros h s H L.
  - exists s. rewrite app_nil_r. auto.
  - destruct L as [L1 L2]. destruct (step_ok h e s H L1) as [s1 [E1 H1]]. destruct (IH (h ++ [e]) s1 H1 (L2 s1 E1)) as [s' [E' H']].
    exists s'. cbn [bs_run]. rewrite E1, E'. split; auto. rewrite <- app_assoc in H'. auto.
Qed.
Lemma st_ok0 : st_ok [] (bufs0 P).
Proof.
  constructor; cbn [bufs0 bs_b bs_p]; intros.
  - apply base0.
  - apply (pk_init c P I HP).
  - reflexivity.
  - cbn. unfold act. cbn. split; [discriminate|lia].
Qed.
Lemma st_tracks : forall h s, st_ok h s -> tracks c P h s.
Proof.
  intros h s [B HI O Y]. split.
  - rewrite (bo_sum c _ B). apply total_ext. auto.
  - intros v Hv. split; [auto|]. split; [apply (bo_pos c _ B); auto|]. split.
    + unfold available_for. rewrite Z.ltb_lt. specialize (Y v Hv). unfold act in Y. specialize (O v Hv). split.
      * intros U. split; [destruct (busy v h); auto|].
        -- exfalso. assert (X : 0 <= b_use (bs_b s) v) by (apply Y; auto). lia.
        -- intros W. pose proof (proj1 (bo_wait c _ B W v Hv) U). lia.
      * intros [Hb Hw]. destruct (Z.le_gt_cases 0 (b_use (bs_b s) v)) as [G|]; [|lia]. exfalso.
        destruct (b_tail (bs_b s) v) eqn:T; [|assert (busy v h = true) by (apply Y; auto); congruence].
        destruct (bc_wait c) eqn:W.
        -- pose proof (proj2 (bo_wait c _ B W v Hv) G T). specialize (Hw eq_refl). lia.
        -- pose proof (bo_nowait c _ B W v Hv G). congruence.
    + intros t. apply (pk_full c P I HP); auto.
Qed.
Lemma tracker_ok : forall es, lawful c P es -> exists s, bs_run c P es (bufs0 P) = Some s /\ tracks c P es s /\ I (bs_b s) (bs_p s) /\
  forall v, (v < bc_vcs c)%nat -> (busy v es = true <-> act (bs_b s) v).
Proof.
  intros es L. destruct (run_ok es [] (bufs0 P) st_ok0 L) as [s [E H]]. exists s. split; auto. split; [apply st_tracks; auto|].
  split; [apply so_pol with (1 := H)|]. intros v Hv. destruct H as [B HI O Y]. auto.
Qed.
End Tracker.

(** ** Private *)
Lemma private_ok : forall c z, bc_size c >= Z.of_nat (bc_vcs c) * z -> policy_ok c (private_policy z) (fun b _ => forall v, (v < bc_vcs c)%nat -> b_vocc b v <= Z.max 0 z).
Proof.
  intros c z Hz. constructor; cbn [private_policy po_st po_init po_take po_send po_free po_full].
  - intros v _. cbn. lia.
  - intros. eexists. reflexivity.
  - intros b p v tag B HI Hv Hu Ht. eexists. split; [reflexivity|]. auto.
  - intros t b p v tail B HI Hv A Hf. injection Hf as Hf. apply Z.leb_gt in Hf. pose proof (bo_pos c _ B v Hv) as Hp. split.
    + rewrite (bo_sum c _ B). assert (X : total (fupd (b_vocc b) v (b_vocc b v + 1)) (bc_vcs c) <= total (fun _ => z) (bc_vcs c)).
      { apply total_le. intros w Hw. specialize (HI w Hw). fu; lia. }
      rewrite total_fupd in X by auto.
      assert (Y : forall n, total (fun _ => z) n = Z.of_nat n * z) by (induction n; [reflexivity|rewrite total_S, IHn; lia]).
      rewrite Y in X. lia.
    + cbn [inc_b b_vocc]. rewrite fupd_same, (proj2 (Z.ltb_ge z (b_vocc b v + 1))) by lia. eexists. split; [reflexivity|].
      intros w Hw. specialize (HI w Hw). destruct tail; cbn [send_b inc_b b_vocc]; fu; lia.
  - intros t b p v B HI Hv Hp _. eexists. split; [reflexivity|]. intros w Hw. specialize (HI w Hw). cbn [dec_b b_vocc]. fu; lia.
Qed.

(** ** Shared *)
Section Shared.
Variables (c : bcfg) (sc : shcfg).
Let vcs := bc_vcs c.
Hypothesis Hmap : forall v, (v < vcs)%nat -> (sc_map sc v < sc_n sc)%nat.
Hypothesis Hps : forall i, (i < sc_n sc)%nat -> 0 <= sc_psize sc i.
Hypothesis Hbuf : total (sc_psize sc) (sc_n sc) + sc_shared sc = sc_buf sc.

Definition gsum (f : nat -> Z) (i : nat) : Z := total (fun v => if Nat.eqb (sc_map sc v) i then f v else 0) vcs.
Lemma gsum_fupd : forall f v x i, (v < vcs)%nat -> gsum (fupd f v x) i = gsum f i + (if Nat.eqb (sc_map sc v) i then x - f v else 0).
Proof.
  intros f v x i Hv. unfold gsum.
  rewrite (total_ext _ (fupd (fun w => if Nat.eqb (sc_map sc w) i then f w else 0) v (if Nat.eqb (sc_map sc v) i then x else 0))).
  - rewrite total_fupd by auto. destruct (sc_map sc v =? i)%nat; lia.
  - intros w Hw. unfold fupd. destruct (Nat.eqb_spec w v) as [->|]; auto.
Qed.
Lemma gsum_ext : forall f g i, (forall v, (v < vcs)%nat -> f v = g v) -> gsum f i = gsum g i.
Proof. intros. apply total_ext. intros v Hv. rewrite H; auto. Qed.
Lemma gsum_total : forall f, total (gsum f) (sc_n sc) = total f vcs.
Proof.
  intros f. unfold gsum. rewrite total_swap. apply total_ext. intros v Hv. apply total_one. auto.
Qed.

Definition over (p : nat -> Z) (i : nat) : Z := Z.max 0 (p i - sc_psize sc i).
Record sh_ok (b : bst) (s : shst) : Prop := {
  sk_res : forall v, (v < vcs)%nat -> sh_res s v = 0 \/ (sh_res s v = 1 /\ b_vocc b v = 0 /\ act b v);
  sk_p : forall i, (i < sc_n sc)%nat -> sh_pocc s i = gsum (fun v => b_vocc b v + sh_res s v) i;
  sk_s : sh_socc s = total (over (sh_pocc s)) (sc_n sc);
  sk_le : sh_socc s <= sc_shared sc }.

Lemma sh_bound : forall b s, sh_ok b s -> total (b_vocc b) vcs + total (sh_res s) vcs <= sc_buf sc.
Proof.
  intros b s [R Pk Sk Le]. rewrite <- total_add, <- gsum_total.
  rewrite (total_ext _ (sh_pocc s)) by (intros i Hi; symmetry; auto).
  rewrite <- Hbuf. assert (X : total (sh_pocc s) (sc_n sc) <= total (fun i => sc_psize sc i + over (sh_pocc s) i) (sc_n sc)).
  { apply total_le. intros i Hi. unfold over. lia. }
  rewrite total_add in X. lia.
Qed.
Lemma res_nonneg : forall b s, sh_ok b s -> 0 <= total (sh_res s) vcs.
Proof. intros b s H. apply total_nonneg. intros v Hv. destruct (sk_res b s H v Hv) as [->|[-> _]]; lia. Qed.

Lemma sh_ok0 : 0 <= sc_shared sc -> sh_ok bst0 shst0.
Proof.
  intros Hs. constructor; cbn [shst0 sh_res sh_pocc sh_socc bst0 b_vocc]; auto.
  - intros i _. unfold gsum. rewrite (total_ext _ (fun _ => 0)); [symmetry; apply total_zero|]. intros v _. destruct (sc_map sc v =? i)%nat; reflexivity.
  - rewrite (total_ext _ (fun _ => 0)); [symmetry; apply total_zero|]. intros i Hi. unfold over. specialize (Hps i Hi). lia.
Qed.

Lemma over_fupd : forall p i o, (i < sc_n sc)%nat -> total (over (fupd p i o)) (sc_n sc) = total (over p) (sc_n sc) + Z.max 0 (o - sc_psize sc i) - Z.max 0 (p i - sc_psize sc i).
Proof.
  intros p i o Hi. rewrite (total_ext _ (fupd (over p) i (Z.max 0 (o - sc_psize sc i)))).
  - rewrite total_fupd by auto. reflexivity.
  - intros j Hj. unfold over, fupd. destruct (Nat.eqb_spec j i) as [->|]; auto.
Qed.

Lemma sh_take_ok : forall b s v tag, sh_ok b s -> b_use b v < 0 -> 0 <= tag -> sh_ok (take_b v tag b) s.
Proof.
  intros b s v tag [R Pk Sk Le] Hu Ht. constructor; auto. intros w Hw. destruct (R w Hw) as [|[A [B C]]]; auto. right.
  split; auto. split; [auto|]. unfold act in *. cbn [take_b b_use b_tail]. fu; auto; lia.
Qed.

(** Only the occupancy of [v] changes. *)
Lemma sh_send_ok : forall b s v tail w, sh_ok b s -> base_ok c b -> (v < vcs)%nat -> act b v -> sh_full sc v s = false ->
  b_occ b + 1 <= sc_buf sc /\ exists s', sh_send sc v tail s = Some s' /\ sh_ok (send_b w v tail b) s'.
Proof.
  intros b s v tail w H B Hv A Hf. pose proof H as [R Pk Sk Le]. pose proof (Hmap v Hv) as Hi.
  assert (Vo : forall x, b_vocc (send_b w v tail b) x = fupd (b_vocc b) v (b_vocc b v + 1) x) by (intros; destruct tail; reflexivity).
  assert (Keep : forall r : nat -> Z, r v = 0 -> (forall x, x <> v -> r x = sh_res s x) ->
     forall x, (x < vcs)%nat -> r x = 0 \/ (r x = 1 /\ b_vocc (send_b w v tail b) x = 0 /\ act (send_b w v tail b) x)).
  { intros r H0 H1 x Hx. destruct (Nat.eq_dec x v) as [->|Ne]; [auto|]. rewrite H1 by auto. destruct (R x Hx) as [|[X1 [X2 X3]]]; auto. right.
    split; auto. rewrite Vo, fupd_other by auto. split; auto. unfold act in *. destruct tail; cbn [send_b inc_b b_use b_tail]; [|auto].
    rewrite (fupd_other _ (b_tail b)) by auto. destruct w; [auto|]. rewrite fupd_other by auto. auto. }
  assert (Main : exists s1, (if 0 <? sh_res s v then Some {| sh_pocc := sh_pocc s; sh_socc := sh_socc s; sh_res := fupd (sh_res s) v (sh_res s v - 1) |}
    else let o := sh_pocc s (sc_map sc v) + 1 in
      if sc_psize sc (sc_map sc v) <? o then
        if sc_shared sc <? sh_socc s + 1 then None else Some {| sh_pocc := fupd (sh_pocc s) (sc_map sc v) o; sh_socc := sh_socc s + 1; sh_res := sh_res s |}
      else Some {| sh_pocc := fupd (sh_pocc s) (sc_map sc v) o; sh_socc := sh_socc s; sh_res := sh_res s |}) = Some s1 /\ sh_ok (send_b w v tail b) s1 /\ sh_res s1 v = 0).
  { destruct (R v Hv) as [R0|[R1 [Z0 _]]].
    - rewrite R0. cbn [Z.ltb Z.compare]. cbv zeta. set (i := sc_map sc v) in *.
      assert (GP : forall j, (j < sc_n sc)%nat -> fupd (sh_pocc s) i (sh_pocc s i + 1) j = gsum (fun x => b_vocc (send_b w v tail b) x + sh_res s x) j).
      { intros j Hj. rewrite (gsum_ext _ (fupd (fun x => b_vocc b x + sh_res s x) v (b_vocc b v + sh_res s v + 1))).
        - rewrite gsum_fupd by auto. fold i. rewrite <- Pk by auto. rewrite (Nat.eqb_sym i j). fu; lia.
        - intros x Hx. rewrite Vo. fu; lia. }
      destruct (Z.ltb_spec (sc_psize sc i) (sh_pocc s i + 1)) as [G|G].
      + unfold sh_full in Hf. fold i in Hf. rewrite R0 in Hf. cbn [Z.eqb andb] in Hf. rewrite (proj2 (Z.leb_le (sc_psize sc i) (sh_pocc s i))) in Hf by lia.
        cbn [andb] in Hf. apply Z.leb_gt in Hf. rewrite (proj2 (Z.ltb_ge (sc_shared sc) (sh_socc s + 1))) by lia.
        eexists. split; [reflexivity|]. split; [|auto]. constructor; cbn [sh_res sh_pocc sh_socc]; [apply Keep; auto|auto| |lia].
        rewrite over_fupd by auto. rewrite <- Sk. lia.
      + eexists. split; [reflexivity|]. split; [|auto]. constructor; cbn [sh_res sh_pocc sh_socc]; [apply Keep; auto|auto| |lia].
        rewrite over_fupd by auto. rewrite <- Sk. lia.
    - rewrite R1. cbn [Z.ltb Z.compare]. eexists. split; [reflexivity|]. cbn [sh_res]. split; [|apply fupd_same].
      constructor; cbn [sh_res sh_pocc sh_socc]; auto.
      + apply Keep; [rewrite fupd_same; reflexivity|intros; apply fupd_other; auto].
      + intros j Hj. rewrite Pk by auto. apply gsum_ext. intros x Hx. rewrite Vo. fu; lia. }
  destruct Main as [s1 [E1 [H1 R1]]]. split.
  - pose proof (sh_bound _ _ H1) as X. pose proof (res_nonneg _ _ H1) as Y. rewrite (total_ext _ _ _ (fun x _ => Vo x)), total_fupd in X by auto.
    rewrite (bo_sum c _ B). fold vcs. lia.
  - exists s1. split; [|auto]. unfold sh_send. cbv zeta in *. rewrite E1. rewrite R1. destruct tail; reflexivity.
Qed.

Lemma sh_free_ok : forall b s v, sh_ok b s -> base_ok c b -> (v < vcs)%nat -> 0 < b_vocc b v ->
  exists s', sh_free sc (dec_b (bc_wait c) v b) v s = Some s' /\ sh_ok (dec_b (bc_wait c) v b) s'.
Proof.
  intros b s v H B Hv Hp. pose proof H as [R Pk Sk Le]. pose proof (Hmap v Hv) as Hi. set (b' := dec_b (bc_wait c) v b).
  assert (R0 : sh_res s v = 0) by (destruct (R v Hv) as [|[_ [X _]]]; auto; lia).
  assert (Keep : forall r : nat -> Z, (forall x, x <> v -> r x = sh_res s x) -> r v = 0 \/ (r v = 1 /\ b_vocc b' v = 0 /\ act b' v) ->
     forall x, (x < vcs)%nat -> r x = 0 \/ (r x = 1 /\ b_vocc b' x = 0 /\ act b' x)).
  { intros r H1 H0 x Hx. destruct (Nat.eq_dec x v) as [->|Ne]; [auto|]. rewrite H1 by auto. destruct (R x Hx) as [|[X1 [X2 X3]]]; auto. right.
    unfold b', act in *. cbn [dec_b b_use b_tail b_vocc]. rewrite fupd_other by auto. split; [auto|]. split; auto.
    destruct (bc_wait c && (b_vocc b v - 1 =? 0) && b_tail b v); [rewrite fupd_other by auto|]; auto. }
  unfold sh_free, empty_for, available_for. fold b'. cbn [b' dec_b b_vocc]. rewrite fupd_same.
  destruct (negb (b_use b' v <? 0) && (b_vocc b v - 1 =? 0)) eqn:E.
  - apply andb_true_iff in E. destruct E as [E1 E2]. apply negb_true_iff, Z.ltb_ge in E1. apply Z.eqb_eq in E2.
    eexists. split; [reflexivity|]. constructor; cbn [sh_res sh_pocc sh_socc]; auto.
    + apply Keep; [intros; apply fupd_other; auto|]. right. rewrite fupd_same, R0. split; [lia|]. unfold b'. cbn [dec_b b_vocc]. rewrite fupd_same. split; [lia|].
      split; [auto|]. cbn [b_tail]. destruct (b_tail b v) eqn:T; [|auto]. exfalso. unfold b' in E1. cbn [dec_b b_use] in E1. rewrite T in E1.
      destruct (bc_wait c) eqn:W.
      * rewrite (proj2 (Z.eqb_eq _ _) E2) in E1. cbn [andb] in E1. rewrite fupd_same in E1. lia.
      * cbn [andb] in E1. pose proof (bo_nowait c _ B W v Hv E1). congruence.
    + intros j Hj. rewrite Pk by auto. apply gsum_ext. intros x Hx. unfold b'. cbn [dec_b b_vocc]. fu; lia.
  - set (i := sc_map sc v) in *.
    assert (GP : forall j, (j < sc_n sc)%nat -> fupd (sh_pocc s) i (sh_pocc s i - 1) j = gsum (fun x => b_vocc b' x + sh_res s x) j).
    { intros j Hj. rewrite (gsum_ext _ (fupd (fun x => b_vocc b x + sh_res s x) v (b_vocc b v + sh_res s v - 1))).
      - rewrite gsum_fupd by auto. fold i. rewrite <- Pk by auto. rewrite (Nat.eqb_sym i j). fu; lia.
      - intros x Hx. unfold b'. cbn [dec_b b_vocc]. fu; lia. }
    assert (Ge : 1 <= sh_pocc s i).
    { rewrite Pk by auto. unfold gsum. match goal with |- _ <= total ?f _ => pose proof (total_ge f vcs v) as X end. cbv beta in X. unfold i in X at 2. rewrite Nat.eqb_refl in X.
      enough (b_vocc b v + sh_res s v <= total (fun w => if (sc_map sc w =? i)%nat then b_vocc b w + sh_res s w else 0) vcs) by lia.
      apply X; auto. intros w Hw. pose proof (bo_pos c _ B w Hw). destruct (R w Hw) as [->|[-> _]]; destruct (sc_map sc w =? i)%nat; lia. }
    unfold sh_process_free. fold i. cbv zeta. rewrite (proj2 (Z.ltb_ge (sh_pocc s i - 1) 0)) by lia.
    pose proof (over_fupd (sh_pocc s) i (sh_pocc s i - 1) Hi) as OF.
    destruct (Z.leb_spec (sc_psize sc i) (sh_pocc s i - 1)) as [G|G].
    + assert (G1 : 1 <= sh_socc s).
      { rewrite Sk. enough (over (sh_pocc s) i <= total (over (sh_pocc s)) (sc_n sc)) by (unfold over in *; lia).
        apply total_ge; auto. intros. unfold over. lia. }
      rewrite (proj2 (Z.ltb_ge (sh_socc s - 1) 0)) by lia. eexists. split; [reflexivity|].
      constructor; cbn [sh_res sh_pocc sh_socc]; [apply Keep; auto|auto|rewrite OF, <- Sk; lia|lia].
    + eexists. split; [reflexivity|]. constructor; cbn [sh_res sh_pocc sh_socc]; [apply Keep; auto|auto|rewrite OF, <- Sk; lia|lia].
Qed.

Hypothesis Hsh : 0 <= sc_shared sc.
Hypothesis Hsize : bc_size c = sc_buf sc.
Lemma shared_ok : policy_ok c (shared_policy sc) sh_ok.
Proof.
  constructor; cbn [shared_policy po_st po_init po_take po_send po_free po_full].
  - apply sh_ok0; auto.
  - eauto.
  - intros b p v tag B HI Hv Hu Ht. eexists. split; [reflexivity|]. apply sh_take_ok; auto.
  - intros t b p v tail B HI Hv A Hf. injection Hf as Hf. rewrite Hsize. apply sh_send_ok; auto.
  - intros t b p v B HI Hv Hp _. apply sh_free_ok; auto.
Qed.

(** Limited: the number of active channels is the number of packets under way. *)
Definition actb (b : bst) (v : nat) : Z := if (0 <=? b_use b v) && negb (b_tail b v) then 1 else 0.
Lemma actb_act : forall b v, actb b v = 1 <-> act b v.
Proof.
  intros. unfold actb, act. destruct (Z.leb_spec 0 (b_use b v)); cbn [andb]; [|split; [discriminate|lia]].
  destruct (b_tail b v); cbn [negb]; split; auto; try discriminate. intros [_ X]. discriminate.
Qed.
Lemma actb_01 : forall b v, actb b v = 0 \/ actb b v = 1.
Proof. intros. unfold actb. destruct (_ && _); auto. Qed.
Lemma actb_take : forall b v tag n, (v < n)%nat -> b_use b v < 0 -> 0 <= tag -> total (actb (take_b v tag b)) n = total (actb b) n + 1.
Proof.
  intros b v tag n Hv Hu Ht. rewrite (total_ext _ (fupd (actb b) v 1)).
  - rewrite total_fupd by auto. destruct (actb_01 b v) as [->|X]; [lia|]. apply actb_act in X. destruct X. lia.
  - intros w Hw. unfold actb. cbn [take_b b_use b_tail]. fu; auto. rewrite (proj2 (Z.leb_le _ _) Ht). reflexivity.
Qed.
Lemma actb_send : forall b v w tail n, (v < n)%nat -> act b v -> total (actb (send_b w v tail b)) n = total (actb b) n - (if tail then 1 else 0).
Proof.
  intros b v w tail n Hv A. destruct tail.
  - rewrite (total_ext _ (fupd (actb b) v 0)).
    + rewrite total_fupd by auto. rewrite (proj2 (actb_act b v) A). lia.
    + intros x Hx. unfold actb. cbn [send_b b_use b_tail]. destruct w; fu; cbn [negb]; try rewrite andb_false_r; auto.
  - cbn [send_b]. rewrite (total_ext _ (actb b)); [lia|]. reflexivity.
Qed.
Lemma actb_dec : forall b v w n, (v < n)%nat -> total (actb (dec_b w v b)) n = total (actb b) n.
Proof.
  intros. apply total_ext. intros x Hx. unfold actb. cbn [dec_b b_use b_tail]. destruct (w && (b_vocc b v - 1 =? 0) && b_tail b v) eqn:E; auto.
  apply andb_true_iff in E. destruct E as [_ T]. fu; auto. rewrite T. cbn [negb]. rewrite !andb_false_r. reflexivity.
Qed.
Lemma actb_le : forall b n, total (actb b) n <= Z.of_nat n.
Proof. intros. induction n; [cbn; lia|]. rewrite total_S. destruct (actb_01 b n); lia. Qed.

(** The limit is positive when the buffer has enough slots. *)
Lemma halve_pos : forall f i m, 0 <= i < 2 ^ Z.of_nat f -> 2 ^ Z.log2_up (i + 1) <= m -> 0 < halve f i m.
Proof.
  induction f as [|f IH]; intros i m Hi Hm.
  - cbn in *. assert (i = 0) by lia. subst. cbn in Hm. lia.
  - cbn [halve]. destruct (Z.eqb_spec i 0) as [->|Ne]; [cbn in Hm; lia|]. apply IH.
    + rewrite Nat2Z.inj_succ, Z.pow_succ_r in Hi by lia. pose proof (Z.div_lt_upper_bound i 2 (2 ^ Z.of_nat f)). pose proof (Z.div_pos i 2). lia.
    + assert (L : Z.log2_up (i + 1) = Z.succ (Z.log2_up (i / 2 + 1))).
      { replace (i + 1) with (Z.succ i) by lia. replace (i / 2 + 1) with (Z.succ (i / 2)) by lia.
        rewrite (Z.log2_up_eqn (Z.succ i)) by lia. rewrite Z.pred_succ.
        destruct (Z.eq_dec (i / 2) 0) as [E|E].
        - rewrite E. assert (i = 1) by (pose proof (Z.div_mod i 2); pose proof (Z.mod_pos_bound i 2); lia). subst. reflexivity.
        - assert (0 < i / 2) by (pose proof (Z.div_pos i 2); lia). rewrite (Z.log2_up_eqn (Z.succ (i / 2))) by lia. rewrite Z.pred_succ.
          f_equal. replace (i / 2) with (Z.shiftr i 1) by (rewrite Z.shiftr_div_pow2 by lia; reflexivity). rewrite Z.log2_shiftr by lia.
          assert (1 <= Z.log2 i) by (apply Z.log2_le_pow2; [lia|]; pose proof (Z.div_mod i 2); pose proof (Z.mod_pos_bound i 2); lia). lia. }
      rewrite L, Z.pow_succ_r in Hm by apply Z.log2_up_nonneg. apply Z.div_le_lower_bound; lia.
Qed.
Definition roomy (k : limkind) : Prop :=
  match k with Fixed _ => True | Dynamic => Z.of_nat vcs <= sc_buf sc | Shifting => 2 ^ Z.log2_up (Z.of_nat vcs) <= sc_buf sc end.
Lemma shift_pos : forall a, 1 <= a <= Z.of_nat vcs -> roomy Shifting -> 0 < shift_limit (sc_buf sc) a.
Proof.
  intros a Ha Hr. cbn [roomy] in Hr. unfold shift_limit. apply halve_pos.
  - rewrite Nat2Z.inj_succ, Z2Nat.id by apply Z.log2_nonneg. destruct (Z.eq_dec a 1) as [->|]; [cbn; lia|]. pose proof (Z.log2_spec (a - 1)). lia.
  - replace (a - 1 + 1) with a by lia. pose proof (Z.log2_up_le_mono a (Z.of_nat vcs)). pose proof (Z.pow_le_mono_r 2 (Z.log2_up a) (Z.log2_up (Z.of_nat vcs))). lia.
Qed.

Definition lim_inv (k : limkind) (b : bst) (s : limst) : Prop :=
  sh_ok b (li_sh s) /\ li_active s = total (actb b) vcs /\ (match k with Fixed mh => li_max s = if mh <? 0 then sc_buf sc else mh | _ => 0 < li_max s end).
Lemma lim_send_ok : forall k t b p v tail, roomy k -> base_ok c b -> lim_inv k b p -> (v < vcs)%nat -> act b v -> sh_full sc v (li_sh p) = false ->
  b_occ b + 1 <= bc_size c /\ exists p', po_send (limited_policy sc vcs k) t (inc_b v b) v tail p = Some p' /\ lim_inv k (send_b (bc_wait c) v tail b) p'.
Proof.
  intros k t b p v tail Hr B [HI [Ha Hm]] Hv A Hf. unfold lim_inv. cbn [limited_policy po_send].
  destruct (sh_send_ok b (li_sh p) v tail (bc_wait c) HI B Hv A Hf) as [Hs [s' [E S']]]. split; [lia|].
  unfold lim_send. rewrite E. cbv zeta. pose proof (actb_send b v (bc_wait c) tail vcs Hv A) as Ts.
  assert (N : forall b', 0 <= total (actb b') vcs) by (intros; apply total_nonneg; intros w _; destruct (actb_01 b' w) as [->| ->]; lia).
  pose proof (N (send_b (bc_wait c) v tail b)) as N1. pose proof (actb_le (send_b (bc_wait c) v tail b) vcs) as Tl.
  assert (X : tail && ((if tail then li_active p - 1 else li_active p) <? 0) = false).
  { destruct tail; auto. cbn [andb]. apply Z.ltb_ge. lia. }
  rewrite X. set (a := if tail then li_active p - 1 else li_active p) in *.
  assert (Ea : a = total (actb (send_b (bc_wait c) v tail b)) vcs) by (unfold a; destruct tail; lia).
  destruct k as [mh| |].
  - eexists. split; [reflexivity|]. cbn [li_sh li_active]. auto.
  - cbn [roomy] in Hr. match goal with |- context [?x <=? 0] => assert (Q : 0 < x) end.
    { destruct (tail && negb (a =? 0)) eqn:T; auto. apply andb_true_iff in T. destruct T as [_ T]. apply negb_true_iff, Z.eqb_neq in T. apply Z.div_str_pos. lia. }
    rewrite (proj2 (Z.leb_gt _ 0) Q). eexists. split; [reflexivity|]. cbn [li_sh li_active li_max]. auto.
  - match goal with |- context [?x <=? 0] => assert (Q : 0 < x) end.
    { destruct (tail && negb (a =? 0)) eqn:T; auto. apply andb_true_iff in T. destruct T as [_ T]. apply negb_true_iff, Z.eqb_neq in T. apply shift_pos; auto. lia. }
    rewrite (proj2 (Z.leb_gt _ 0) Q). eexists. split; [reflexivity|]. cbn [li_sh li_active li_max]. auto.
Qed.
Lemma limited_ok : forall k, roomy k -> 0 < sc_buf sc -> policy_ok c (limited_policy sc vcs k)
  (lim_inv k).
Proof.
  intros k Hr Hb. constructor; cbn [limited_policy po_st po_init po_take po_send po_free po_full]; unfold lim_inv.
  - split; [apply sh_ok0; auto|]. split.
    + cbn [lim_init li_active]. rewrite (total_ext _ (fun _ => 0)); [symmetry; apply total_zero|]. reflexivity.
    + destruct k; cbn [lim_init li_max]; auto.
  - eauto.
  - intros b p v tag B [HI [Ha Hm]] Hv Hu Ht. pose proof (actb_take b v tag vcs Hv Hu Ht) as Ta. pose proof (actb_le (take_b v tag b) vcs) as Tl.
    unfold lim_take. cbv zeta. rewrite (proj2 (Z.ltb_ge (Z.of_nat vcs) (li_active p + 1))) by lia.
    assert (N : 0 <= total (actb b) vcs) by (apply total_nonneg; intros w _; destruct (actb_01 b w) as [->| ->]; lia).
    assert (S' : sh_ok (take_b v tag b) (li_sh p)) by (apply sh_take_ok; auto).
    destruct k as [mh| |].
    + eexists. split; [reflexivity|]. cbn [li_sh li_active]. split; [auto|]. split; [lia|auto].
    + cbn [roomy] in Hr. assert (Q : 0 < sc_buf sc / (li_active p + 1)) by (apply Z.div_str_pos; lia).
      rewrite (proj2 (Z.leb_gt (li_active p + 1) 0)), (proj2 (Z.leb_gt (sc_buf sc / (li_active p + 1)) 0)) by lia. cbn [orb].
      eexists. split; [reflexivity|]. cbn [li_sh li_active li_max]. split; [auto|]. split; [lia|auto].
    + assert (Q : 0 < shift_limit (sc_buf sc) (li_active p + 1)) by (apply shift_pos; auto; lia).
      rewrite (proj2 (Z.leb_gt (li_active p + 1) 0)), (proj2 (Z.leb_gt (shift_limit (sc_buf sc) (li_active p + 1)) 0)) by lia. cbn [orb].
      eexists. split; [reflexivity|]. cbn [li_sh li_active li_max]. split; [auto|]. split; [lia|auto].
  - intros t b p v tail B HI Hv A Hf. injection Hf as Hf. apply orb_false_iff in Hf. destruct Hf as [Hf _]. exact (lim_send_ok k t b p v tail Hr B HI Hv A Hf).
  - intros t b p v B [HI [Ha Hm]] Hv Hp _. destruct (sh_free_ok b (li_sh p) v HI B Hv Hp) as [s' [E S']]. rewrite E. eexists. split; [reflexivity|].
    cbn [li_sh li_active li_max]. rewrite actb_dec by auto. auto.
Qed.

(** Feedback: as many recorded send times as occupied slots. *)
Variable f : fbcfg.
Hypothesis Hf0 : 0 <= fc_minlat f.
Lemma limit_some : forall r, fb_limit_of f r = Some (Z.max (2 * fc_minlat f - r + fc_offset f) 1).
Proof. intros. unfold fb_limit_of. rewrite (proj2 (Z.ltb_ge _ _)); auto. Qed.
Lemma fb_full_some : forall t b v s, exists x, fb_full sc f t b v s = Some x.
Proof.
  intros. unfold fb_full, fb_max_slots. destruct (sh_full sc v (fb_sh s)); [eauto|]. destruct (fb_sent s v); [eauto|]. rewrite limit_some. eauto.
Qed.
Lemma fb_full_sh : forall t b v s, fb_full sc f t b v s = Some false -> sh_full sc v (fb_sh s) = false.
Proof. intros. unfold fb_full in H. destruct (sh_full sc v (fb_sh s)); [discriminate|auto]. Qed.
Lemma send_vocc : forall w v tail b x, b_vocc (send_b w v tail b) x = fupd (b_vocc b) v (b_vocc b v + 1) x.
Proof. intros. destruct tail; reflexivity. Qed.

Lemma feedback_ok : policy_ok c (feedback_policy sc f)
  (fun b s => sh_ok b (fb_sh s) /\ (forall v, (v < vcs)%nat -> Z.of_nat (length (fb_sent s v)) = b_vocc b v) /\ (0 < sc_buf sc -> forall v, 0 < fb_limit s v)).
Proof.
  constructor; cbn [feedback_policy po_st po_init po_take po_send po_free po_full].
  - split; [apply sh_ok0; auto|]. split; [reflexivity|]. intros Hb v. exact Hb.
  - intros. apply fb_full_some.
  - intros b p v tag B [HI [Hl Hm]] Hv Hu Ht. eexists. split; [reflexivity|]. split; [apply sh_take_ok; auto|split; auto].
  - intros t b p v tail B [HI [Hl Hm]] Hv A Hf. apply fb_full_sh in Hf.
    destruct (sh_send_ok b (fb_sh p) v tail (bc_wait c) HI B Hv A Hf) as [Hs [s' [E S']]]. split; [lia|].
    unfold fb_send. rewrite E. eexists. split; [reflexivity|]. cbn [fb_sh fb_sent fb_limit]. split; [auto|]. split; [|auto].
    intros w Hw. specialize (Hl w Hw). rewrite send_vocc. fu; [rewrite app_length; cbn [length]; lia|auto].
  - intros t b p v B [HI [Hl Hm]] Hv Hp _. destruct (sh_free_ok b (fb_sh p) v HI B Hv Hp) as [s' [E S']]. unfold fb_free. rewrite E.
    pose proof (Hl v Hv) as Lv. destruct (fb_sent p v) as [|x r] eqn:Es; [cbn in Lv; lia|]. rewrite limit_some. eexists. split; [reflexivity|].
    cbn [fb_sh fb_sent fb_limit]. split; [auto|]. split.
    + intros w Hw. specialize (Hl w Hw). cbn [dec_b b_vocc]. fu; [cbn [length] in Lv; lia|auto].
    + intros Hb w. fu; [lia|auto].
Qed.

(** Simple feedback: at most one probe; the flits sent before it and not yet credited are fewer than
    the occupied slots. *)
Lemma simple_feedback_ok : policy_ok c (simple_feedback_policy sc f)
  (fun b s => sh_ok b (fb_sh s) /\ forall v, (v < vcs)%nat -> 0 <= fb_pend s v /\ match fb_sent s v with [] => fb_pend s v = 0 | [_] => fb_pend s v < b_vocc b v | _ => False end /\ (0 < sc_buf sc -> 0 < fb_limit s v)).
Proof.
  constructor; cbn [simple_feedback_policy po_st po_init po_take po_send po_free po_full].
  - split; [apply sh_ok0; auto|]. intros. cbn. lia.
  - intros. apply fb_full_some.
  - intros b p v tag B [HI Hl] Hv Hu Ht. eexists. split; [reflexivity|]. split; [apply sh_take_ok; auto|auto].
  - intros t b p v tail B [HI Hl] Hv A Hf. apply fb_full_sh in Hf.
    destruct (sh_send_ok b (fb_sh p) v tail (bc_wait c) HI B Hv A Hf) as [Hs [s' [E S']]]. split; [lia|].
    pose proof (bo_pos c _ B v Hv) as Pv. unfold sf_send. pose proof (Hl v Hv) as Lv. destruct (fb_sent p v) as [|x [|]] eqn:Es; [| |tauto].
    + cbn [inc_b b_vocc]. rewrite fupd_same, (proj2 (Z.ltb_lt 0 (b_vocc b v + 1))) by lia. unfold fb_send. cbn [fb_sh fb_sent fb_pend fb_limit]. rewrite E.
      eexists. split; [reflexivity|]. cbn [fb_sh fb_sent fb_pend fb_limit]. split; [auto|]. intros w Hw. specialize (Hl w Hw). rewrite send_vocc. fu; auto. rewrite Es. cbn [app]. lia.
    + rewrite E. eexists. split; [reflexivity|]. cbn [fb_sh fb_sent fb_pend fb_limit]. split; [auto|]. intros w Hw. specialize (Hl w Hw). rewrite send_vocc. fu; auto. rewrite Es in *. lia.
  - intros t b p v B [HI Hl] Hv Hp _. destruct (sh_free_ok b (fb_sh p) v HI B Hv Hp) as [s' [E S']].
    pose proof (Hl v Hv) as Lv. unfold sf_free. destruct (fb_sent p v) as [|x [|]] eqn:Es; [| |tauto].
    + destruct Lv as [_ [Lv _]]. cbn [andb]. rewrite Lv. cbn [Z.ltb Z.compare andb]. rewrite E. eexists. split; [reflexivity|]. cbn [fb_sh fb_sent fb_pend fb_limit]. split; [auto|].
      intros w Hw. specialize (Hl w Hw). cbn [dec_b b_vocc]. fu; auto. rewrite Es in *. auto.
    + cbn [andb negb]. destruct (Z.eqb_spec (fb_pend p v) 0) as [E0|E0].
      * unfold fb_free. rewrite E, Es, limit_some. eexists. split; [reflexivity|]. cbn [fb_sh fb_sent fb_pend fb_limit]. split; [auto|].
        intros w Hw. specialize (Hl w Hw). cbn [dec_b b_vocc]. fu; auto. lia.
      * rewrite (proj2 (Z.ltb_lt 0 (fb_pend p v))) by lia. cbn [andb negb]. rewrite E. eexists. split; [reflexivity|]. cbn [fb_sh fb_sent fb_pend fb_limit]. split; [auto|].
        intros w Hw. specialize (Hl w Hw). cbn [dec_b b_vocc]. fu; auto. rewrite Es in *. lia.
Qed.
End Shared.

Lemma sh_open : forall c sc b s h v, (forall w, (w < bc_vcs c)%nat -> (sc_map sc w < sc_n sc)%nat) -> sh_ok c sc b s ->
  (forall w, (w < bc_vcs c)%nat -> b_vocc b w = sent w h - credited w h) -> (forall w, (w < bc_vcs c)%nat -> (busy w h = true <-> act b w)) ->
  (v < bc_vcs c)%nat -> has_room (bc_vcs c) sc h v -> sh_full sc v s = false.
Proof.
  intros c sc b s h v Hm [R Pk Sk Le] Ho Hb Hv Hr. unfold sh_full. destruct (Z.leb_spec (sc_psize sc (sc_map sc v)) (sh_pocc s (sc_map sc v))); [|rewrite andb_false_r; auto].
  exfalso. rewrite Pk in H by auto. unfold gsum in H. unfold has_room in Hr. revert H. apply Z.lt_nge. eapply Z.le_lt_trans; [|exact Hr].
  apply total_le. intros w Hw. destruct (Nat.eqb_spec (sc_map sc w) (sc_map sc v)); [|lia]. rewrite Ho by auto. destruct (R w Hw) as [-> |[-> [Z0 A]]].
  - destruct (busy w h && _); lia.
  - rewrite (proj2 (Hb w Hw) A), (proj2 (Z.eqb_eq (sent w h) (credited w h))); [cbn [andb]; lia|]. rewrite Ho in Z0 by auto. lia.
Qed.

(** ** Construction of the shared policies *)
Lemma range_lt : forall i vs m m', map_range i vs m = Some m' -> forall v j, m' v = Some j -> j = i \/ m v = Some j.
Proof.
  intros i vs. induction vs as [|w vs IH]; intros m m' E v j Hj; cbn [map_range] in E.
  - injection E as <-. auto.
  - destruct (m w) eqn:Ew; [discriminate|]. destruct (IH _ _ E v j Hj) as [|X]; auto. fu; auto. injection X as <-. auto.
Qed.
Lemma ranges_lt : forall vcs starts ends i m m', map_ranges vcs i starts ends m = Some m' -> (forall v j, m v = Some j -> (j < i)%nat) ->
  forall v j, m' v = Some j -> (j < i + length starts)%nat.
Proof.
  intros vcs starts. induction starts as [|a sr IH]; intros ends i m m' E H v j Hj; cbn [map_ranges] in E.
  - destruct ends; [|discriminate]. injection E as <-. specialize (H v j Hj). lia.
  - destruct ends as [|e er]; [discriminate|]. destruct (_ && _); [|discriminate]. destruct (map_range i _ m) as [m1|] eqn:E1; [|discriminate].
    cbn [length]. replace (i + S (length sr))%nat with (S i + length sr)%nat by lia. apply (IH er (S i) m1 m' E) with (v := v); auto.
    intros w k Hk. destruct (range_lt _ _ _ _ E1 w k Hk) as [->|X]; [lia|]. specialize (H w k X). lia.
Qed.
Lemma total_nth : forall l, total (fun i => nth i l 0) (length l) = fold_right Z.add 0 l.
Proof.
  intros l. unfold total. f_equal. induction l as [|x l IH]; [reflexivity|]. cbn [length seq map nth]. f_equal.
  rewrite <- seq_shift, map_map. exact IH.
Qed.
Lemma new_shared_ok : forall vcs buf psizes starts ends sc, new_shared vcs buf psizes starts ends = Some sc ->
  (forall v, (v < vcs)%nat -> (sc_map sc v < sc_n sc)%nat) /\ total (sc_psize sc) (sc_n sc) + sc_shared sc = sc_buf sc /\ 0 <= sc_shared sc /\ sc_buf sc = buf /\
  (Forall (fun p => 0 <= p) psizes -> forall i, (i < sc_n sc)%nat -> 0 <= sc_psize sc i).
Proof.
  intros vcs buf psizes starts ends sc E. unfold new_shared in E. destruct (negb _) eqn:El; [discriminate|].
  apply negb_false_iff, andb_true_iff in El. destruct El as [El _]. apply Nat.eqb_eq in El.
  destruct (map_ranges _ _ _ _ _) as [m|] eqn:Em; [|discriminate]. destruct (Z.ltb_spec (buf - fold_right Z.add 0 psizes) 0) as [|G]; [discriminate|].
  destruct (forallb _ _) eqn:Ef; [|discriminate]. injection E as <-. cbn [sc_map sc_n sc_psize sc_shared sc_buf]. rewrite forallb_forall in Ef.
  split; [|split; [|split; [|split]]].
  - intros v Hv. specialize (Ef v ltac:(apply in_seq; lia)). destruct (m v) as [j|] eqn:Ej; [|discriminate].
    pose proof (ranges_lt _ _ _ _ _ _ Em (fun _ _ (H : None = Some _) => ltac:(discriminate H)) v j Ej). lia.
  - rewrite total_nth. lia.
  - lia.
  - reflexivity.
  - intros F i Hi. rewrite Forall_forall in F. apply F. apply nth_In. auto.
Qed.

Lemma map_range_ok : forall i vs m, NoDup vs -> (forall v, In v vs -> m v = None) ->
  exists m', map_range i vs m = Some m' /\ (forall v, In v vs -> m' v = Some i) /\ forall v, ~ In v vs -> m' v = m v.
Proof.
  intros i vs. induction vs as [|w vs IH]; intros m ND H.
  - exists m. cbn. tauto.
  - apply NoDup_cons_iff in ND. destruct ND as [Ni ND]. cbn [map_range]. rewrite (H w) by (left; auto).
    destruct (IH (fupd m w (Some i)) ND) as [m' [E [A B]]].
    { intros v Hv. rewrite fupd_other; [apply H; right; auto|]. intros ->. contradiction. }
    exists m'. split; auto. split.
    + intros v [->|Hv]; auto. rewrite B by auto. apply fupd_same.
    + intros v Hv. rewrite B by (intros X; apply Hv; right; auto). apply fupd_other. intros ->. apply Hv. left. auto.
Qed.
Lemma map_ranges_ok : forall vcs (e : nat -> nat) r k m, (forall i, (k <= i < k + r)%nat -> (e i < e (i + 1))%nat) -> (e (k + r) <= vcs)%nat ->
  (forall v, (e k <= v)%nat -> m v = None) ->
  exists m', map_ranges vcs k (map e (seq k r)) (map (fun i => e (i + 1) - 1)%nat (seq k r)) m = Some m' /\
    (forall v, (e k <= v < e (k + r))%nat -> m' v <> None) /\ forall v, (v < e k)%nat -> m' v = m v.
Proof.
  intros vcs e r. induction r as [|r IH]; intros k m He Hv Hm.
  - exists m. cbn. split; auto. split; auto. intros v Hv'. replace (k + 0)%nat with k in Hv' by lia. lia.
  - cbn [seq map map_ranges]. assert (E1 := He k ltac:(lia)).
    assert (Mon : (e (k + 1) <= e (k + S r))%nat).
    { assert (M : forall d, (d <= r)%nat -> (e (k + 1) <= e (k + 1 + d))%nat).
      { induction d as [|d IHd]; intros Hd; [replace (k + 1 + 0)%nat with (k + 1)%nat by lia; lia|].
        pose proof (He (k + 1 + d)%nat ltac:(lia)). replace (k + 1 + S d)%nat with (k + 1 + d + 1)%nat by lia. specialize (IHd ltac:(lia)). lia. }
      specialize (M r ltac:(lia)). replace (k + S r)%nat with (k + 1 + r)%nat by lia. auto. }
    rewrite (proj2 (Nat.leb_le _ _)), (proj2 (Nat.ltb_lt _ _)) by lia. cbn [andb].
    destruct (map_range_ok k (seq (e k) (S (e (k + 1) - 1) - e k)%nat) m (seq_NoDup _ _)) as [m1 [X1 [X2 X3]]].
    { intros v Hin. apply in_seq in Hin. apply Hm. lia. }
    rewrite X1. destruct (IH (S k) m1) as [m' [Y1 [Y2 Y3]]].
    + intros i Hi. apply He. lia.
    + replace (S k + r)%nat with (k + S r)%nat by lia. auto.
    + intros v Hvk. replace (S k) with (k + 1)%nat in Hvk by lia. rewrite X3; [apply Hm; lia|]. intros Hin. apply in_seq in Hin. lia.
    + exists m'. split; auto. replace (S k) with (k + 1)%nat in Y2, Y3 by lia. split.
      * intros v Hv'. destruct (Nat.lt_ge_cases v (e (k + 1)%nat)) as [L|L].
        -- rewrite Y3 by auto. rewrite X2; [discriminate|]. apply in_seq. lia.
        -- apply Y2. replace (k + 1 + r)%nat with (k + S r)%nat by lia. lia.
      * intros v Hv'. rewrite Y3 by lia. apply X3. intros Hin. apply in_seq in Hin. lia.
Qed.
Lemma sum_repeat : forall p n, fold_right Z.add 0 (repeat p n) = Z.of_nat n * p.
Proof. intros p n. induction n; [reflexivity|]. cbn [repeat fold_right]. rewrite IHn. lia. Qed.
Lemma default_ok : forall vcs buf p n, (0 < n <= vcs)%nat -> Z.of_nat n * p <= buf ->
  exists sc, new_shared vcs buf (repeat p n) (default_starts vcs n) (default_ends vcs n) = Some sc.
Proof.
  intros vcs buf p n Hn Hb. unfold new_shared. rewrite repeat_length. unfold default_starts, default_ends. rewrite !map_length, !seq_length, Nat.eqb_refl. cbn [andb negb].
  destruct (map_ranges_ok vcs (fun i => i * vcs / n)%nat n 0 (fun _ => None)) as [m [E [A _]]].
  - intros i _. replace ((i + 1) * vcs)%nat with (i * vcs + 1 * vcs)%nat by lia. pose proof (Nat.div_le_mono (i * vcs + 1 * n) (i * vcs + 1 * vcs) n). rewrite Nat.div_add in H by lia. lia.
  - cbn [plus]. rewrite Nat.mul_comm, Nat.div_mul by lia. lia.
  - auto.
  - cbn [plus] in *. rewrite E, sum_repeat, (proj2 (Z.ltb_ge _ _)) by lia.
    assert (F : forallb (fun v => match m v with Some _ => true | None => false end) (seq 0 vcs) = true).
    { apply forallb_forall. intros v Hv. apply in_seq in Hv. rewrite (Nat.mul_comm n vcs), Nat.div_mul in A by lia. rewrite Nat.mul_0_l, Nat.div_0_l in A by lia.
      specialize (A v ltac:(lia)). destruct (m v); auto. }
    rewrite F. eauto.
Qed.

(** A decision procedure for [lawful], for the examples. *)
Definition legalb (c : bcfg) (P : bpolicy) (h : list (Z * bev)) (s : bufs P) (e : Z * bev) : bool :=
  match e with
  | (_, ETake v tag) => Nat.ltb v (bc_vcs c) && (0 <=? tag) && available_for (bs_b s) v
  | (t, ESend v _) => Nat.ltb v (bc_vcs c) && busy v h && match po_full P t (bs_b s) v (bs_p s) with Some false => true | _ => false end
  | (_, ECredit vs) => forallb (fun v => Nat.eqb (count_occ Nat.eq_dec vs v) 1 && Nat.ltb v (bc_vcs c) && (credited v h <? sent v h)) vs
  end.
Fixpoint lawfulb_from (c : bcfg) (P : bpolicy) (h : list (Z * bev)) (es : list (Z * bev)) (s : bufs P) : bool :=
  match es with
  | [] => true
  | e :: r => legalb c P h s e && match bs_step c P e s with Some s' => lawfulb_from c P (h ++ [e]) r s' | None => true end
  end.
Lemma legalb_ok : forall c P h s e, legalb c P h s e = true -> legal c P h s e.
Proof.
  intros c P h s [t [v tag|v tail|vs]] H; cbn [legalb legal] in *.
  - apply andb_true_iff in H. destruct H as [H H3]. apply andb_true_iff in H. destruct H as [H1 H2]. apply Nat.ltb_lt in H1. apply Z.leb_le in H2. auto.
  - apply andb_true_iff in H. destruct H as [H H3]. apply andb_true_iff in H. destruct H as [H1 H2]. apply Nat.ltb_lt in H1. split; auto. split; auto.
    destruct (po_full P t (bs_b s) v (bs_p s)) as [[]|]; congruence.
  - rewrite forallb_forall in H. split.
    + apply (NoDup_count_occ Nat.eq_dec). intros v. destruct (in_dec Nat.eq_dec v vs) as [Hi|Hi].
      * specialize (H v Hi). apply andb_true_iff in H. destruct H as [H _]. apply andb_true_iff in H. destruct H as [H _]. apply Nat.eqb_eq in H. lia.
      * rewrite (proj1 (count_occ_not_In Nat.eq_dec vs v) Hi). lia.
    + apply Forall_forall. intros v Hi. specialize (H v Hi). apply andb_true_iff in H. destruct H as [H H3]. apply andb_true_iff in H. destruct H as [_ H2].
      apply Nat.ltb_lt in H2. apply Z.ltb_lt in H3. auto.
Qed.
Lemma lawfulb_ok : forall c P es h s, lawfulb_from c P h es s = true -> lawful_from c P h es s.
Proof.
  intros c P es. induction es as [|e es IH]; intros h s H; cbn [lawfulb_from lawful_from] in *; auto.
  apply andb_true_iff in H. destruct H as [H1 H2]. split; [apply legalb_ok; auto|]. intros s' E. rewrite E in H2. auto.
Qed.
