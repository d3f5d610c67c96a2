From Coq Require Import ZArith Bool List Lia Arith Relations.
From Verif Require Import RouteModel RouteSpec.
Import ListNotations.
Open Scope Z_scope.

(** ** Coordinates *)
Lemma powi_pow : forall k i, powi k i = k ^ Z.of_nat i.
Proof.
  intros k i; induction i as [|i IH]; [reflexivity|].
  cbn [powi]. rewrite IH, Nat2Z.inj_succ, Z.pow_succ_r by lia. ring.
Qed.

Lemma pow_S : forall k i, k ^ Z.of_nat (S i) = k * k ^ Z.of_nat i.
Proof. intros. rewrite Nat2Z.inj_succ, Z.pow_succ_r by lia. reflexivity. Qed.

Lemma pow_pos : forall k i, 1 <= k -> 1 <= k ^ Z.of_nat i.
Proof. intros k i H. pose proof (Z.pow_pos_nonneg k (Z.of_nat i)). lia. Qed.

Lemma digit_0 : forall k x, digit k 0 x = x mod k.
Proof. intros. unfold digit. cbn [Z.of_nat]. rewrite Z.pow_0_r, Z.div_1_r. reflexivity. Qed.

Lemma digit_S : forall k i x, 1 <= k -> digit k (S i) x = digit k i (x / k).
Proof.
  intros k i x H. unfold digit. pose proof (pow_pos k i H). rewrite pow_S, Z.div_div by lia. reflexivity.
Qed.

Lemma digit_bound : forall k i x, 1 <= k -> 0 <= digit k i x < k.
Proof. intros. unfold digit. apply Z.mod_pos_bound. lia. Qed.

Lemma on_grid_S : forall k n x, 1 <= k -> on_grid k (S n) x <-> 0 <= x /\ on_grid k n (x / k).
Proof.
  intros k n x H. unfold on_grid. rewrite pow_S. pose proof (pow_pos k n H). split.
  - intros [H1 H2]. split; auto. split; [apply Z.div_pos; lia|]. apply Z.div_lt_upper_bound; lia.
  - intros [H1 [H2 H3]]. split; auto. pose proof (Z.div_mod x k). pose proof (Z.mod_pos_bound x k). nia.
Qed.

Lemma digits_ext : forall k n a b, 1 <= k -> on_grid k n a -> on_grid k n b -> (forall i, (i < n)%nat -> digit k i a = digit k i b) -> a = b.
Proof.
  intros k n; induction n as [|n IH]; intros a b Hk Ha Hb E.
  - unfold on_grid in *. cbn in *. lia.
  - apply on_grid_S in Ha, Hb; auto.
    assert (Q : a / k = b / k).
    { apply IH; auto; try tauto. intros i Hi. rewrite <- !digit_S by auto. apply E. lia. }
    assert (R : a mod k = b mod k) by (rewrite <- !digit_0; apply E; lia).
    rewrite (Z.div_mod a k), (Z.div_mod b k), Q, R by lia. reflexivity.
Qed.

Lemma digits_neq : forall k n a b, 1 <= k -> on_grid k n a -> on_grid k n b -> a <> b -> exists i, (i < n)%nat /\ digit k i a <> digit k i b.
Proof.
  intros k n; induction n as [|n IH]; intros a b Hk Ha Hb E.
  - unfold on_grid in *. cbn in *. lia.
  - apply on_grid_S in Ha, Hb; auto.
    destruct (Z.eq_dec (a mod k) (b mod k)) as [R|R].
    + destruct (IH (a / k) (b / k)) as [i [Hi Di]]; auto; try tauto.
      * intros Q. apply E. rewrite (Z.div_mod a k), (Z.div_mod b k), Q, R by lia. reflexivity.
      * exists (S i). rewrite !digit_S by auto. split; [lia|auto].
    + exists 0%nat. rewrite !digit_0. split; [lia|auto].
Qed.

(** Changing one coordinate. *)
Lemma digit_change : forall k d x e, 1 <= k -> 0 <= digit k d x + e < k ->
  digit k d (x + e * k ^ Z.of_nat d) = digit k d x + e /\
  (forall i, i <> d -> digit k i (x + e * k ^ Z.of_nat d) = digit k i x).
Proof.
  intros k d; induction d as [|d IH]; intros x e Hk B.
  - cbn [Z.of_nat]. rewrite Z.pow_0_r, Z.mul_1_r. rewrite digit_0 in *.
    pose proof (Z.div_mod x k ltac:(lia)) as DM.
    assert (Q : (x + e) / k = x / k) by (symmetry; apply Z.div_unique with (r := x mod k + e); lia).
    assert (R : (x + e) mod k = x mod k + e) by (symmetry; apply Z.mod_unique with (q := x / k); lia).
    split; [rewrite digit_0; exact R|]. intros i Hi. destruct i as [|i]; [congruence|]. rewrite !digit_S by auto. rewrite Q. reflexivity.
  - rewrite digit_S in B by auto. destruct (IH (x / k) e Hk B) as [I1 I2].
    assert (Q : (x + e * k ^ Z.of_nat (S d)) / k = x / k + e * k ^ Z.of_nat d).
    { rewrite pow_S. replace (x + e * (k * k ^ Z.of_nat d)) with (x + (e * k ^ Z.of_nat d) * k) by ring. apply Z.div_add. lia. }
    assert (R : (x + e * k ^ Z.of_nat (S d)) mod k = x mod k).
    { rewrite pow_S. replace (x + e * (k * k ^ Z.of_nat d)) with (x + (e * k ^ Z.of_nat d) * k) by ring. apply Z.mod_add. lia. }
    split; [rewrite !digit_S, Q by auto; exact I1|].
    intros i Hi. destruct i as [|i]; [rewrite !digit_0; exact R|]. rewrite !digit_S, Q by auto. apply I2. congruence.
Qed.

Lemma on_grid_change : forall k n d x e, 1 <= k -> (d < n)%nat -> on_grid k n x -> 0 <= digit k d x + e < k -> on_grid k n (x + e * k ^ Z.of_nat d).
Proof.
  intros k n; induction n as [|n IH]; intros d x e Hk Hd Hx B; [lia|].
  apply on_grid_S in Hx; auto. destruct Hx as [H0 Hx]. pose proof (Z.div_mod x k ltac:(lia)) as DM. pose proof (Z.mod_pos_bound x k ltac:(lia)) as MB.
  assert (0 <= x / k) by (apply Z.div_pos; lia).
  apply on_grid_S; auto. destruct d as [|d].
  - cbn [Z.of_nat]. rewrite Z.pow_0_r, Z.mul_1_r. rewrite digit_0 in B.
    assert (Q : (x + e) / k = x / k) by (symmetry; apply Z.div_unique with (r := x mod k + e); lia).
    rewrite Q. split; auto. nia.
  - rewrite digit_S in B by auto.
    assert (Q : (x + e * k ^ Z.of_nat (S d)) / k = x / k + e * k ^ Z.of_nat d).
    { rewrite pow_S. replace (x + e * (k * k ^ Z.of_nat d)) with (x + (e * k ^ Z.of_nat d) * k) by ring. apply Z.div_add. lia. }
    assert (G : on_grid k n (x / k + e * k ^ Z.of_nat d)) by (apply IH; auto; lia).
    rewrite Q. split; auto.
    assert (R : (x + e * k ^ Z.of_nat (S d)) mod k = x mod k).
    { rewrite pow_S. replace (x + e * (k * k ^ Z.of_nat d)) with (x + (e * k ^ Z.of_nat d) * k) by ring. apply Z.mod_add. lia. }
    pose proof (Z.div_mod (x + e * k ^ Z.of_nat (S d)) k ltac:(lia)) as DM2. rewrite Q, R in DM2. destruct G. nia.
Qed.

(** The neighbours. *)
Lemma right_moved : forall k n u d, 1 <= k -> (d < n)%nat -> on_grid k n u ->
  on_grid k n (right_node k u d) /\ moved k n u (right_node k u d) d ((digit k d u + 1) mod k).
Proof.
  intros k n u d Hk Hd Hu. pose proof (digit_bound k d u Hk) as B.
  unfold right_node. rewrite powi_pow. fold (digit k d u).
  destruct (Z.eqb_spec (digit k d u) (k - 1)) as [E|E].
  - replace (u - (k - 1) * k ^ Z.of_nat d) with (u + (- (k - 1)) * k ^ Z.of_nat d) by ring.
    assert (BB : 0 <= digit k d u + - (k - 1) < k) by lia.
    split; [apply on_grid_change; auto|].
    destruct (digit_change k d u _ Hk BB) as [D1 D2]. split; auto. split; [|intros; apply D2; auto].
    rewrite D1, E. replace (k - 1 + 1) with (0 + 1 * k) by ring. rewrite Z.mod_add, Z.mod_0_l by lia. lia.
  - replace (u + k ^ Z.of_nat d) with (u + 1 * k ^ Z.of_nat d) by ring.
    assert (BB : 0 <= digit k d u + 1 < k) by lia.
    split; [apply on_grid_change; auto|].
    destruct (digit_change k d u _ Hk BB) as [D1 D2]. split; auto. split; [|intros; apply D2; auto].
    rewrite D1, Z.mod_small; lia.
Qed.

Lemma left_moved : forall k n u d, 1 <= k -> (d < n)%nat -> on_grid k n u ->
  on_grid k n (left_node k u d) /\ moved k n u (left_node k u d) d ((digit k d u - 1) mod k).
Proof.
  intros k n u d Hk Hd Hu. pose proof (digit_bound k d u Hk) as B.
  unfold left_node. rewrite powi_pow. fold (digit k d u).
  destruct (Z.eqb_spec (digit k d u) 0) as [E|E].
  - assert (BB : 0 <= digit k d u + (k - 1) < k) by lia.
    split; [apply on_grid_change; auto|].
    destruct (digit_change k d u _ Hk BB) as [D1 D2]. split; auto. split; [|intros; apply D2; auto].
    rewrite D1, E. replace (0 - 1) with ((k - 1) + (-1) * k) by ring. rewrite Z.mod_add, Z.mod_small by lia. lia.
  - replace (u - k ^ Z.of_nat d) with (u + (-1) * k ^ Z.of_nat d) by ring.
    assert (BB : 0 <= digit k d u + (-1) < k) by lia.
    split; [apply on_grid_change; auto|].
    destruct (digit_change k d u _ Hk BB) as [D1 D2]. split; auto. split; [|intros; apply D2; auto].
    rewrite D1, Z.mod_small; lia.
Qed.

Lemma moved_unique : forall k n u v w d x, 1 <= k -> on_grid k n v -> on_grid k n w -> moved k n u v d x -> moved k n u w d x -> v = w.
Proof.
  intros k n u v w d x Hk Hv Hw [H1 [H2 H3]] [G1 [G2 G3]]. apply (digits_ext k n); auto.
  intros i Hi. destruct (Nat.eq_dec i d) as [->|N]; [congruence|]. rewrite H3, G3; auto.
Qed.

Lemma left_right : forall k n u d, 1 <= k -> (d < n)%nat -> on_grid k n u -> left_node k (right_node k u d) d = u.
Proof.
  intros k n u d Hk Hd Hu. destruct (right_moved k n u d Hk Hd Hu) as [R1 R2]. destruct (left_moved k n _ d Hk Hd R1) as [L1 L2].
  apply (digits_ext k n); auto. destruct R2 as [_ [R2 R3]]. destruct L2 as [_ [L2 L3]].
  intros i Hi. destruct (Nat.eq_dec i d) as [->|N].
  - rewrite L2, R2. rewrite Zminus_mod_idemp_l. replace (digit k d u + 1 - 1) with (digit k d u) by ring. apply Z.mod_small, digit_bound; auto.
  - rewrite L3, R3; auto.
Qed.

Lemma right_left : forall k n u d, 1 <= k -> (d < n)%nat -> on_grid k n u -> right_node k (left_node k u d) d = u.
Proof.
  intros k n u d Hk Hd Hu. destruct (left_moved k n u d Hk Hd Hu) as [R1 R2]. destruct (right_moved k n _ d Hk Hd R1) as [L1 L2].
  apply (digits_ext k n); auto. destruct R2 as [_ [R2 R3]]. destruct L2 as [_ [L2 L3]].
  intros i Hi. destruct (Nat.eq_dec i d) as [->|N].
  - rewrite L2, R2. rewrite Zplus_mod_idemp_l. replace (digit k d u - 1 + 1) with (digit k d u) by ring. apply Z.mod_small, digit_bound; auto.
  - rewrite L3, R3; auto.
Qed.

(** ** Wiring *)
Lemma nth_pairs : forall (f g : nat -> Z) n a p, (p < 2 * n)%nat ->
  nth_error (flat_map (fun d => [f d; g d]) (seq a n)) p = Some (if Nat.even p then f (a + Nat.div2 p)%nat else g (a + Nat.div2 p)%nat).
Proof.
  intros f g n; induction n as [|n IH]; intros a p H; [lia|].
  cbn [seq flat_map]. destruct p as [|[|p]].
  - cbn. rewrite Nat.add_0_r. reflexivity.
  - cbn. rewrite Nat.add_0_r. reflexivity.
  - cbn [app nth_error]. rewrite IH by lia. cbn [Nat.even Nat.div2]. rewrite Nat.add_succ_r. reflexivity.
Qed.

Lemma len_pairs : forall (f g : nat -> Z) l, length (flat_map (fun d => [f d; g d]) l) = (2 * length l)%nat.
Proof. intros f g l; induction l as [|x l IH]; [reflexivity|]. cbn [flat_map app length]. rewrite IH. lia. Qed.

Lemma nth_pairs_ge : forall (f g : nat -> Z) n a p, (2 * n <= p)%nat -> nth_error (flat_map (fun d => [f d; g d]) (seq a n)) p = None.
Proof. intros. apply nth_error_None. rewrite len_pairs, seq_length. lia. Qed.

Lemma out_chan : forall n u p, (p < 2 * n)%nat -> nth_error (out_channels n u) p = Some (2 * Z.of_nat n * u + Z.of_nat p).
Proof.
  intros n u p H. unfold out_channels. rewrite nth_pairs by auto. cbn [Nat.add].
  pose proof (Nat.div2_odd p) as O. rewrite <- Nat.negb_even in O. unfold right_channel, left_channel. destruct (Nat.even p); cbn [negb Nat.b2n] in O; f_equal; lia.
Qed.

Lemma out_chan_ge : forall n u p, (2 * n <= p)%nat -> nth_error (out_channels n u) p = None.
Proof. intros. unfold out_channels. apply nth_pairs_ge. auto. Qed.

(** The node at the other end of an output port. *)
Definition hop (k u : Z) (p : nat) : Z := if Nat.even p then right_node k u (Nat.div2 p) else left_node k u (Nat.div2 p).
(** The input port at the other end. *)
Definition mate (p : nat) : nat := if Nat.even p then S p else Nat.pred p.

Lemma mate_cases : forall p, (Nat.even p = true /\ p = 2 * Nat.div2 p /\ mate p = 2 * Nat.div2 p + 1)%nat \/
                             (Nat.even p = false /\ p = 2 * Nat.div2 p + 1 /\ mate p = 2 * Nat.div2 p)%nat.
Proof.
  intros p. pose proof (Nat.div2_odd p) as O. rewrite <- Nat.negb_even in O. unfold mate. destruct (Nat.even p); cbn [negb Nat.b2n] in O; [left|right]; repeat split; lia.
Qed.

Lemma div2_2 : forall d, Nat.div2 (2 * d) = d.
Proof. intros. apply Nat.div2_double. Qed.
Lemma div2_21 : forall d, Nat.div2 (2 * d + 1) = d.
Proof. intros. rewrite Nat.add_1_r. apply Nat.div2_succ_double. Qed.
Lemma even_2 : forall d, Nat.even (2 * d) = true.
Proof. intros. rewrite Nat.even_spec. exists d. reflexivity. Qed.
Lemma even_21 : forall d, Nat.even (2 * d + 1) = false.
Proof. intros. rewrite Nat.add_1_r, Nat.even_succ, <- Nat.negb_even, even_2. reflexivity. Qed.

Lemma mate_lxor : forall p, Nat.lxor (mate p) 1 = p.
Proof.
  intros p. apply Nat.bits_inj. intros m. rewrite Nat.lxor_spec.
  destruct (mate_cases p) as [[_ [E M]]|[_ [E M]]]; rewrite M; set (h := Nat.div2 p) in *; rewrite E; clear.
  - destruct m as [|m].
    + rewrite Nat.testbit_odd_0, Nat.testbit_even_0. reflexivity.
    + rewrite Nat.testbit_odd_succ, Nat.testbit_even_succ by lia. change 1%nat with (2 * 0 + 1)%nat. rewrite Nat.testbit_odd_succ, Nat.bits_0 by lia. apply xorb_false_r.
  - destruct m as [|m].
    + rewrite Nat.testbit_odd_0, Nat.testbit_even_0. reflexivity.
    + rewrite Nat.testbit_odd_succ, Nat.testbit_even_succ by lia. change 1%nat with (2 * 0 + 1)%nat at 1. rewrite Nat.testbit_odd_succ, Nat.bits_0 by lia. apply xorb_false_r.
Qed.

Lemma mate_div2 : forall p, Nat.div2 (mate p) = Nat.div2 p.
Proof. intros p. destruct (mate_cases p) as [[_ [E M]]|[_ [E M]]]; rewrite M; [apply div2_21|apply div2_2]. Qed.

Lemma hop_grid : forall k n u p, 1 <= k -> (p < 2 * n)%nat -> on_grid k n u -> on_grid k n (hop k u p).
Proof.
  intros k n u p Hk Hp Hu. assert (Nat.div2 p < n)%nat by (destruct (mate_cases p) as [[_ [E _]]|[_ [E _]]]; lia).
  unfold hop. destruct (Nat.even p); [apply right_moved|apply left_moved]; auto.
Qed.

Lemma in_chan : forall k n v q, (q < 2 * n)%nat -> 1 <= k -> on_grid k n v ->
  nth_error (in_channels k n v) q = Some (2 * Z.of_nat n * hop k v q + Z.of_nat (mate q)).
Proof.
  intros k n v q H Hk Hv. unfold in_channels. rewrite nth_pairs by auto. cbn [Nat.add]. unfold hop, left_channel, right_channel.
  destruct (mate_cases q) as [[E [E1 E2]]|[E [E1 E2]]]; rewrite E, E2; f_equal; lia.
Qed.

Lemma in_chan_ge : forall k n v q, (2 * n <= q)%nat -> nth_error (in_channels k n v) q = None.
Proof. intros. unfold in_channels. apply nth_pairs_ge. auto. Qed.

Lemma chan_inj : forall n a b i j, (i < 2 * n)%nat -> (j < 2 * n)%nat -> 2 * Z.of_nat n * a + Z.of_nat i = 2 * Z.of_nat n * b + Z.of_nat j -> a = b /\ i = j.
Proof.
  intros n a b i j Hi Hj E.
  assert (a = b); [|subst; split; [reflexivity|lia]].
  apply (Z.div_mod_unique (2 * Z.of_nat n) a b (Z.of_nat i) (Z.of_nat j)); lia.
Qed.

Lemma hop_mate : forall k n u p, 1 <= k -> (p < 2 * n)%nat -> on_grid k n u -> hop k (hop k u p) (mate p) = u.
Proof.
  intros k n u p Hk Hp Hu. assert (Nat.div2 p < n)%nat by (destruct (mate_cases p) as [[_ [E _]]|[_ [E _]]]; lia).
  unfold hop. rewrite mate_div2. destruct (mate_cases p) as [[E [E1 E2]]|[E [E1 E2]]]; rewrite E, E2.
  - rewrite even_21. apply (left_right k n); auto.
  - rewrite even_2. apply (right_left k n); auto.
Qed.

Lemma mate_mate : forall p, mate (mate p) = p.
Proof.
  intros p. destruct (mate_cases p) as [[E [E1 E2]]|[E [E1 E2]]]; rewrite E2; unfold mate.
  - rewrite even_21. lia.
  - rewrite even_2. lia.
Qed.

Lemma mate_lt : forall p n, (p < 2 * n)%nat -> (mate p < 2 * n)%nat.
Proof. intros p n H. destruct (mate_cases p) as [[E [E1 E2]]|[E [E1 E2]]]; lia. Qed.

Lemma linked_iff : forall k n u p v q, 1 <= k -> linked k n u p v q <-> on_grid k n u /\ (p < 2 * n)%nat /\ v = hop k u p /\ q = mate p.
Proof.
  intros k n u p v q Hk. split.
  - intros [Hu [Hv [c [O I]]]].
    assert (Hp : (p < 2 * n)%nat) by (destruct (Nat.lt_ge_cases p (2 * n)); auto; rewrite out_chan_ge in O by auto; discriminate).
    assert (Hq : (q < 2 * n)%nat) by (destruct (Nat.lt_ge_cases q (2 * n)); auto; rewrite in_chan_ge in I by auto; discriminate).
    rewrite out_chan in O by auto. rewrite in_chan in I by auto.
    assert (E : 2 * Z.of_nat n * u + Z.of_nat p = 2 * Z.of_nat n * hop k v q + Z.of_nat (mate q)) by congruence.
    apply chan_inj in E; auto; [|apply mate_lt; auto]. destruct E as [-> ->].
    rewrite mate_mate. rewrite (hop_mate k n) by auto. auto.
  - intros [Hu [Hp [-> ->]]]. split; auto. split; [apply hop_grid; auto|].
    exists (2 * Z.of_nat n * u + Z.of_nat p). split; [apply out_chan; auto|].
    rewrite in_chan; auto; [|apply mate_lt; auto|apply hop_grid; auto]. rewrite (hop_mate k n), mate_mate by auto. reflexivity.
Qed.

Lemma wiring : forall k n, 1 <= k ->
  (forall u p, on_grid k n u -> (p < 2 * n)%nat -> exists v q, linked k n u p v q) /\
  (forall v q, on_grid k n v -> (q < 2 * n)%nat -> exists u p, linked k n u p v q) /\
  (forall u p v q v' q', linked k n u p v q -> linked k n u p v' q' -> v = v' /\ q = q') /\
  (forall u p u' p' v q, linked k n u p v q -> linked k n u' p' v q -> u = u' /\ p = p').
Proof.
  intros k n Hk. split; [|split; [|split]].
  - intros u p Hu Hp. exists (hop k u p), (mate p). apply linked_iff; auto.
  - intros v q Hv Hq. exists (hop k v q), (mate q). apply linked_iff; auto. split; [apply hop_grid; auto|]. split; [apply mate_lt; auto|].
    rewrite (hop_mate k n), mate_mate by auto. auto.
  - intros u p v q v' q' L1 L2. apply linked_iff in L1, L2; auto. destruct L1 as [_ [_ [-> ->]]], L2 as [_ [_ [-> ->]]]. auto.
  - intros u p u' p' v q L1 L2. apply linked_iff in L1, L2; auto. destruct L1 as [G1 [P1 [E1 Q1]]], L2 as [G2 [P2 [E2 Q2]]].
    assert (p = p') by (rewrite <- (mate_mate p), <- (mate_mate p'); congruence). subst p'.
    split; auto. rewrite <- (hop_mate k n u p), <- (hop_mate k n u' p) by auto. congruence.
Qed.

Lemma linked_moved : forall k n u p v q, 1 <= k -> linked k n u p v q ->
  exists d, (p = (2 * d)%nat /\ q = (2 * d + 1)%nat /\ moved k n u v d ((digit k d u + 1) mod k) \/
             p = (2 * d + 1)%nat /\ q = (2 * d)%nat /\ moved k n u v d ((digit k d u - 1) mod k)).
Proof.
  intros k n u p v q Hk L. apply linked_iff in L; auto. destruct L as [Hu [Hp [-> ->]]]. exists (Nat.div2 p).
  assert (Nat.div2 p < n)%nat by (destruct (mate_cases p) as [[_ [E _]]|[_ [E _]]]; lia).
  unfold hop. destruct (mate_cases p) as [[E [E1 E2]]|[E [E1 E2]]]; rewrite E; [left|right]; (split; [exact E1|]); (split; [exact E2|]).
  - apply right_moved; auto.
  - apply left_moved; auto.
Qed.

Lemma all_channels_used : forall k n c, 1 <= k -> 0 <= c < 2 * Z.of_nat n * k ^ Z.of_nat n ->
  (exists u p, on_grid k n u /\ nth_error (out_channels n u) p = Some c) /\
  (exists v q, on_grid k n v /\ nth_error (in_channels k n v) q = Some c).
Proof.
  intros k n c Hk Hc. assert (0 < 2 * Z.of_nat n) by nia.
  set (u := c / (2 * Z.of_nat n)). set (p := Z.to_nat (c mod (2 * Z.of_nat n))).
  pose proof (Z.mod_pos_bound c (2 * Z.of_nat n) ltac:(lia)) as MB. pose proof (Z.div_mod c (2 * Z.of_nat n) ltac:(lia)) as DM.
  assert (Hp : (p < 2 * n)%nat) by (unfold p; lia).
  assert (Hu : on_grid k n u).
  { split; [apply Z.div_pos; lia|]. apply Z.div_lt_upper_bound; lia. }
  assert (E : nth_error (out_channels n u) p = Some c).
  { rewrite out_chan by auto. f_equal. unfold p, u. lia. }
  split; [exists u, p; auto|].
  destruct (proj1 (wiring k n Hk) u p Hu Hp) as [v [q L]]. destruct L as [_ [Hv [c' [O I]]]]. exists v, q. split; auto. congruence.
Qed.

(** ** The loops of the routing functions *)
Lemma dor_asc_ok : forall k m dim cur dest, 1 <= k -> on_grid k (S m) cur -> on_grid k (S m) dest -> cur <> dest ->
  exists j, (j <= m)%nat /\ dor_asc k m dim cur dest = ((dim + j)%nat, digit k j cur, digit k j dest) /\
            digit k j cur <> digit k j dest /\ (forall i, (i < j)%nat -> digit k i cur = digit k i dest).
Proof.
  intros k m; induction m as [|m IH]; intros dim cur dest Hk Hc Hd N; cbn [dor_asc].
  - exists 0%nat. rewrite !digit_0, Nat.add_0_r. split; auto. split; auto. split; [|lia].
    intros E. apply N. apply (digits_ext k 1); auto. intros i Hi. replace i with 0%nat by lia. rewrite !digit_0. auto.
  - destruct (Z.eqb_spec (cur mod k) (dest mod k)) as [E|E]; cbn [negb].
    + apply on_grid_S in Hc, Hd; auto. destruct (IH (S dim) (cur / k) (dest / k)) as [j [J1 [J2 [J3 J4]]]]; auto; try tauto.
      * intros Q. apply N. rewrite (Z.div_mod cur k), (Z.div_mod dest k), Q, E by lia. reflexivity.
      * exists (S j). rewrite J2, !digit_S by auto. split; [lia|]. split; [f_equal; f_equal; lia|]. split; auto.
        intros i Hi. destruct i as [|i]; [rewrite !digit_0; auto|]. rewrite !digit_S by auto. apply J4. lia.
    + exists 0%nat. rewrite !digit_0, Nat.add_0_r. split; [lia|]. split; auto. split; auto. lia.
Qed.

Lemma top_digit : forall k m x, 1 <= k -> on_grid k (S m) x -> x * k / k ^ Z.of_nat (S m) = digit k m x.
Proof.
  intros k m x Hk [H0 H1]. rewrite pow_S in *. pose proof (pow_pos k m Hk) as P.
  rewrite (Z.mul_comm x k), Z.div_mul_cancel_l by lia. unfold digit. symmetry. apply Z.mod_small.
  split; [apply Z.div_pos; lia|apply Z.div_lt_upper_bound; lia].
Qed.

Lemma shift_digit : forall k m x i, 1 <= k -> on_grid k (S m) x -> (i < m)%nat ->
  digit k (S i) ((x * k) mod k ^ Z.of_nat (S m)) = digit k i x.
Proof.
  intros k m x i Hk Hx Hi. rewrite digit_S by auto. rewrite pow_S.
  pose proof (pow_pos k m Hk) as P.
  rewrite (Z.mul_comm x k), Z.mul_mod_distr_l by lia. rewrite (Z.mul_comm k (x mod _)), Z.div_mul by lia.
  (* digit i of x mod k^m with i < m *)
  unfold digit.
  assert (E : k ^ Z.of_nat m = k ^ Z.of_nat i * (k * k ^ Z.of_nat (m - S i))).
  { rewrite <- pow_S. replace (S (m - S i))%nat with (m - i)%nat by lia. rewrite <- Z.pow_add_r by lia. f_equal. lia. }
  pose proof (pow_pos k i Hk) as Pi. pose proof (pow_pos k (m - S i) Hk) as Pj.
  rewrite E. rewrite Z.rem_mul_r by nia.
  rewrite (Z.mul_comm (k ^ Z.of_nat i) ((x / k ^ Z.of_nat i) mod _)), Z.div_add by lia.
  rewrite (Z.div_small (x mod k ^ Z.of_nat i)) by (apply Z.mod_pos_bound; lia). rewrite Z.add_0_l.
  rewrite Z.rem_mul_r by lia. rewrite (Z.mul_comm k ((_ / k) mod _)), Z.mod_add, Z.mod_mod by lia. reflexivity.
Qed.

Lemma shift_grid : forall k m x, 1 <= k -> on_grid k (S m) ((x * k) mod k ^ Z.of_nat (S m)).
Proof. intros k m x Hk. unfold on_grid. apply Z.mod_pos_bound. pose proof (pow_pos k (S m) Hk). lia. Qed.

Lemma dor_desc_ok : forall k m dim cur dest, 1 <= k -> (dim <= m)%nat -> on_grid k (S m) cur -> on_grid k (S m) dest ->
  (exists i, (m - dim <= i <= m)%nat /\ digit k i cur <> digit k i dest) ->
  exists j, (j <= dim)%nat /\ dor_desc k (k ^ Z.of_nat (S m)) dim cur dest = (j, digit k (m - dim + j) cur, digit k (m - dim + j) dest) /\
            digit k (m - dim + j) cur <> digit k (m - dim + j) dest /\
            (forall i, (m - dim + j < i <= m)%nat -> digit k i cur = digit k i dest).
Proof.
  intros k m dim; induction dim as [|dim IH]; intros cur dest Hk Hm Hc Hd [w [W1 W2]]; cbn [dor_desc].
  - rewrite !top_digit by auto. exists 0%nat. replace (m - 0 + 0)%nat with m by lia. split; auto. split; auto.
    split; [replace m with w by lia; auto|]. intros; lia.
  - rewrite !top_digit by auto. destruct (Z.eqb_spec (digit k m cur) (digit k m dest)) as [E|E]; cbn [negb].
    + destruct (IH ((cur * k) mod k ^ Z.of_nat (S m)) ((dest * k) mod k ^ Z.of_nat (S m))) as [j [J1 [J2 [J3 J4]]]]; auto; try lia; try apply shift_grid; auto.
      * exists (S w). assert (w <> m) by congruence. split; [lia|]. rewrite !shift_digit by (auto; lia). auto.
      * exists j. rewrite J2. split; [lia|].
        assert (L : (m - dim + j = S (m - S dim + j))%nat) by lia.
        assert (L2 : (m - S dim + j < m)%nat) by lia.
        rewrite L in *. rewrite !shift_digit in * by auto. split; auto. split; auto.
        intros i Hi. destruct (Nat.eq_dec i m) as [->|Ni]; auto.
        specialize (J4 (S i) ltac:(lia)). rewrite !shift_digit in J4 by (auto; lia). auto.
    + exists (S dim). replace (m - S dim + S dim)%nat with m by lia. split; auto. split; auto. split; auto. intros; lia.
Qed.

(** What dor_next_mesh chooses: a dimension whose coordinate differs, with all earlier ones equal. *)
Lemma dor_next_ok : forall k n desc cur dest, 1 <= k -> on_grid k n cur -> on_grid k n dest -> cur <> dest ->
  exists d, (d < n)%nat /\ digit k d cur <> digit k d dest /\
    dor_next_mesh k n (k ^ Z.of_nat n) desc cur dest = (if digit k d cur <? digit k d dest then (2 * d)%nat else (2 * d + 1)%nat) /\
    (if desc then forall i, (d < i < n)%nat -> digit k i cur = digit k i dest else forall i, (i < d)%nat -> digit k i cur = digit k i dest).
Proof.
  intros k n desc cur dest Hk Hc Hd N. destruct n as [|m].
  { unfold on_grid in *. cbn in *. lia. }
  unfold dor_next_mesh. destruct (Z.eqb_spec cur dest) as [E|_]; [congruence|].
  replace (S m - 1)%nat with m by lia. destruct desc.
  - destruct (dor_desc_ok k m m cur dest) as [j [J1 [J2 [J3 J4]]]]; auto.
    { destruct (digits_neq k (S m) cur dest) as [i [I1 I2]]; auto. exists i. split; auto. lia. }
    rewrite J2. replace (m - m + j)%nat with j in * by lia. exists j. split; [lia|]. split; auto. split; auto. intros i Hi. apply J4. lia.
  - destruct (dor_asc_ok k m 0 cur dest) as [j [J1 [J2 [J3 J4]]]]; auto. rewrite J2. cbn [Nat.add]. exists j. split; [lia|]. auto.
Qed.

Lemma dor_next_dest : forall k n nodes desc cur, dor_next_mesh k n nodes desc cur cur = (2 * n)%nat.
Proof. intros. unfold dor_next_mesh. rewrite Z.eqb_refl. reflexivity. Qed.

(** ** Distance *)
Lemma mesh_dist_nonneg : forall k n a b, 0 <= mesh_dist k n a b.
Proof. intros k n a b; induction n as [|n IH]; cbn [mesh_dist]; lia. Qed.

Lemma mesh_dist_same : forall k n a b c, (forall i, (i < n)%nat -> digit k i a = digit k i b) -> mesh_dist k n a c = mesh_dist k n b c.
Proof. intros k n a b c; induction n as [|n IH]; intros E; cbn [mesh_dist]; auto. rewrite IH by (intros; apply E; lia). rewrite E by lia. reflexivity. Qed.

Lemma mesh_dist_moved : forall k n u v d x c, moved k n u v d x ->
  mesh_dist k n v c = mesh_dist k n u c - Z.abs (digit k d u - digit k d c) + Z.abs (x - digit k d c).
Proof.
  intros k n u v d x c [H1 [H2 H3]]. induction n as [|n IH]; [lia|]. cbn [mesh_dist].
  destruct (Nat.eq_dec d n) as [->|N].
  - rewrite (mesh_dist_same k n v u c) by (intros i Hi; apply H3; lia). rewrite H2. lia.
  - rewrite IH by (try lia; intros i Hi Hn; apply H3; lia). rewrite (H3 n) by lia. lia.
Qed.

Lemma mesh_dist_0 : forall k n a b, 1 <= k -> on_grid k n a -> on_grid k n b -> mesh_dist k n a b = 0 <-> a = b.
Proof.
  intros k n a b Hk Ha Hb. split.
  - intros E. apply (digits_ext k n); auto. clear Ha Hb. induction n as [|n IH]; intros i Hi; [lia|]. cbn [mesh_dist] in E.
    pose proof (mesh_dist_nonneg k n a b). destruct (Nat.eq_dec i n) as [->|N]; [lia|]. apply IH; lia.
  - intros ->. clear. induction n as [|n IH]; cbn [mesh_dist]; lia.
Qed.

(** A port towards the destination. *)
Definition productive (k : Z) (n : nat) (u dest : Z) (p : nat) : Prop :=
  exists d, (d < n)%nat /\ (p = (2 * d)%nat /\ digit k d u < digit k d dest \/ p = (2 * d + 1)%nat /\ digit k d dest < digit k d u).

Lemma productive_hop : forall k n u dest p v q, 1 <= k -> productive k n u dest p -> linked k n u p v q ->
  mesh_dist k n v dest = mesh_dist k n u dest - 1 /\ mesh_link k n u v /\ in_box k n u dest v.
Proof.
  intros k n u dest p v q Hk [d [Hd P]] L. pose proof L as L0. apply linked_moved in L; auto. destruct L as [d' M].
  pose proof (digit_bound k d u Hk) as Bu. pose proof (digit_bound k d dest Hk) as Bd.
  assert (d' = d) by (destruct P as [[P _]|[P _]], M as [[M _]|[M _]]; lia). subst d'.
  assert (MM : exists x, moved k n u v d x /\ (x = digit k d u + 1 /\ digit k d u < digit k d dest \/ x = digit k d u - 1 /\ digit k d dest < digit k d u)).
  { destruct P as [[P PL]|[P PL]], M as [[M [_ MM]]|[M [_ MM]]]; try lia; rewrite Z.mod_small in MM by lia; eexists; (split; [exact MM|lia]). }
  clear M P. destruct MM as [x [M X]]. split; [|split].
  - rewrite (mesh_dist_moved k n u v d x dest M). lia.
  - exists p, q, d. split; auto. destruct X as [[-> _]|[-> _]]; auto.
  - intros i Hi. destruct M as [_ [M1 M2]]. destruct (Nat.eq_dec i d) as [->|N]; [rewrite M1; lia|]. rewrite M2 by auto. lia.
Qed.

Lemma dor_productive : forall k n desc cur dest, 1 <= k -> on_grid k n cur -> on_grid k n dest -> cur <> dest ->
  productive k n cur dest (dor_next_mesh k n (k ^ Z.of_nat n) desc cur dest).
Proof.
  intros k n desc cur dest Hk Hc Hd N. destruct (dor_next_ok k n desc cur dest Hk Hc Hd N) as [d [D1 [D2 [D3 _]]]].
  exists d. split; auto. rewrite D3. destruct (Z.ltb_spec (digit k d cur) (digit k d dest)); [left|right]; split; auto; lia.
Qed.

Lemma productive_lt : forall k n u dest p, productive k n u dest p -> (p < 2 * n)%nat.
Proof. intros k n u dest p [d [Hd [[-> _]|[-> _]]]]; lia. Qed.

Lemma in_box_trans : forall k n a b u v, in_box k n a b u -> in_box k n u b v -> in_box k n a b v.
Proof. intros k n a b u v H1 H2 i Hi. specialize (H1 i Hi). specialize (H2 i Hi). lia. Qed.

Lemma in_box_refl : forall k n a b, in_box k n a b a.
Proof. intros k n a b i Hi. lia. Qed.

Lemma mesh_link_far : forall k n u v dest, mesh_link k n u v -> mesh_dist k n u dest <= mesh_dist k n v dest + 1.
Proof.
  intros k n u v dest [p [q [d [_ [M|M]]]]]; rewrite (mesh_dist_moved k n u v d _ dest M); lia.
Qed.
