From Coq Require Import ZArith Bool List Lia.
From Verif Require Import Bits BitsProofs AddrModel.
Import ListNotations.
Local Open Scope Z_scope.

Lemma max_nodes_ge : forall nodes n, In n nodes -> n <= max_nodes nodes.
Proof.
  assert (A : forall l m n, (n <= m \/ In n l) -> n <= fold_left (fun m n => if m <? n then n else m) l m).
  { induction l as [|x l IH]; intros m n H; cbn.
    - destruct H as [H|[]]; auto.
    - apply IH. destruct (Z.ltb_spec m x); destruct H as [H|[H|H]]; subst; auto; left; lia. }
  intros nodes n H. apply A. auto.
Qed.

Lemma max_nodes_nonneg : forall nodes, 0 <= max_nodes nodes.
Proof.
  assert (A : forall l m, 0 <= m -> 0 <= fold_left (fun m n => if m <? n then n else m) l m).
  { induction l as [|x l IH]; intros m H; cbn; auto. apply IH. destruct (Z.ltb_spec m x); lia. }
  intros. apply A. lia.
Qed.

Lemma clog2_le : forall n, 0 < n -> n <= 2 ^ clog2 n.
Proof.
  intros n H. unfold clog2. destruct (Z.eq_dec n 1) as [->|N]; [cbn; lia|].
  apply Z.log2_up_spec. lia.
Qed.

Lemma some_inj : forall (A : Type) (x y : A), Some x = Some y -> x = y.
Proof. intros A x y H. congruence. Qed.

Lemma base_value : forall nodes noc node a,
  0 <= noc < Z.of_nat (length nodes) -> 0 <= node < max_nodes nodes ->
  base_address nodes noc node = Some a ->
  let nb := clog2 (Z.of_nat (length nodes)) in let db := clog2 (max_nodes nodes) in
  0 <= nb /\ 0 <= db /\ 0 < nb + db <= 64 /\ node < 2 ^ db /\ noc < 2 ^ nb /\
  a = (noc * 2 ^ db + node) * 2 ^ (64 - nb - db).
Proof.
  intros nodes noc node a Hn Hd H nb db. unfold base_address in H. fold nb db in H. unfold addrw in H.
  assert (N0 : 0 <= nb) by apply Z.log2_up_nonneg. assert (D0 : 0 <= db) by apply Z.log2_up_nonneg.
  destruct (Z.ltb_spec (64 - nb - db) 64); [|discriminate].
  destruct (Z.leb_spec 0 (64 - nb - db)); [|discriminate]. cbn [andb] in H. apply some_inj in H. subst a.
  assert (L1 : node < 2 ^ db) by (pose proof (clog2_le (max_nodes nodes)) as K; fold db in K; lia).
  assert (L2 : noc < 2 ^ nb) by (pose proof (clog2_le (Z.of_nat (length nodes))) as K; fold nb in K; lia).
  repeat split; auto; try lia.
  rewrite (Z.shiftl_mul_pow2 noc) by lia. rewrite Z.shiftl_mul_pow2 by lia.
  assert (P : 2 ^ nb * 2 ^ db * 2 ^ (64 - nb - db) = 2 ^ 64).
  { rewrite <- !Z.pow_add_r by lia. f_equal. lia. }
  assert (P1 : 0 < 2 ^ nb) by (apply Z.pow_pos_nonneg; lia).
  assert (P2 : 0 < 2 ^ db) by (apply Z.pow_pos_nonneg; lia).
  assert (P3 : 0 < 2 ^ (64 - nb - db)) by (apply Z.pow_pos_nonneg; lia).
  assert (X : noc * 2 ^ db + node < 2 ^ nb * 2 ^ db) by nia.
  set (v := noc * 2 ^ db + node) in *. set (p := 2 ^ nb * 2 ^ db) in *. set (q := 2 ^ (64 - nb - db)) in *.
  assert (V : 0 <= v) by (unfold v; nia).
  assert (W : v * q < 2 ^ 64) by (rewrite <- P; apply Z.mul_lt_mono_pos_r; lia).
  assert (U : v <= v * q) by nia.
  rewrite (Z.mod_small v) by lia. rewrite Z.mod_small by lia. reflexivity.
Qed.

Lemma decode_value : forall nw addr, 0 < nw <= 64 -> 0 <= addr < 2 ^ 64 ->
  dest_node nw addr = addr / 2 ^ (64 - nw).
Proof.
  intros nw addr H A. unfold dest_node, addrw. rewrite get_div_mod by lia.
  replace (64 - 1 - (64 - nw) + 1) with nw by lia. apply Z.mod_small.
  assert (P : 2 ^ 64 = 2 ^ (64 - nw) * 2 ^ nw) by (rewrite <- Z.pow_add_r by lia; f_equal; lia).
  assert (0 < 2 ^ (64 - nw)) by (apply Z.pow_pos_nonneg; lia).
  split; [apply Z.div_pos; lia|]. apply Z.div_lt_upper_bound; lia.
Qed.

Lemma base_decodes : forall n node a off, 2 <= n -> 0 <= node < n ->
  base_address [n] 0 node = Some a -> 0 <= off < 2 ^ (64 - clog2 n) ->
  0 <= a + off < 2 ^ 64 /\ dest_node (header_nodew [n]) (a + off) = node.
Proof.
  intros n node a off N Hn H Ho.
  assert (M : max_nodes [n] = n). { unfold max_nodes. cbn [fold_left]. destruct (Z.ltb_spec 0 n); lia. }
  destruct (base_value [n] 0 node a ltac:(cbn; lia) ltac:(rewrite M; lia) H) as (A & B & C & D & E & F).
  unfold header_nodew. rewrite M in *. change (Z.of_nat (length [n])) with 1 in *. change (clog2 1) with 0 in *.
  unfold header_nodew. rewrite ?M. set (d := clog2 n) in *.
  rewrite Z.sub_0_r in F. rewrite Z.mul_0_l, Z.add_0_l in F.
  assert (P : 2 ^ 64 = 2 ^ d * 2 ^ (64 - d)) by (rewrite <- Z.pow_add_r by lia; f_equal; lia).
  assert (Q : 0 < 2 ^ (64 - d)) by (apply Z.pow_pos_nonneg; lia).
  assert (R : 0 <= a + off < 2 ^ 64) by nia.
  split; auto. rewrite decode_value by lia. subst a.
  rewrite Z.add_comm, Z.div_add by lia. rewrite Z.div_small by lia. lia.
Qed.

Lemma regions_disjoint : forall nodes c1 d1 c2 d2 a1 a2 x,
  0 <= c1 < Z.of_nat (length nodes) -> 0 <= c2 < Z.of_nat (length nodes) ->
  0 <= d1 < max_nodes nodes -> 0 <= d2 < max_nodes nodes ->
  base_address nodes c1 d1 = Some a1 -> base_address nodes c2 d2 = Some a2 ->
  let size := 2 ^ (64 - clog2 (Z.of_nat (length nodes)) - clog2 (max_nodes nodes)) in
  a1 <= x < a1 + size -> a2 <= x < a2 + size -> c1 = c2 /\ d1 = d2.
Proof.
  intros nodes c1 d1 c2 d2 a1 a2 x H1 H2 H3 H4 E1 E2 size X1 X2.
  destruct (base_value _ _ _ _ H1 H3 E1) as (A & B & C & D1 & E & F1).
  destruct (base_value _ _ _ _ H2 H4 E2) as (_ & _ & _ & D2 & _ & F2).
  fold size in F1, F2. set (db := clog2 (max_nodes nodes)) in *.
  assert (S : 0 < size) by (apply Z.pow_pos_nonneg; lia).
  assert (K : c1 * 2 ^ db + d1 = c2 * 2 ^ db + d2) by nia.
  assert (P : 0 < 2 ^ db) by (apply Z.pow_pos_nonneg; lia).
  assert (T : c1 = c2).
  { assert (Q1 : (c1 * 2 ^ db + d1) / 2 ^ db = c1) by (rewrite Z.div_add_l by lia; rewrite (Z.div_small d1) by lia; lia).
    assert (Q2 : (c2 * 2 ^ db + d2) / 2 ^ db = c2) by (rewrite Z.div_add_l by lia; rewrite (Z.div_small d2) by lia; lia).
    rewrite K in Q1. lia. }
  split; [exact T|]. subst c2. lia.
Qed.

Lemma max_nodes_spec : forall nodes, max_nodes nodes = fold_right Z.max 0 nodes.
Proof.
  assert (A : forall l m, 0 <= m -> fold_left (fun m n => if m <? n then n else m) l m = Z.max m (fold_right Z.max 0 l)).
  { induction l as [|x l IH]; intros m H; cbn; [lia|]. rewrite IH by (destruct (Z.ltb_spec m x); lia). destruct (Z.ltb_spec m x); lia. }
  intros. unfold max_nodes. rewrite A by lia. assert (0 <= fold_right Z.max 0 nodes) by (induction nodes; cbn; lia). lia.
Qed.

Lemma regions_disjoint' : forall nodes c1 d1 c2 d2 n1 n2 a1 a2 x,
  nth_error nodes c1 = Some n1 -> nth_error nodes c2 = Some n2 -> 0 <= d1 < n1 -> 0 <= d2 < n2 ->
  base_address nodes (Z.of_nat c1) d1 = Some a1 -> base_address nodes (Z.of_nat c2) d2 = Some a2 ->
  let size := 2 ^ (64 - Z.log2_up (Z.of_nat (length nodes)) - Z.log2_up (fold_right Z.max 0 nodes)) in
  a1 <= x < a1 + size -> a2 <= x < a2 + size -> c1 = c2 /\ d1 = d2.
Proof.
  intros nodes c1 d1 c2 d2 n1 n2 a1 a2 x N1 N2 D1 D2 E1 E2 size X1 X2.
  pose proof (max_nodes_ge nodes n1 (nth_error_In _ _ N1)). pose proof (max_nodes_ge nodes n2 (nth_error_In _ _ N2)).
  assert (L1 : (c1 < length nodes)%nat) by (apply nth_error_Some; congruence).
  assert (L2 : (c2 < length nodes)%nat) by (apply nth_error_Some; congruence).
  unfold size in *. rewrite <- max_nodes_spec in *.
  destruct (regions_disjoint nodes (Z.of_nat c1) d1 (Z.of_nat c2) d2 a1 a2 x); auto; try lia.
Qed.
