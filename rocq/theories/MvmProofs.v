(** Lemmas about the matrix-vector engine: words on the bus, arithmetic, FIFOs, combinational logic, instructions. *)
From Coq Require Import ZArith Arith Bool List Lia.
From Verif Require Import StreamSpec MvmModel MvmSpec.
Import ListNotations.
Open Scope nat_scope.

(** ** Numbers *)
Lemma int32_wrap : forall x, int32 x = wrap x.
Proof.
  intros x. unfold int32, wrap. pose proof (Z.mod_pos_bound x (2 ^ 32) eq_refl) as B. pose proof (Z.div_mod x (2 ^ 32)) as D.
  set (y := (x mod 2 ^ 32)%Z) in *. set (q := (x / 2 ^ 32)%Z) in *. specialize (D ltac:(lia)). destruct (Z.ltb_spec y (2 ^ 31)).
  - rewrite <- (Z.mod_unique_pos (x + 2 ^ 31) (2 ^ 32) q (y + 2 ^ 31)); lia.
  - rewrite <- (Z.mod_unique_pos (x + 2 ^ 31) (2 ^ 32) (q + 1) (y - 2 ^ 31)); lia.
Qed.
Lemma wrap_idem : forall a b, wrap (wrap a + b) = wrap (a + b).
Proof.
  intros. unfold wrap. f_equal. replace ((a + 2 ^ 31) mod 2 ^ 32 - 2 ^ 31 + b + 2 ^ 31)%Z with ((a + 2 ^ 31) mod 2 ^ 32 + b)%Z by lia.
  rewrite Zplus_mod_idemp_l. f_equal. lia.
Qed.
Lemma wrap_mod : forall a, wrap (a mod 2 ^ 32) = wrap a.
Proof. intros. unfold wrap. f_equal. rewrite Zplus_mod_idemp_l. reflexivity. Qed.
Lemma wrap_range : forall x, (- 2 ^ 31 <= wrap x < 2 ^ 31)%Z.
Proof. intros. unfold wrap. pose proof (Z.mod_pos_bound (x + 2 ^ 31) (2 ^ 32) eq_refl). lia. Qed.
Lemma wrap_id : forall x, (- 2 ^ 31 <= x < 2 ^ 31)%Z -> wrap x = x.
Proof. intros. unfold wrap. rewrite Z.mod_small; lia. Qed.

Lemma range_word : forall x i, int32 (range x (32 * (Z.of_nat i + 1) - 1) (32 * Z.of_nat i)) = word x i.
Proof.
  intros. rewrite int32_wrap. unfold range, word. rewrite Z.shiftr_div_pow2 by lia.
  replace (32 * (Z.of_nat i + 1) - 1 - 32 * Z.of_nat i + 1)%Z with 32%Z by lia. apply wrap_mod.
Qed.
Lemma lanes_words : forall n x, lanes n x = words n x.
Proof. intros. unfold lanes, words. apply map_ext. intros. apply range_word. Qed.
Lemma kind_spec : forall t k, (range t 15 13 =? k)%Z = of_kind k (t, 0%Z).
Proof.
  intros. unfold range, of_kind. cbn [fst]. rewrite Z.shiftr_div_pow2 by lia. change 7%Z with (Z.ones 3). rewrite Z.land_ones by lia. reflexivity.
Qed.
Lemma of_kind_fst : forall k t d, of_kind k (t, d) = of_kind k (t, 0%Z).
Proof. reflexivity. Qed.
Lemma bus_packed : forall v, bus v = packed v.
Proof. induction v as [|a v IH]; [reflexivity|]. cbn [bus packed fold_right]. rewrite IH. reflexivity. Qed.
Lemma words_len : forall n x, length (words n x) = n.
Proof. intros. unfold words. rewrite map_length, seq_length. reflexivity. Qed.

(** The words of a packed vector are its elements. *)
Lemma word_packed : forall v i, i < length v -> word (packed v) i = wrap (nth i v 0%Z).
Proof.
  induction v as [|a v IH]; intros i H; cbn [length] in H; [lia|]. cbn [packed fold_right]. fold (packed v). destruct i.
  - unfold word. rewrite Z.mul_0_r, Z.shiftr_0_r. cbn [nth]. rewrite <- (wrap_mod a). unfold wrap. f_equal.
    rewrite <- (Z.mod_add (a mod 2 ^ 32 + 2 ^ 31) (packed v) (2 ^ 32)) by lia. f_equal. lia.
  - cbn [nth]. rewrite <- IH by lia. unfold word. f_equal. rewrite !Z.shiftr_div_pow2 by lia.
    replace (32 * Z.of_nat (S i))%Z with (32 + 32 * Z.of_nat i)%Z by lia. rewrite Z.pow_add_r by lia. rewrite <- Z.div_div by lia. f_equal.
    rewrite Z.mul_comm. rewrite Z.div_add by lia. rewrite Z.div_small; [lia|]. apply Z.mod_pos_bound. lia.
Qed.
Lemma words_packed : forall v, words (length v) (packed v) = map wrap v.
Proof.
  intros v. unfold words. apply nth_ext with (d := 0%Z) (d' := wrap 0); rewrite !map_length, seq_length; [reflexivity|]. intros i H.
  rewrite (nth_indep _ 0%Z (word (packed v) 0)) by (rewrite map_length, seq_length; exact H).
  rewrite (map_nth (word (packed v))). rewrite seq_nth by exact H. rewrite Nat.add_0_l, word_packed by exact H. rewrite (map_nth wrap). reflexivity.
Qed.

(** ** Arithmetic *)
Lemma dot_from_ok : forall v1 v2 acc, length v1 <= length v2 -> dot_from (wrap acc) v1 v2 = Some (wrap (acc + inner v1 v2)).
Proof.
  induction v1 as [|a v1 IH]; intros v2 acc H; cbn [dot_from].
  - cbn. rewrite Z.add_0_r. reflexivity.
  - destruct v2 as [|b v2]; cbn in H; [lia|]. rewrite int32_wrap, wrap_idem. rewrite IH by lia. cbn [inner]. do 2 f_equal. lia.
Qed.
Lemma dot_ok : forall v1 v2, length v1 <= length v2 -> dot v1 v2 = Some (wrap (inner v1 v2)).
Proof. intros. unfold dot. change 0%Z with (wrap 0) at 1. rewrite dot_from_ok by assumption. f_equal. Qed.

Lemma upd_len : forall A (l : list A) i x, i < length l -> length (upd l i x) = length l.
Proof. intros. unfold upd. rewrite app_length, firstn_length. cbn [length]. rewrite skipn_length. lia. Qed.
Lemma upd_nth : forall A (l : list A) i x d j, i < length l -> nth j (upd l i x) d = if j =? i then x else nth j l d.
Proof.
  intros A l i x d j H. unfold upd. destruct (Nat.eqb_spec j i) as [-> |N].
  - rewrite app_nth2; rewrite firstn_length; [|lia]. replace (i - Nat.min i (length l)) with 0 by lia. reflexivity.
  - destruct (lt_dec j i).
    + rewrite app_nth1 by (rewrite firstn_length; lia). rewrite <- (firstn_skipn i l) at 2. rewrite app_nth1 by (rewrite firstn_length; lia). reflexivity.
    + rewrite app_nth2; rewrite firstn_length; [|lia]. replace (j - Nat.min i (length l)) with (S (j - S i)) by lia. cbn [nth].
      rewrite <- (firstn_skipn (S i) l) at 2. rewrite app_nth2; rewrite firstn_length; [|lia]. f_equal. lia.
Qed.

Section Proofs.
Variable P : mparams.
Let n := m_dim P.
Let fsz := m_fifo P.
Variable prog : list inst.
Variable W : list (list vec).
Let depth := m_depth P.

Hypothesis F : fits P prog W.

(** ** Compute *)
Definition kept_ok (D : list (nat * vec)) (accum : list vec) : Prop :=
  length accum = depth /\ (forall a, a < depth -> nth a accum [] = match slot a D with Some v => v | None => [] end) /\ (forall a v, In (a, v) D -> a < depth /\ length v = n).

Lemma slot_in : forall a D v, slot a D = Some v -> In (a, v) D.
Proof.
  intros a D v H. unfold slot in H. destruct (find _ D) as [[b u]|] eqn:E; [|discriminate]. injection H as <-. apply find_some in E as [E1 E2]. cbn in E2.
  apply Nat.eqb_eq in E2 as ->. exact E1.
Qed.
Lemma row_len : forall d a, d < n -> a < depth -> exists row, nth_error (map (fun m => nth a m []) W) d = Some row /\ row = nth a (nth d W []) [] /\ length row = n.
Proof.
  intros d a Hd Ha. pose proof (f_files _ _ _ F) as f_files0. pose proof (f_words _ _ _ F) as f_words0. assert (L : d < length W) by (rewrite f_files0; exact Hd). destruct (nth_error W d) as [m|] eqn:E; [|apply nth_error_None in E; lia].
  exists (nth a m []). rewrite (map_nth_error _ _ _ E). rewrite (nth_error_nth _ _ [] E). split; [reflexivity|]. split; [reflexivity|].
  rewrite Forall_forall in f_words0. apply nth_error_In in E. apply f_words0 in E as [E1 E2]. rewrite Forall_forall in E2. apply E2. apply nth_In. fold depth in E1. lia.
Qed.

Definition yield (a : nat) (s : stage) (D : list (nat * vec)) : vec := product n W a (s_in s) (s_red s) (if s_accum_en s then slot (s_accum s) D else None).

Lemma elements_ok : forall s a operand ds, a < depth -> length (s_in s) = n -> length (s_red s) = n -> (s_accum_en s = true -> length operand = n) -> Forall (fun d => d < n) ds ->
  elements s operand (map (fun m => nth a m []) W) ds =
  Some (map (fun d => wrap (inner (s_in s) (nth a (nth d W []) []) + nth d (s_red s) 0%Z + (if s_accum_en s then nth d operand 0%Z else 0%Z))%Z) ds).
Proof.
  intros s a operand ds Ha Hi Hr Ho. induction 1 as [|d ds Hd _ IH]; [reflexivity|]. cbn [elements map]. rewrite IH. unfold element.
  destruct (row_len d a Hd Ha) as [row [-> [-> L]]]. destruct (nth_error (s_red s) d) as [r|] eqn:E; [|apply nth_error_None in E; lia].
  rewrite (nth_error_nth _ _ 0%Z E). rewrite dot_ok by lia. rewrite !int32_wrap, wrap_idem. destruct (s_accum_en s).
  - destruct (nth_error operand d) as [o|] eqn:E2; [|apply nth_error_None in E2; specialize (Ho eq_refl); lia]. rewrite int32_wrap, wrap_idem, (nth_error_nth _ _ 0%Z E2). reflexivity.
  - rewrite Z.add_0_r. reflexivity.
Qed.

Lemma compute_ok : forall s a D accum, s_valid s = true -> a < depth -> length (s_in s) = n -> length (s_red s) = n -> s_accum s < depth ->
  (s_accum_en s = true -> slot (s_accum s) D <> None) -> kept_ok D accum ->
  compute P s accum (map (fun m => nth a m []) W) = Some (Some (yield a s D), upd accum (s_accum s) (yield a s D)) /\ kept_ok ((s_accum s, yield a s D) :: D) (upd accum (s_accum s) (yield a s D)).
Proof.
  intros s a D accum V Ha Hi Hr Hs Hk [K1 [K2 K3]]. unfold compute. rewrite V.
  destruct (nth_error accum (s_accum s)) as [operand|] eqn:E; [|apply nth_error_None in E; lia].
  pose proof (K2 _ Hs) as K. rewrite (nth_error_nth _ _ [] E) in K.
  assert (Lo : s_accum_en s = true -> length operand = n /\ slot (s_accum s) D = Some operand).
  { intros A. specialize (Hk A). destruct (slot (s_accum s) D) as [v|] eqn:E2; [|congruence]. subst v. split; [|reflexivity]. apply slot_in in E2. apply K3 in E2. tauto. }
  fold n. rewrite (elements_ok s a operand (seq 0 n) Ha Hi Hr).
  2: { intros A. apply Lo, A. }
  2: { apply Forall_forall. intros d Hd. apply in_seq in Hd. lia. }
  assert (Y : map (fun d => wrap (inner (s_in s) (nth a (nth d W []) []) + nth d (s_red s) 0%Z + (if s_accum_en s then nth d operand 0%Z else 0%Z))%Z) (seq 0 n) = yield a s D).
  { unfold yield, product. apply map_ext. intros d. destruct (s_accum_en s); [|reflexivity]. destruct (Lo eq_refl) as [_ ->]. reflexivity. }
  rewrite Y. split; [reflexivity|].
  assert (LY : length (yield a s D) = n) by (unfold yield, product; rewrite map_length, seq_length; reflexivity).
  split; [rewrite upd_len; lia|]. split.
  - intros b Hb. rewrite upd_nth by lia. unfold slot. cbn [find fst]. rewrite (Nat.eqb_sym (s_accum s) b). destruct (b =? s_accum s); [reflexivity|]. apply K2, Hb.
  - intros b v [H|H]; [injection H as <- <-; auto|apply K3, H].
Qed.

(** ** What flies: stages whose result is not computed yet, the newest first *)
Inductive flight (D : list (nat * vec)) : list stage -> list nat -> list (nat * vec) -> list result -> Prop :=
| fl_nil : flight D [] [] D []
| fl_idle s p a r K O : flight D p r K O -> s_valid s = false -> a < depth -> flight D (s :: p) (a :: r) K O
| fl_op s p a r K O : flight D p r K O -> s_valid s = true -> a < depth -> length (s_in s) = n -> length (s_red s) = n -> s_accum s < depth ->
    (s_accum_en s = true -> slot (s_accum s) K <> None) ->
    flight D (s :: p) (a :: r) ((s_accum s, yield a s K) :: K) (O ++ if s_release s then [(yield a s K, s_layer s, s_mvm s)] else []).

Lemma flight_end : forall D p s r a K O, length p = length r -> flight D (p ++ [s]) (r ++ [a]) K O ->
  (s_valid s = false /\ a < depth /\ flight D p r K O) \/
  (s_valid s = true /\ a < depth /\ length (s_in s) = n /\ length (s_red s) = n /\ s_accum s < depth /\ (s_accum_en s = true -> slot (s_accum s) D <> None) /\
   exists O', O = (if s_release s then [(yield a s D, s_layer s, s_mvm s)] else []) ++ O' /\ flight ((s_accum s, yield a s D) :: D) p r K O').
Proof.
  intros D p. induction p as [|x p IH]; intros s r a K O L H.
  - destruct r; [|discriminate]. cbn in H. inversion H; subst.
    + match goal with H : flight D [] [] _ _ |- _ => inversion H; subst end. left. split; [assumption|]. split; [assumption|]. constructor.
    + match goal with H : flight D [] [] _ _ |- _ => inversion H; subst end. right. do 6 (split; [assumption|]). exists []. rewrite app_nil_r. split; [reflexivity|constructor].
  - destruct r as [|y r]; [discriminate|]. injection L as L. cbn [app] in H. inversion H; subst.
    + match goal with H : flight D (p ++ [s]) _ _ _ |- _ => apply IH in H; [|exact L]; destruct H as [[A [B C]]|[A [B [C [E [G [I [O' [X Y]]]]]]]]] end.
      * left. split; [exact A|]. split; [exact B|]. constructor; auto.
      * right. do 6 (split; [assumption|]). exists O'. split; [exact X|]. constructor; auto.
    + match goal with H : flight D (p ++ [s]) _ _ _ |- _ => apply IH in H; [|exact L]; destruct H as [[A [B C]]|[A [B [C [E [G [I [O' [X Y]]]]]]]]] end.
      * left. split; [exact A|]. split; [exact B|]. apply fl_op; auto.
      * right. do 6 (split; [assumption|]). eexists. split; [rewrite X, <- app_assoc; reflexivity|]. apply fl_op; auto.
Qed.
Lemma flight_len : forall D p r K O, flight D p r K O -> length p = length r.
Proof. induction 1; cbn; congruence. Qed.
Lemma flight_raddr : forall D p r K O, flight D p r K O -> Forall (fun a => a < depth) r.
Proof. induction 1; constructor; auto. Qed.
Definition valids (p : list stage) : nat := length (filter s_valid p).
Lemma flight_outs : forall D p r K O, flight D p r K O -> length O <= valids p.
Proof.
  unfold valids. induction 1; cbn; [lia| |]; rewrite ?H0; cbn; [assumption|]. rewrite app_length. destruct (s_release s); cbn; lia.
Qed.

(** ** FIFOs *)
Record fifo_ok (af w : nat) (f : fifo) : Prop := {
  fo_empty : f_empty f = match f_mem f with [] => true | _ => false end; fo_afull : f_afull f = (af <=? length (f_mem f));
  fo_rdata : match f_mem f with [] => f_rdata f = [] \/ f_rdata f = repeat 0%Z w | x :: _ => f_rdata f = x end }.
Lemma fifo_reset_ok : forall af w, 0 < af -> fifo_ok af w fifo_reset.
Proof. intros. split; cbn; auto. symmetry. apply Nat.leb_gt. exact H. Qed.
Definition popped (ren : bool) (q : list vec) : list vec := if ren then tl q else q.
Definition pushed (wen : bool) (x : vec) : list vec := if wen then [x] else [].
Lemma fifo_tick_ok : forall cap af w ren wen wd f, (ren = true -> f_mem f <> []) -> (wen = true -> length (popped ren (f_mem f)) < cap) ->
  exists f', fifo_tick cap af w ren wen wd f = Some f' /\ fifo_ok af w f' /\ f_mem f' = popped ren (f_mem f) ++ pushed wen wd /\
    f_rdata f' = match f_mem f' with [] => repeat 0%Z w | x :: _ => x end.
Proof.
  intros cap af w ren wen wd f R Wn. unfold fifo_tick.
  assert (E : (if ren then match f_mem f with [] => None | _ :: q => Some q end else Some (f_mem f)) = Some (popped ren (f_mem f))).
  { unfold popped. destruct ren; [|reflexivity]. destruct (f_mem f); [destruct (R eq_refl eq_refl)|reflexivity]. }
  rewrite E. assert (E2 : (if wen then if length (popped ren (f_mem f)) =? cap then None else Some (popped ren (f_mem f) ++ [wd]) else Some (popped ren (f_mem f))) = Some (popped ren (f_mem f) ++ pushed wen wd)).
  { unfold pushed. destruct wen; [|rewrite app_nil_r; reflexivity]. destruct (Nat.eqb_spec (length (popped ren (f_mem f))) cap); [specialize (Wn eq_refl); lia|reflexivity]. }
  rewrite E2. eexists. split; [reflexivity|]. cbn. split; [|split; reflexivity]. split; cbn; try reflexivity. destruct (popped ren (f_mem f) ++ pushed wen wd); auto.
Qed.

(** ** Combinational logic *)
Record wires_ok (g : regs) (e : env) (c : wires) : Prop := {
  wo_ready : c_ready c = ready_for g (kind e);
  wo_inst : nth_error (g_imem g) (g_pc g) = Some (c_inst c);
  wo_raddr : c_raddr c = i_raddr (c_inst c);
  wo_iren : c_iren c = (can_dotr g (c_inst c) || can_dot g (c_inst c)) && i_last (c_inst c);
  wo_rren : c_rren c = can_dotr g (c_inst c); wo_dot : c_dot c = can_dot g (c_inst c); wo_dotr : c_dotr c = can_dotr g (c_inst c);
  wo_owen : c_owen c = r_valid (final rstage0 (g_rpipe g)); wo_owdata : c_owdata c = r_res (final rstage0 (g_rpipe g));
  wo_lwdata : c_lwdata c = [r_layer (final rstage0 (g_rpipe g))]; wo_mwdata : c_mwdata c = [r_mvm (final rstage0 (g_rpipe g))];
  wo_tvalid : c_tvalid c = negb (length (f_rdata (g_ofifo g)) =? 0) && negb (f_empty (g_ofifo g));
  wo_tx : c_tvalid c = true -> c_tdata c = bus (f_rdata (g_ofifo g)) /\ c_tuser c = (tx_kind P (fst (tx_dest g)) * 2 ^ 13)%Z /\ c_tdest c = tx_dest g;
  wo_oren : c_oren c = c_tvalid c && e_ready e }.

Lemma inst_eqb_eq : forall a b, inst_eqb a b = true -> a = b.
Proof.
  intros [] []. unfold inst_eqb. cbn. rewrite !andb_true_iff, !eqb_true_iff, !Nat.eqb_eq, !Z.eqb_eq. intros. intuition congruence.
Qed.

Lemma settle_ok : forall g e c c', settle P g e c = Some c' -> wires_ok g e c'.
Proof.
  intros g e c c' H. unfold settle in H. destruct (assign P g e c) as [c1|] eqn:E; [|discriminate].
  assert (S1 : forall c0 c1, assign P g e c0 = Some c1 -> c_tvalid c1 = negb (length (f_rdata (g_ofifo g)) =? 0) && negb (f_empty (g_ofifo g)) /\ nth_error (g_imem g) (g_pc g) = Some (c_inst c1)).
  { intros c0 c2 A. unfold assign in A. destruct (nth_error (g_imem g) (g_pc g)); [|discriminate]. injection A as <-. cbn. auto. }
  assert (S2 : forall c0 c1, assign P g e c0 = Some c1 -> c_tvalid c0 = c_tvalid c1 -> c_inst c0 = c_inst c1 -> wires_ok g e c1).
  { intros c0 c2 A T N. unfold assign in A. destruct (nth_error (g_imem g) (g_pc g)) as [i|] eqn:E0; [|discriminate]. injection A as <-. cbn [c_tvalid c_inst] in T, N.
    split; cbn [c_ready c_inst c_raddr c_iren c_rren c_dot c_dotr c_owen c_owdata c_lwdata c_mwdata c_tvalid c_tdata c_tuser c_tdest c_oren]; rewrite ?N, ?T; try reflexivity; try assumption.
    intros V. rewrite V. auto. }
  destruct (eqb (c_tvalid c1) (c_tvalid c) && inst_eqb (c_inst c1) (c_inst c)) eqn:Q.
  - injection H as <-. apply andb_true_iff in Q as [Q1 Q2]. apply eqb_prop in Q1. apply inst_eqb_eq in Q2. apply (S2 _ _ E); congruence.
  - destruct (S1 _ _ E) as [A1 A2]. destruct (S1 _ _ H) as [B1 B2]. apply (S2 _ _ H); congruence.
Qed.
(** A third run would change nothing that wakes it. *)
Lemma settle_stable : forall g e c c', settle P g e c = Some c' -> forall c2, assign P g e c' = Some c2 -> c_tvalid c2 = c_tvalid c' /\ c_inst c2 = c_inst c'.
Proof.
  intros g e c c' H c2 A. pose proof (settle_ok _ _ _ _ H) as O. unfold assign in A. rewrite (wo_inst _ _ _ O) in A. injection A as <-. cbn. split; [|reflexivity].
  symmetry. apply wo_tvalid in O. exact O.
Qed.
Lemma settle_none : forall g e c, settle P g e c = None -> nth_error (g_imem g) (g_pc g) = None.
Proof.
  intros g e c H. unfold settle, assign in H. destruct (nth_error (g_imem g) (g_pc g)); [|reflexivity]. destruct (_ && inst_eqb _ _) in H; discriminate.
Qed.

Lemma vec_eqb_eq : forall a b, vec_eqb a b = true -> a = b.
Proof. intros a b H. unfold vec_eqb in H. destruct (list_eq_dec Z.eq_dec a b); congruence. Qed.

(** Not woken, the process has nothing to do, if the output FIFO is not newly empty or newly not empty. *)
Lemma asleep_ok : forall g g' e e' c, woken g g' e e' = false -> g_imem g' = g_imem g -> f_empty (g_ofifo g') = f_empty (g_ofifo g) -> wires_ok g e c -> wires_ok g' e' c.
Proof.
  intros g g' e e' c H I M O. unfold woken in H. apply negb_false_iff in H.
  repeat match type of H with (_ && _)%bool = true => let H' := fresh "Q" in apply andb_true_iff in H as [H H'] end.
  repeat match goal with Q : eqb _ _ = true |- _ => apply eqb_prop in Q | Q : vec_eqb _ _ = true |- _ => apply vec_eqb_eq in Q | Q : (_ =? _)%Z = true |- _ => apply Z.eqb_eq in Q | Q : (_ =? _) = true |- _ => apply Nat.eqb_eq in Q end.
  assert (T : tx_dest g' = tx_dest g).
  { unfold tx_dest. repeat match goal with Q : f_rdata (g_lfifo g) = _ |- _ => rewrite <- Q; clear Q | Q : f_rdata (g_mfifo g) = _ |- _ => rewrite <- Q; clear Q end. reflexivity. }
  destruct O. split; rewrite ?T; unfold ready_for, kind, can_dotr, can_dot in *; try congruence.
  { rewrite <- Q10, <- Q9, <- Q8. exact wo_ready0. }
  intros V. destruct (wo_tx0 V) as [A1 [A2 A3]]. split; [congruence|]. split; congruence.
Qed.

(** ** Instructions *)
Notation istep := (istep n depth prog W).
Notation runs := (runs n depth prog W).
Notation faulty := (faulty n depth prog W).
Definition more (s : istate) (a b : list vec) : istate := {| k_pc := k_pc s; k_ins := k_ins s ++ a; k_reds := k_reds s ++ b; k_kept := k_kept s |}.
Lemma istep_more : forall s a b, istep s <> Wait -> istep (more s a b) = match istep s with Go s' o => Go (more s' a b) o | x => x end.
Proof.
  intros [pc ins reds K] a b H. unfold MvmSpec.istep, more in *. cbn [k_pc k_ins k_reds k_kept] in *. destruct (nth_error prog pc) as [i|]; [|reflexivity].
  destruct (depth <=? i_raddr i); [reflexivity|]. destruct (negb (i_en i)); [congruence|]. destruct (i_jump i); [reflexivity|].
  destruct ins as [|x xs]; [destruct (i_reduce i), reds; congruence|]. cbn [app]. destruct (i_reduce i).
  - destruct reds as [|r q]; [congruence|]. cbn [app]. destruct (depth <=? i_accum i); [reflexivity|]. destruct (i_accum_en i), (slot (i_accum i) K); cbn; destruct (i_last i); reflexivity.
  - destruct (depth <=? i_accum i); [reflexivity|]. destruct (i_accum_en i), (slot (i_accum i) K); cbn; destruct (i_last i); reflexivity.
Qed.
Lemma runs_more : forall s a b k os s', runs s k os s' -> runs (more s a b) k os (more s' a b).
Proof.
  induction 1; [constructor|]. econstructor; [eassumption|]. rewrite istep_more by congruence. rewrite H0. reflexivity.
Qed.
Lemma faulty_more : forall s a b, faulty s -> faulty (more s a b).
Proof. intros s a b [k [os [s' [R E]]]]. exists k, os, (more s' a b). split; [apply runs_more, R|]. rewrite istep_more by congruence. rewrite E. reflexivity. Qed.
Lemma more_nil : forall s, more s [] [] = s.
Proof. intros []. unfold more. cbn. rewrite !app_nil_r. reflexivity. Qed.
End Proofs.
