(** The engines of the MLP design together. *)
From Coq Require Import ZArith Arith Bool List Lia.
From Verif Require Import StreamSpec MvmModel MvmSpec MvmProofs MvmRun MvmProgress MlpModel MlpSpec MlpProofs.
Import ListNotations.
Open Scope nat_scope.

(** ** Streams *)
Lemma prefix_refl : forall A (l : list A), prefix l l.
Proof. intros. exists []. rewrite app_nil_r. reflexivity. Qed.
Lemma prefix_trans : forall A (a b c : list A), prefix a b -> prefix b c -> prefix a c.
Proof. intros A a b c [x ->] [y ->]. exists (x ++ y). rewrite app_assoc. reflexivity. Qed.
Lemma prefix_map : forall A B (f : A -> B) a b, prefix a b -> prefix (map f a) (map f b).
Proof. intros A B f a b [x ->]. exists (map f x). apply map_app. Qed.
Lemma prefix_sent : forall l m a b, prefix a b -> prefix (sent_to l m a) (sent_to l m b).
Proof. intros l m a b [x ->]. unfold sent_to. rewrite filter_app, map_app. eexists. reflexivity. Qed.
Lemma prefix_eq : forall A (a b : list A), prefix a b -> prefix b a -> a = b.
Proof. intros A a b [x ->] [y H]. rewrite <- app_assoc in H. apply (f_equal (@length A)) in H as L. rewrite !app_length in L. destruct x; [rewrite app_nil_r; reflexivity|cbn in L; lia]. Qed.

Section Net.
Variable P : mparams.
Variable D : design.
Notation n := (m_dim P).
Notation depth := (m_depth P).
Notation mvms := (mvms D).
Notation layers := (layers D).
Notation limx := (limx n D).
Notation limy := (limy n D).
Notation dimx := (dimx n D).
Hypothesis PR : proper D.
Hypothesis SZ : sized P D.

(** ** Dimensions *)
Lemma n_pos : 0 < n. Proof. apply (sz_dim _ _ SZ). Qed.
Lemma mvms_pos : forall l, l < layers -> 0 < mvms l <= 32.
Proof. intros l H. unfold MlpModel.mvms. pose proof (pr_counts _ PR) as C. rewrite Forall_forall in C. apply C. apply nth_In. rewrite (pr_mvms _ PR). exact H. Qed.
Lemma layers_pos : 0 < layers.
Proof. unfold MlpModel.layers. pose proof (pr_some _ PR). destruct (d_hidden D); [congruence|cbn; lia]. Qed.
Lemma width_in : forall l, inputs_of D l = width D l.
Proof. intros [|l]; unfold inputs_of, width, hidden; cbn; [reflexivity|]. rewrite Nat.sub_0_r. reflexivity. Qed.
Lemma width_out : forall l, hidden D l = width D (S l).
Proof. reflexivity. Qed.
Lemma width_pos : forall l, l <= layers -> 0 < width D l.
Proof.
  intros [|l] H; [apply (pr_input _ PR)|]. unfold width. cbn [nth]. pose proof (pr_hidden _ PR) as C. rewrite Forall_forall in C. apply C. apply nth_In. unfold MlpModel.layers in H. lia.
Qed.
Lemma padded_ok : forall d k, 0 < d -> 0 < k -> exists q, padded n d k = q * k * n /\ d <= q * k * n /\ 0 < q.
Proof.
  intros d k Hd Hk. pose proof n_pos as N. exists ((d + n * k - 1) / (n * k)). unfold padded. set (c := n * k). assert (0 < c) by (unfold c; nia).
  replace ((d + c - 1) / c * k * n) with ((d + c - 1) / c * c) by (unfold c; nia). split; [reflexivity|].
  pose proof (Nat.div_mod (d + c - 1) c ltac:(lia)) as E. pose proof (Nat.mod_upper_bound (d + c - 1) c ltac:(lia)). split; nia.
Qed.
Lemma dims_x : forall l, l < layers -> dimx l = limx l * mvms l * n /\ dimx l / n = limx l * mvms l /\ 0 < limx l /\ width D l <= dimx l.
Proof.
  intros l H. pose proof n_pos as N. pose proof (mvms_pos l H) as [M _]. destruct (padded_ok (inputs_of D l) (mvms l)) as [q [A [B C]]]; [rewrite width_in; apply width_pos; lia|exact M|].
  unfold MlpModel.limx, MlpModel.dimx. rewrite A. rewrite Nat.div_mul by lia. rewrite Nat.div_mul by lia. rewrite <- width_in. auto.
Qed.
Lemma mvms_out_pos : forall l, l < layers -> 0 < mvms_out D l.
Proof. intros l H. unfold mvms_out. destruct (Nat.eqb_spec l (layers - 1)); [apply mvms_pos; lia|]. apply mvms_pos. lia. Qed.
Lemma dims_y : forall l, l < layers -> dimy n D l = limy l * n /\ 0 < limy l /\ width D (S l) <= limy l * n.
Proof.
  intros l H. pose proof n_pos as N. pose proof (mvms_out_pos l H) as M. destruct (padded_ok (hidden D l) (mvms_out D l)) as [q [A [B C]]]; [rewrite width_out; apply width_pos; lia|exact M|].
  unfold MlpModel.limy, MlpModel.dimy. rewrite A. rewrite Nat.div_mul by lia. rewrite <- width_out. split; [reflexivity|]. split; [nia|exact B].
Qed.
Lemma dims_next : forall l, l + 1 < layers -> limy l = limx (l + 1) * mvms (l + 1).
Proof.
  intros l H. destruct (dims_x (l + 1) H) as [_ [E _]]. rewrite <- E. unfold MlpModel.limy, MlpModel.dimy, MlpModel.dimx, mvms_out. destruct (Nat.eqb_spec l (layers - 1)); [lia|].
  unfold inputs_of. destruct (Nat.eqb_spec (l + 1) 0); [lia|]. replace (l + 1 - 1) with l by lia. reflexivity.
Qed.

Lemma blocks_x : forall l, l < layers -> blocks n (width D l) (mvms l) = limx l * mvms l.
Proof. intros l Hl. destruct (dims_x l Hl) as [_ [<- _]]. pose proof n_pos. unfold MlpModel.dimx, padded, blocks. rewrite width_in. rewrite (Nat.mul_comm n (mvms l)), Nat.mul_assoc, Nat.div_mul by lia. reflexivity. Qed.
Lemma blocks_y : forall l, l < layers -> blocks n (width D (S l)) (receivers D l) = limy l.
Proof. intros l Hl. pose proof n_pos. unfold MlpModel.limy, MlpModel.dimy, padded, blocks. rewrite <- width_out. change (mvms_out D l) with (receivers D l). rewrite (Nat.mul_comm n (receivers D l)), Nat.mul_assoc, Nat.div_mul by lia. reflexivity. Qed.
Lemma blocks_last : blocks n (width D layers) (mvms 0) = limy (layers - 1).
Proof. pose proof layers_pos. rewrite <- blocks_y by lia. unfold receivers. rewrite Nat.eqb_refl. do 2 f_equal. lia. Qed.
Lemma depth_ok : forall l, l < layers -> limx l * limy l + 1 <= depth.
Proof. intros l Hl. pose proof (sz_words _ _ SZ l Hl) as S. rewrite blocks_x, blocks_y in S by exact Hl. pose proof (mvms_pos l Hl). rewrite Nat.div_mul in S by lia. exact S. Qed.
Lemma dest_target : forall l m j, l < layers -> m < mvms l -> dest D l m j = target D l m j.
Proof.
  intros l m j Hl Hm. unfold dest, target. destruct (Nat.eqb_spec l (layers - 1)), (Nat.ltb_spec (l + 1) layers); try lia; destruct (Nat.eqb_spec m (mvms l - 1)), (Nat.ltb_spec (m + 1) (mvms l)); try lia; reflexivity.
Qed.

(** ** Contents of the memories *)
Lemma dest_range : forall l m j, l < layers -> m < mvms l -> (-16 <= fst (dest D l m j) < 16)%Z /\ (0 <= snd (dest D l m j) < 32)%Z.
Proof.
  intros l m j Hl Hm. pose proof (pr_layers _ PR) as L. unfold MlpModel.layers in Hl. pose proof (mvms_pos l Hl) as M. unfold dest.
  destruct (Nat.eqb_spec l (layers - 1)) as [E|E]; destruct (Nat.eqb_spec m (mvms l - 1)) as [E2|E2]; cbn [andb fst snd]; try lia.
  assert (B : l + 1 < layers) by (unfold MlpModel.layers in *; lia). pose proof (mvms_pos (l + 1) B) as M2. pose proof (Nat.mod_upper_bound j (mvms (l + 1)) ltac:(lia)). unfold MlpModel.layers in B. lia.
Qed.
Lemma int5_id : forall x, (-16 <= x < 16)%Z -> int5 x = x.
Proof.
  intros x H. unfold int5. destruct (Z.ltb_spec x 0).
  - rewrite <- (Z.mod_unique_pos x 32 (-1) (x + 32)) by lia. destruct (Z.ltb_spec (x + 32) 16); lia.
  - rewrite Z.mod_small by lia. destruct (Z.ltb_spec x 16); lia.
Qed.

Definition prog (l m : nat) : list inst := map parsed (inst_mif n D l m) ++ repeat inst0 (depth - length (inst_mif n D l m)).
Lemma mif_len : forall l m, length (inst_mif n D l m) = limx l * limy l + 1.
Proof. intros. unfold inst_mif. rewrite app_length, flat_len. reflexivity. Qed.
Lemma loaded : forall l m, l < layers -> load_insts depth (inst_mif n D l m) = Some (prog l m).
Proof. intros l m H. unfold load_insts. rewrite mif_len. destruct (Nat.leb_spec (limx l * limy l + 1) depth) as [_|B]; [unfold prog; rewrite mif_len; reflexivity|]. pose proof (depth_ok l H). lia. Qed.

Lemma prog_ops : forall l m i j, l < layers -> m < mvms l -> i < limx l -> j < limy l -> nth_error (prog l m) (i * limy l + j) =
  Some {| i_en := true; i_jump := false; i_reduce := negb (m =? 0) && (i =? limx l - 1); i_accum := j; i_accum_en := negb (i =? 0); i_release := i =? limx l - 1; i_raddr := i * limy l + j; i_last := j =? limy l - 1;
          i_layer := fst (dest D l m j); i_mvm := snd (dest D l m j) |}.
Proof.
  intros l m i j Hl Hm Hi Hj. unfold prog. rewrite nth_error_app1 by (rewrite map_length, mif_len; nia). unfold inst_mif. rewrite map_app.
  rewrite nth_error_app1 by (rewrite map_length, flat_len; nia). erewrite map_nth_error; [|apply nth_grid; assumption]. unfold parsed, inst_line. cbn [i_en i_jump i_reduce i_accum i_accum_en i_release i_raddr i_last i_layer i_mvm].
  destruct (dest_range l m j Hl Hm) as [R1 R2]. rewrite int5_id by exact R1. unfold uint5. rewrite Z.mod_small by exact R2. rewrite negb_orb. do 3 f_equal. destruct (Nat.ltb_spec i (limx l - 1)), (Nat.eqb_spec i (limx l - 1)); try lia; reflexivity.
Qed.
Lemma prog_jump : forall l m, l < layers -> nth_error (prog l m) (limx l * limy l) = Some jump_line.
Proof.
  intros l m Hl. unfold prog. rewrite nth_error_app1 by (rewrite map_length, mif_len; lia). unfold inst_mif. rewrite map_app. rewrite nth_error_app2; rewrite map_length, flat_len; [|lia].
  rewrite Nat.sub_diag. reflexivity.
Qed.

Lemma lines_flat : forall l m d, 0 < mvms l -> forall todo i, weight_lines n D l m d todo i (i mod mvms l) = flat_map (fun i => if i mod mvms l =? m then map (weight_line n D l d i) (seq 0 (limy l)) else []) (seq i todo).
Proof.
  intros l m d K. induction todo as [|t IH]; intros i; [reflexivity|]. cbn [weight_lines seq flat_map]. f_equal. replace (S i) with (i + 1) by lia. rewrite <- IH. f_equal.
  pose proof (Nat.div_mod i (mvms l) ltac:(lia)) as E. pose proof (Nat.mod_upper_bound i (mvms l) ltac:(lia)) as U. destruct (Nat.eqb_spec (i mod mvms l) (mvms l - 1)) as [Q|Q].
  - rewrite Q in E. replace (i + 1) with ((i / mvms l + 1) * mvms l) by lia. symmetry. apply Nat.mod_mul. lia.
  - apply Nat.mod_unique with (q := i / mvms l); lia.
Qed.
Lemma weight_mif_ok : forall l m d, l < layers -> m < mvms l -> weight_mif n D l m d = flat_map (fun i => map (weight_line n D l d (i * mvms l + m)) (seq 0 (limy l))) (seq 0 (limx l)).
Proof.
  intros l m d Hl Hm. unfold weight_mif. destruct (dims_x l Hl) as [_ [-> _]]. pose proof (lines_flat l m d ltac:(lia) (limx l * mvms l) 0) as E. rewrite Nat.mod_0_l in E by lia. rewrite E. apply (flat_stride _ (fun i => map (weight_line n D l d i) (seq 0 (limy l)))). exact Hm.
Qed.
Notation W l m := (matrix_memory n D depth l m).
Lemma row_ok : forall l m i j d, l < layers -> m < mvms l -> i < limx l -> j < limy l -> d < n -> row (W l m) (limy l) i j d = map int32 (weight_line n D l d (i * mvms l + m) j).
Proof.
  intros l m i j d Hl Hm Hi Hj Hd. unfold row, matrix_memory. rewrite nth_map_seq by exact Hd. unfold load_words. rewrite weight_mif_ok by assumption. pose proof (depth_ok l Hl) as SD.
  rewrite firstn_all2 by (rewrite map_length, flat_len; nia). rewrite app_nth1 by (rewrite map_length, flat_len; nia). apply nth_error_nth. apply map_nth_error. apply nth_grid with (g := fun i => weight_line n D l d (i * mvms l + m)); assumption.
Qed.

Lemma engine_fits : forall l m, l < layers -> m < mvms l -> fits (with_layer P l) (prog l m) (W l m).
Proof.
  intros l m Hl Hm. pose proof (depth_ok l Hl) as SD. pose proof (pr_layers _ PR) as PL. unfold MlpModel.layers in Hl.
  split; cbn [with_layer m_dim m_rd m_comp m_wr m_fifo m_depth m_layer].
  - apply (sz_dim _ _ SZ). - apply (sz_rd _ _ SZ). - apply (sz_comp _ _ SZ). - apply (sz_wr _ _ SZ). - apply (sz_fifo _ _ SZ).
  - unfold prog. rewrite app_length, map_length, repeat_length, mif_len. lia.
  - lia.
  - unfold prog. apply Forall_app. split; [|apply Forall_forall; intros x X; apply repeat_spec in X; subst x; cbn; lia]. apply Forall_forall. intros x X. apply in_map_iff in X as [y [<- _]]. cbn. unfold int5, uint5.
    pose proof (Z.mod_pos_bound (i_layer y) 32 eq_refl). pose proof (Z.mod_pos_bound (i_mvm y) 32 eq_refl). destruct (Z.ltb_spec (i_layer y mod 32) 16); lia.
  - apply Z.le_lt_trans with 14%Z; [lia|reflexivity].
  - unfold matrix_memory. rewrite map_length, seq_length. reflexivity.
  - unfold matrix_memory. apply Forall_forall. intros x X. apply in_map_iff in X as [d [<- _]]. unfold load_words. rewrite weight_mif_ok by assumption. split.
    + rewrite app_length, firstn_length, map_length, repeat_length, flat_len. nia.
    + apply Forall_app. split; [|apply Forall_forall; intros y Z; apply repeat_spec in Z; subst y; apply repeat_length]. rewrite firstn_all2 by (rewrite map_length, flat_len; nia).
      apply Forall_forall. intros y Z. apply in_map_iff in Z as [v [<- Z]]. rewrite map_length. apply in_flat_map in Z as [i [_ Z]]. apply in_map_iff in Z as [j [<- _]]. unfold weight_line. rewrite map_length, seq_length. reflexivity.
Qed.

(** ** What an engine adds *)
Definition contrib (l m : nat) (x : nat -> Z) (r : nat) : Z :=
  sum (fun i => sum (fun e => weight D l r ((i * mvms l + m) * n + e) * x ((i * mvms l + m) * n + e)%nat)%Z n) (limx l).
Definition partial (l m : nat) (x : nat -> Z) (r : nat) : Z := sum (fun m' => contrib l m' x r) m.

Lemma partial_all : forall l x r, l < layers -> partial l (mvms l) x r = sum (fun c => weight D l r c * x c)%Z (dimx l).
Proof.
  intros l x r Hl. unfold partial, contrib. rewrite sum_swap. destruct (dims_x l Hl) as [-> _].
  rewrite <- (sum_grid (fun c => weight D l r c * x c)%Z n (limx l * mvms l)). rewrite <- (sum_grid (fun b => sum (fun e => weight D l r (b * n + e) * x (b * n + e)%nat)%Z n) (mvms l) (limx l)). reflexivity.
Qed.
Lemma next_activation : forall l x r, l < layers -> partial l (mvms l) (activation D x l) r = activation D x (S l) r.
Proof.
  intros l x r Hl. rewrite partial_all by exact Hl. cbn [activation]. rewrite <- width_out. unfold weight. destruct (Nat.ltb_spec r (hidden D l)) as [H|H]; cbn [andb].
  - destruct (dims_x l Hl) as [_ [_ [_ B]]]. replace (dimx l) with (width D l + (dimx l - width D l)) by lia. rewrite sum_plus. rewrite <- Z.add_0_r. f_equal.
    + apply sum_ext. intros i Hi. rewrite width_in. destruct (Nat.ltb_spec i (width D l)); [reflexivity|lia].
    + apply sum_zero. intros i _. rewrite width_in. destruct (Nat.ltb_spec (width D l + i) (width D l)); [lia|reflexivity].
  - apply sum_zero. intros. reflexivity.
Qed.
Lemma block_ext : forall v v' b, (forall r, wrap (v r) = wrap (v' r)) -> block n v b = block n v' b.
Proof. intros v v' b H. unfold block. apply map_ext. intros e. apply H. Qed.

Definition given (l m : nat) (x : nat -> Z) : list vec := map (fun i => block n x (i * mvms l + m)) (seq 0 (limx l)).
Definition added (l m : nat) (y : nat -> Z) : list vec := if m =? 0 then [] else map (block n y) (seq 0 (limy l)).
Definition made (l m : nat) (x y : nat -> Z) : list result := map (fun j => (block n (fun r => ((if (m =? 0)%nat then 0 else y r) + contrib l m x r)%Z) j, fst (dest D l m j), snd (dest D l m j))) (seq 0 (limy l)).

Lemma outs_made : forall l m x y, l < layers -> m < mvms l -> outs n (W l m) (limx l) (limy l) (negb (m =? 0)) (dest D l m) (given l m x) (added l m y) (limy l) = made l m x y.
Proof.
  intros l m x y Hl Hm. unfold outs, made. apply map_ext_in. intros j Hj. apply in_seq in Hj. do 2 f_equal. unfold part, block. apply map_ext_in. intros d Hd. apply in_seq in Hd. rewrite Nat.eqb_refl. apply wrap_eq.
  rewrite Z.add_comm. rewrite Zplus_mod, (Zplus_mod (if m =? 0 then _ else _)). f_equal. f_equal.
  - unfold extra, added. destruct (Nat.eqb_spec m 0) as [-> |N0]; [reflexivity|]. cbn [negb]. rewrite nth_map_seq by lia. unfold block. rewrite nth_map_seq by lia. apply wrap_modulo.
  - unfold upto, contrib. apply sum_mod. intros i Hi. unfold given. rewrite nth_map_seq by exact Hi. rewrite row_ok by (try assumption; lia). unfold block, weight_line. rewrite map_map. rewrite inner_sum. apply sum_mod. intros e He. cbn [plus].
    rewrite int32_wrap. rewrite Zmult_mod, !wrap_modulo, <- Zmult_mod. f_equal. apply Z.mul_comm.
Qed.

(** Any vectors. *)
Lemma engine_vectors : forall l m T (x y : nat -> nat -> Z), l < layers -> m < mvms l -> exists st, runs n depth (prog l m) (W l m)
  (start (flat_map (fun t => given l m (x t)) (seq 0 T)) (flat_map (fun t => added l m (y t)) (seq 0 T))) (T * (limx l * limy l + 1)) (flat_map (fun t => made l m (x t) (y t)) (seq 0 T)) st /\ istep n depth (prog l m) (W l m) st = Wait.
Proof.
  intros l m T x y Hl Hm. destruct (dims_x l Hl) as [_ [_ [X _]]]. destruct (dims_y l Hl) as [_ [Y _]].
  destruct (all_vectors n depth (prog l m) (W l m) (limx l) (limy l) (negb (m =? 0)) (dest D l m) X Y (depth_ok l Hl) (fun i j => prog_ops l m i j Hl Hm) (prog_jump l m Hl)
     (fun t => given l m (x t)) (fun t => added l m (y t))) with (T := T) (a := 0) (K := @nil (nat * vec)) as [K' R].
  { intros t. unfold given. rewrite map_length, seq_length. reflexivity. }
  { intros t. unfold added. destruct (m =? 0); cbn; [reflexivity|]. rewrite map_length, seq_length. reflexivity. }
  exists {| k_pc := 0; k_ins := []; k_reds := []; k_kept := K' |}. split.
  - unfold start. erewrite (flat_map_ext _ (fun t => made l m (x t) (y t))) in R; [exact R|]. intros t. apply outs_made; assumption.
  - eapply waits; [exact X|exact Y|apply (depth_ok l Hl)|]. intros i j. apply prog_ops; assumption.
Qed.
Lemma vectors_end : forall l m k k' s st' os os' st, runs n depth (prog l m) (W l m) s k' os' st' -> istep n depth (prog l m) (W l m) st' = Wait -> runs n depth (prog l m) (W l m) s k os st -> prefix os os' /\ istep n depth (prog l m) (W l m) st <> Fault.
Proof.
  intros l m k k' s st' os os' st R' Wt R. destruct (le_lt_dec k k') as [L|L].
  - destruct (runs_det P (prog l m) (W l m) _ _ _ _ R' _ _ _ R L) as [A [B C]]. split; [exact B|]. destruct (Nat.eq_dec k k') as [E|E]; [destruct (A E) as [_ ->]; congruence|].
    destruct C as [s1 [o C]]; [lia|]. congruence.
  - destruct (runs_det P (prog l m) (W l m) _ _ _ _ R _ _ _ R' ltac:(lia)) as [_ [_ C]]. destruct (C L) as [s1 [o C']]. congruence.
Qed.

(** ** All tests *)
Definition act (l t : nat) : nat -> Z := activation D (d_test D t) l.
Definition tests : list nat := seq 0 (d_tests D).
Definition ins (l m : nat) : list vec := flat_map (fun t => given l m (act l t)) tests.
Definition reds (l m : nat) : list vec := flat_map (fun t => added l m (partial l m (act l t))) tests.
Definition results (l m : nat) : list result := flat_map (fun t => made l m (act l t) (partial l m (act l t))) tests.
Lemma made_partial : forall l m x, made l m x (partial l m x) = map (fun j => (block n (partial l (S m) x) j, fst (dest D l m j), snd (dest D l m j))) (seq 0 (limy l)).
Proof. intros l m x. unfold made. apply map_ext. intros j. do 2 f_equal. apply block_ext. intros r. f_equal. unfold partial at 2. cbn [sum]. f_equal. destruct m; reflexivity. Qed.

Lemma engine_runs : forall l m, l < layers -> m < mvms l -> exists st, runs n depth (prog l m) (W l m) (start (ins l m) (reds l m)) (d_tests D * (limx l * limy l + 1)) (results l m) st /\ istep n depth (prog l m) (W l m) st = Wait.
Proof. intros l m Hl Hm. apply (engine_vectors l m (d_tests D) (act l) (fun t => partial l m (act l t)) Hl Hm). Qed.

Lemma ends : forall l m k os st, runs n depth (prog l m) (W l m) (start (ins l m) (reds l m)) k os st -> l < layers -> m < mvms l -> prefix os (results l m) /\ istep n depth (prog l m) (W l m) st <> Fault.
Proof. intros l m k os st R Hl Hm. destruct (engine_runs l m Hl Hm) as [s' [R' Wt]]. exact (vectors_end _ _ _ _ _ _ _ _ _ R' Wt R). Qed.

(** An engine that has received a part of its streams. *)
Lemma engine_part : forall l m rx, l < layers -> m < mvms l -> prefix (vectors n 3 rx) (ins l m) -> prefix (vectors n 2 rx) (reds l m) ->
  ~ faulty n depth (prog l m) (W l m) (begun n rx) /\ forall k os st, runs n depth (prog l m) (W l m) (begun n rx) k os st -> prefix os (results l m).
Proof.
  intros l m rx Hl Hm [a A] [b B]. assert (M : start (ins l m) (reds l m) = more (begun n rx) a b) by (rewrite A, B; reflexivity). split.
  - intros F. apply (faulty_more P _ _ _ a b) in F. rewrite <- M in F. destruct F as [k [os [st [R E]]]]. destruct (ends _ _ _ _ _ R Hl Hm). congruence.
  - intros k os st R. apply (runs_more P _ _ _ a b) in R. rewrite <- M in R. apply (ends _ _ _ _ _ R Hl Hm).
Qed.

(** ** What the next engine gets *)
Lemma wrap_wrap : forall a, wrap (wrap a) = wrap a.
Proof. intros. apply wrap_eq. apply wrap_modulo. Qed.
Lemma words_wrap : forall v b, words n (packed (map (fun e => v (b * n + e)) (seq 0 n))) = block n v b.
Proof. intros v b. pose proof (words_packed (map (fun e => v (b * n + e)) (seq 0 n))) as E. rewrite map_length, seq_length in E. rewrite E. unfold block. rewrite map_map. reflexivity. Qed.
Lemma words_block : forall v b, words n (packed (block n v b)) = block n v b.
Proof.
  intros v b. pose proof (words_packed (block n v b)) as E. unfold block in E at 1. rewrite map_length, seq_length in E. rewrite E. unfold block. rewrite map_map. apply map_ext. intros e. apply wrap_wrap.
Qed.

Lemma dest_sum : forall l m j, l < layers -> m + 1 < mvms l -> dest D l m j = (Z.of_nat (l + 1), Z.of_nat (m + 1)).
Proof. intros l m j Hl Hm. unfold dest. destruct (Nat.eqb_spec m (mvms l - 1)); [lia|]. rewrite andb_false_r. reflexivity. Qed.
Lemma dest_next : forall l j, l + 1 < layers -> dest D l (mvms l - 1) j = (Z.of_nat (l + 2), Z.of_nat (j mod mvms (l + 1))).
Proof. intros l j Hl. unfold dest. rewrite Nat.eqb_refl. destruct (Nat.eqb_spec l (layers - 1)); [lia|]. reflexivity. Qed.
Lemma dest_last : forall j, dest D (layers - 1) (mvms (layers - 1) - 1) j = (0, 0)%Z.
Proof. intros. unfold dest. rewrite !Nat.eqb_refl. reflexivity. Qed.

Lemma sent_flat : forall A (f : A -> list sent) l m s, sent_to l m (flat_map f s) = flat_map (fun t => sent_to l m (f t)) s.
Proof. intros A f l m s. induction s as [|x s IH]; [reflexivity|]. cbn [flat_map]. rewrite <- IH. unfold sent_to. rewrite filter_app, map_app. reflexivity. Qed.
Lemma map_flat : forall A B C (g : B -> C) (f : A -> list B) s, map g (flat_map f s) = flat_map (fun t => map g (f t)) s.
Proof. intros. induction s as [|x s IH]; [reflexivity|]. cbn [flat_map]. rewrite map_app, IH. reflexivity. Qed.
Lemma results_sent : forall l m, map (as_sent l) (results l m) = flat_map (fun t => map (as_sent l) (made l m (act l t) (partial l m (act l t)))) tests.
Proof. intros. unfold results. apply map_flat. Qed.

(** Partial sums for the next engine of the layer. *)
Lemma sent_sum : forall l m, l < layers -> m + 1 < mvms l ->
  map (fun t => words n (snd t)) (sent_to (Z.of_nat (l + 1)) (Z.of_nat (m + 1)) (map (as_sent l) (results l m))) = reds l (m + 1).
Proof.
  intros l m Hl Hm. rewrite results_sent, sent_flat, map_flat. unfold reds. apply flat_map_ext. intros t. unfold added. destruct (Nat.eqb_spec (m + 1) 0) as [Q0|Q0]; [lia|].
  rewrite made_partial. unfold sent_to. rewrite (map_map _ (as_sent l)). replace (m + 1) with (S m) by lia. set (v := partial l (S m) (act l t)). clearbody v.
  assert (G : forall q, map (fun t0 => words n (snd t0)) (map (fun t0 : sent => let '(data, user, _) := t0 in (user, data)) (filter (fun t0 : sent => let '(_, _, (l', m')) := t0 in ((l' =? Z.of_nat (l + 1)) && (m' =? Z.of_nat (S m)))%Z)
     (map (fun j => as_sent l (block n v j, fst (dest D l m j), snd (dest D l m j))) q))) = map (block n v) q).
  { induction q as [|j q IH]; [reflexivity|]. cbn [map filter]. rewrite dest_sum by assumption. unfold as_sent at 1. cbn [fst snd]. rewrite Z.eqb_refl. replace (m + 1) with (S m) by lia. rewrite Z.eqb_refl. cbn [andb map].
    rewrite IH. unfold as_sent. cbn [fst snd]. rewrite words_block. reflexivity. }
  apply G.
Qed.
Lemma kind_sum : forall l m, l < layers -> m + 1 < mvms l -> Forall (fun t => of_kind 2 t = true) (sent_to (Z.of_nat (l + 1)) (Z.of_nat (m + 1)) (map (as_sent l) (results l m))).
Proof.
  intros l m Hl Hm. apply Forall_forall. intros x X. unfold sent_to in X. apply in_map_iff in X as [y [<- X]]. apply filter_In in X as [X Q]. apply in_map_iff in X as [[[v a] b] [<- _]]. cbn [as_sent] in *.
  apply andb_true_iff in Q as [Q _]. apply Z.eqb_eq in Q as ->. replace (Z.of_nat (l + 1) =? Z.of_nat l + 1)%Z with true by (symmetry; apply Z.eqb_eq; lia). reflexivity.
Qed.

(** Inputs of the next layer. *)
Lemma sent_next : forall l m, l + 1 < layers -> m < mvms (l + 1) ->
  map (fun t => words n (snd t)) (sent_to (Z.of_nat (l + 2)) (Z.of_nat m) (map (as_sent l) (results l (mvms l - 1)))) = ins (l + 1) m.
Proof.
  intros l m Hl Hm. rewrite results_sent, sent_flat, map_flat. unfold ins. apply flat_map_ext. intros t. unfold given.
  rewrite made_partial. unfold sent_to. rewrite (map_map _ (as_sent l)). pose proof (mvms_pos l ltac:(lia)) as [MP _]. replace (S (mvms l - 1)) with (mvms l) by lia. rewrite (dims_next l Hl).
  transitivity (map (fun j => block n (act (l + 1) t) j) (filter (fun j => j mod mvms (l + 1) =? m) (seq 0 (limx (l + 1) * mvms (l + 1))))).
  - generalize (seq 0 (limx (l + 1) * mvms (l + 1))). induction l0 as [|j q IH]; [reflexivity|]. cbn [map filter]. rewrite dest_next by assumption. unfold as_sent at 1. cbn [fst snd]. rewrite Z.eqb_refl. cbn [andb].
    replace (Z.of_nat (j mod mvms (l + 1)) =? Z.of_nat m)%Z with (j mod mvms (l + 1) =? m) by (destruct (Nat.eqb_spec (j mod mvms (l + 1)) m), (Z.eqb_spec (Z.of_nat (j mod mvms (l + 1))) (Z.of_nat m)); try lia; reflexivity).
    destruct (j mod mvms (l + 1) =? m); [|exact IH]. cbn [map]. rewrite IH. f_equal. unfold as_sent. cbn [fst snd]. rewrite words_block. apply block_ext. intros r. unfold act. rewrite next_activation by lia. replace (l + 1) with (S l) by lia. reflexivity.
  - pose proof (flat_stride _ (fun j => [j]) (mvms (l + 1)) m (limx (l + 1)) Hm) as E.
    assert (F : forall q, filter (fun j => j mod mvms (l + 1) =? m) q = flat_map (fun i => if i mod mvms (l + 1) =? m then [i] else []) q).
    { induction q as [|j q IH]; [reflexivity|]. cbn [filter flat_map]. rewrite <- IH. destruct (j mod mvms (l + 1) =? m); reflexivity. }
    rewrite F, E, map_flat. cbn [map]. clear. induction (seq 0 (limx (l + 1))) as [|i q IH]; [reflexivity|]. cbn. rewrite IH. reflexivity.
Qed.
Lemma kind_next : forall l m, l + 1 < layers -> Forall (fun t => of_kind 3 t = true) (sent_to (Z.of_nat (l + 2)) (Z.of_nat m) (map (as_sent l) (results l (mvms l - 1)))).
Proof.
  intros l m Hl. apply Forall_forall. intros x X. unfold sent_to in X. apply in_map_iff in X as [y [<- X]]. apply filter_In in X as [X Q]. apply in_map_iff in X as [[[v a] b] [<- _]]. cbn [as_sent] in *.
  apply andb_true_iff in Q as [Q _]. apply Z.eqb_eq in Q as ->. replace (Z.of_nat (l + 2) =? Z.of_nat l + 1)%Z with false by (symmetry; apply Z.eqb_neq; lia). reflexivity.
Qed.

(** Inputs of the first layer. *)
Lemma sent_first : forall m, m < mvms 0 -> map (fun t => words n (snd t)) (map (fun v => (3 * 2 ^ 13, packed v)%Z) (input_mif n D m)) = ins 0 m.
Proof.
  intros m Hm. pose proof layers_pos as L. rewrite map_map. unfold input_mif. rewrite map_flat. unfold ins, tests. apply flat_map_ext. intros t. cbn [snd].
  replace (padded n (d_input D) (mvms 0) / n) with (limx 0 * mvms 0) by (symmetry; apply (dims_x 0 L)).
  rewrite (flat_stride _ (fun c => [map (fun e => test D t (c * n + e)) (seq 0 n)]) (mvms 0) m (limx 0) Hm). rewrite map_flat. unfold given. cbn [map].
  induction (seq 0 (limx 0)) as [|i q IH]; [reflexivity|]. cbn [flat_map map app]. rewrite IH. f_equal. apply (words_wrap (test D t)).
Qed.

(** What the collector gets. *)
Lemma sent_out : sent_to 0 0 (map (as_sent (layers - 1)) (results (layers - 1) (mvms (layers - 1) - 1))) = map (fun v => (3 * 2 ^ 13, packed v)%Z) (expected n D).
Proof.
  pose proof layers_pos as L. rewrite results_sent, sent_flat. unfold expected. rewrite blocks_last. rewrite map_flat. fold tests. apply flat_map_ext. intros t. rewrite made_partial. unfold sent_to. rewrite (map_map _ (as_sent (layers - 1))), (map_map (block n _)). pose proof (mvms_pos (layers - 1) ltac:(lia)) as [MP _].
  replace (S (mvms (layers - 1) - 1)) with (mvms (layers - 1)) by lia. generalize (seq 0 (limy (layers - 1))). induction l as [|j q IH]; [reflexivity|]. cbn [map filter]. rewrite dest_last. unfold as_sent at 1. cbn [fst snd Z.eqb andb map].
  rewrite IH. f_equal. unfold as_sent. cbn [fst snd]. replace (0 =? Z.of_nat (layers - 1) + 1)%Z with false by (symmetry; apply Z.eqb_neq; lia). f_equal. f_equal. apply block_ext. intros r. unfold act. rewrite next_activation by lia. replace (S (layers - 1)) with layers by lia. reflexivity.
Qed.

Lemma null_last : forall l m r, l < layers -> m < mvms l -> In r (results l m) -> null n r -> l = layers - 1 /\ m = mvms l - 1 /\ In (repeat 0%Z n) (expected n D).
Proof.
  intros l m r Hl Hm I Nu. unfold results in I. apply in_flat_map in I as [t [It I]]. rewrite made_partial in I. apply in_map_iff in I as [j [<- Ij]]. unfold null in Nu. injection Nu as E1 E2 E3.
  unfold dest in E2. destruct (Nat.eqb_spec l (layers - 1)) as [A|A]; destruct (Nat.eqb_spec m (mvms l - 1)) as [B|B]; cbn [andb fst] in E2; try lia.
  split; [exact A|]. split; [exact B|]. unfold expected. rewrite blocks_last. apply in_flat_map. exists t. split; [exact It|]. apply in_map_iff. exists j. rewrite A in *. split; [|exact Ij]. rewrite <- E1. apply block_ext. intros r. unfold act.
  replace (S m) with (mvms (layers - 1)) by lia. rewrite next_activation by lia. replace (S (layers - 1)) with layers by lia. reflexivity.
Qed.

(** ** The share of an engine, without padding *)
Lemma sum_pick : forall (f : nat -> Z) m K, m < K -> sum (fun k => if k =? m then f k else 0%Z) K = f m.
Proof.
  intros f m K H. induction K as [|K IH]; [lia|]. cbn [sum]. destruct (Nat.eqb_spec K m) as [-> |E].
  - rewrite sum_zero; [reflexivity|]. intros i Hi. destruct (Nat.eqb_spec i m); [lia|reflexivity].
  - rewrite IH by lia. apply Z.add_0_r.
Qed.
Lemma contrib_share : forall l m x r, l < layers -> m < mvms l -> contrib l m x r = share n D l m x r.
Proof.
  intros l m x r Hl Hm. pose proof n_pos as N. destruct (dims_x l Hl) as [E [_ [_ B]]]. unfold share.
  transitivity (sum (fun c => if (c / n) mod mvms l =? m then (weight D l r c * x c)%Z else 0%Z) (dimx l)).
  - rewrite E, <- sum_grid, <- sum_grid. unfold contrib. apply sum_ext. intros i Hi.
    rewrite <- (sum_pick (fun k => sum (fun e => weight D l r ((i * mvms l + k) * n + e) * x ((i * mvms l + k) * n + e)%nat)%Z n) m (mvms l) Hm). apply sum_ext. intros k Hk.
    assert (M : forall e, e < n -> ((i * mvms l + k) * n + e) / n mod mvms l = k). { intros e He. rewrite Nat.div_add_l by lia. rewrite Nat.div_small by exact He. rewrite Nat.add_0_r, Nat.add_comm, Nat.mod_add by lia. apply Nat.mod_small. exact Hk. }
    destruct (Nat.eqb_spec k m) as [-> |Q].
    + apply sum_ext. intros e He. rewrite M by exact He. rewrite Nat.eqb_refl. reflexivity.
    + symmetry. apply sum_zero. intros e He. rewrite M by exact He. destruct (Nat.eqb_spec k m); [lia|reflexivity].
  - unfold weight. rewrite <- width_out. destruct (Nat.ltb_spec r (hidden D l)) as [H|H]; cbn [andb].
    + replace (dimx l) with (width D l + (dimx l - width D l)) by lia. rewrite sum_plus. rewrite <- Z.add_0_r. f_equal.
      * apply sum_ext. intros c Hc. rewrite width_in. destruct (Nat.ltb_spec c (width D l)); [reflexivity|lia].
      * apply sum_zero. intros c _. rewrite width_in. destruct (Nat.ltb_spec (width D l + c) (width D l)); [lia|]. destruct (_ =? _); reflexivity.
    + apply sum_zero. intros c _. destruct (_ =? _); reflexivity.
Qed.
Lemma given_blocks : forall l m x, l < layers -> m < mvms l -> given l m x = map (block n x) (filter (fun b => b mod mvms l =? m) (seq 0 (blocks n (width D l) (mvms l)))).
Proof.
  intros l m x Hl Hm. rewrite blocks_x by exact Hl. pose proof (flat_stride _ (fun j => [j]) (mvms l) m (limx l) Hm) as E.
  assert (F : forall q, filter (fun j => j mod mvms l =? m) q = flat_map (fun i => if i mod mvms l =? m then [i] else []) q).
  { induction q as [|j q IH]; [reflexivity|]. cbn [filter flat_map]. rewrite <- IH. destruct (j mod mvms l =? m); reflexivity. }
  rewrite F, E, map_flat. cbn [map]. unfold given. clear. induction (seq 0 (limx l)) as [|i q IH]; [reflexivity|]. cbn. rewrite IH. reflexivity.
Qed.

(** ** The script's own outputs *)
Lemma int64_modulo : forall a, (int64 a mod 2 ^ 32 = a mod 2 ^ 32)%Z.
Proof.
  intros a. unfold int64. rewrite Zminus_mod. replace ((a + 2 ^ 63) mod 2 ^ 64 mod 2 ^ 32)%Z with ((a + 2 ^ 63) mod 2 ^ 32)%Z.
  - rewrite <- Zminus_mod. f_equal. lia.
  - change (2 ^ 64)%Z with (2 ^ 32 * 2 ^ 32)%Z. rewrite Z.rem_mul_r by lia. rewrite (Z.mul_comm (2 ^ 32)), Z_mod_plus_full. symmetry. apply Zmod_mod.
Qed.
Lemma dot64_modulo : forall f g k, (dot64 f g k mod 2 ^ 32 = sum (fun c => f c * g c)%Z k mod 2 ^ 32)%Z.
Proof. intros f g k. induction k as [|k IH]; [reflexivity|]. cbn [dot64 sum]. rewrite int64_modulo. rewrite Zplus_mod, IH, <- Zplus_mod. reflexivity. Qed.
Lemma outputs_modulo : forall l t r, l < layers -> (outputs n D l t r mod 2 ^ 32 = activation D (d_test D t) (S l) r mod 2 ^ 32)%Z.
Proof.
  induction l as [|l IH]; intros t r Hl; cbn [outputs]; rewrite dot64_modulo; rewrite <- next_activation by exact Hl; rewrite partial_all by exact Hl; apply sum_mod; intros c Hc.
  - reflexivity.
  - rewrite Zmult_mod, IH, <- Zmult_mod by lia. reflexivity.
Qed.
Lemma golden_expected : map (map wrap) (golden_mif n D) = expected n D.
Proof.
  pose proof layers_pos as L. unfold golden_mif, expected. rewrite blocks_last. rewrite map_flat. apply flat_map_ext. intros t. rewrite map_map. apply map_ext. intros c. rewrite map_map. unfold block. apply map_ext. intros e. apply wrap_eq.
  rewrite outputs_modulo by lia. replace (S (layers - 1)) with layers by lia. reflexivity.
Qed.
End Net.
