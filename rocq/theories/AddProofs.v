From Coq Require Import ZArith Arith Bool List Lia.
From Verif Require Import MvmModel StreamSpec AddModel AddSpec.
Import ListNotations.
Open Scope nat_scope.

(** ** The client *)
Record good_peek {A} (z : A) (f : peek A) : Prop := { gp_e : q_empty f = (length (q_mem f) =? 0); gp_a : q_afull f = (15 <=? length (q_mem f)); gp_r : q_rdata f = hd z (q_mem f) }.
Record cinv (nums : list Z) (sent : list (Z * bool)) (c : cstate) : Prop := {
  ci_d : good_peek 0%Z (k_dq c); ci_l : good_peek false (k_lq c);
  ci_len : length (q_mem (k_lq c)) = length (q_mem (k_dq c)); ci_max : length (q_mem (k_dq c)) <= 15;
  ci_all : sent ++ combine (q_mem (k_dq c)) (q_mem (k_lq c)) ++ tagged (k_left c) = tagged nums;
  ci_v : k_valid c = true -> exists x r, k_left c = x :: r /\ k_data c = (x mod 2 ^ 128)%Z /\ k_last c = (length (k_left c) <=? 1) }.

Lemma cinv0 : forall nums, cinv nums [] (client0 nums).
Proof. intros nums. constructor; try (constructor; reflexivity); cbn [client0 peek0 k_dq k_lq q_mem k_left k_valid combine app length]; auto; try lia; discriminate. Qed.

Lemma tagged_cons : forall x r, tagged (x :: r) = ((x mod 2 ^ 128)%Z, length (x :: r) <=? 1) :: tagged r.
Proof. intros x [|y r]; reflexivity. Qed.
Lemma tagged_len : forall l, length (tagged l) = length l.
Proof. induction l as [|x l IH]; [reflexivity|]. rewrite tagged_cons. cbn [length]. lia. Qed.

Lemma peek_ok : forall A (z : A) f ren wen x, good_peek z f -> (ren = true -> q_mem f <> []) -> (wen = true -> length (q_mem f) <= 15) ->
  exists f', peek_tick z 16 15 ren wen x f = Some f' /\ good_peek z f' /\ q_mem f' = (if ren then tl (q_mem f) else q_mem f) ++ (if wen then [x] else []).
Proof.
  intros A z f ren wen x G R W. unfold peek_tick.
  assert (E : (if ren then match q_mem f with [] => None | _ :: r => Some r end else Some (q_mem f)) = Some (if ren then tl (q_mem f) else q_mem f)).
  { destruct ren; [|reflexivity]. destruct (q_mem f); [destruct (R eq_refl); reflexivity|reflexivity]. }
  rewrite E. set (q := if ren then tl (q_mem f) else q_mem f) in *. assert (L : length q <= length (q_mem f)) by (unfold q; destruct ren; [destruct (q_mem f); cbn; lia|lia]).
  destruct wen.
  - specialize (W eq_refl). destruct (Nat.eqb_spec (length q) 16) as [X|X]; [lia|]. cbn [andb]. eexists. split; [reflexivity|]. split; [constructor; reflexivity|reflexivity].
  - cbn [andb]. eexists. split; [reflexivity|]. split; [constructor; reflexivity|]. cbn [q_mem]. rewrite app_nil_r. reflexivity.
Qed.

Lemma combine_app' : forall A B (a a' : list A) (b b' : list B), length a = length b -> combine (a ++ a') (b ++ b') = combine a b ++ combine a' b'.
Proof. intros A B a. induction a as [|x a IH]; intros a' [|y b] b' L; try discriminate; [reflexivity|]. cbn [app combine]. f_equal. apply IH. injection L. auto. Qed.

Lemma offer_hd : forall nums sent c, cinv nums sent c -> offer c = match q_mem (k_dq c), q_mem (k_lq c) with x :: _, l :: _ => Some (x, l) | _, _ => None end.
Proof.
  intros nums sent c C. unfold offer. rewrite (gp_e _ _ (ci_d _ _ _ C)), (gp_r _ _ (ci_d _ _ _ C)), (gp_r _ _ (ci_l _ _ _ C)). pose proof (ci_len _ _ _ C) as L. destruct (q_mem (k_dq c)), (q_mem (k_lq c)); try discriminate; reflexivity.
Qed.

Lemma client_step : forall nums sent c r, cinv nums sent c -> exists c', client_edge c r = Some c' /\ cinv nums (sent ++ handed c r) c'.
Proof.
  intros nums sent c r C. pose proof (offer_hd _ _ _ C) as O. destruct C as [D L EL M AL V]. unfold client_edge. rewrite (gp_a _ _ D), (gp_e _ _ D).
  set (ren := negb (length (q_mem (k_dq c)) =? 0) && r). set (rdy := negb (15 <=? length (q_mem (k_dq c)))).
  assert (R1 : ren = true -> q_mem (k_dq c) <> []) by (unfold ren; destruct (q_mem (k_dq c)); [discriminate|intros _; discriminate]).
  assert (R2 : ren = true -> q_mem (k_lq c) <> []) by (intros X E; rewrite E in EL; apply (R1 X); destruct (q_mem (k_dq c)); [auto|discriminate]).
  assert (W : forall v, rdy && v = true -> length (q_mem (k_dq c)) <= 14) by (intros v X; apply andb_true_iff in X; destruct X as [X _]; unfold rdy in X; apply negb_true_iff, Nat.leb_gt in X; lia).
  destruct (peek_ok _ 0%Z (k_dq c) ren (rdy && k_valid c) (k_data c) D R1 ltac:(intros; lia)) as [d [-> [Gd Ed]]].
  destruct (peek_ok _ false (k_lq c) ren (rdy && k_valid c) (k_last c) L R2 ltac:(intros; lia)) as [l [-> [Gl El]]].
  set (left := if k_valid c && rdy then tl (k_left c) else k_left c).
  assert (EQL : length (q_mem l) = length (q_mem d)).
  { rewrite Ed, El, !app_length. destruct ren; [destruct (q_mem (k_dq c)), (q_mem (k_lq c)); try discriminate; cbn [tl length] in *; destruct (rdy && k_valid c); cbn; lia|destruct (rdy && k_valid c); cbn [length]; lia]. }
  assert (MX : length (q_mem d) <= 15).
  { rewrite Ed, app_length. assert (X : length (if ren then tl (q_mem (k_dq c)) else q_mem (k_dq c)) <= length (q_mem (k_dq c))) by (destruct ren; [destruct (q_mem (k_dq c)); cbn; lia|lia]).
    destruct (rdy && k_valid c) eqn:Wv; cbn [length]; [specialize (W _ Wv)|]; lia. }
  assert (AL' : (sent ++ handed c r) ++ combine (q_mem d) (q_mem l) ++ tagged left = tagged nums).
  { rewrite <- AL, <- app_assoc. f_equal.
    assert (Y : (if rdy && k_valid c then [(k_data c, k_last c)] else []) ++ tagged left = tagged (k_left c)).
    { unfold left. rewrite (andb_comm (k_valid c)). destruct (rdy && k_valid c) eqn:Wv; [|reflexivity]. apply andb_true_iff in Wv. destruct (V (proj2 Wv)) as [x [q [E1 [E2 E3]]]]. rewrite E2, E3, E1, tagged_cons. reflexivity. }
    assert (X : handed c r ++ combine (if ren then tl (q_mem (k_dq c)) else q_mem (k_dq c)) (if ren then tl (q_mem (k_lq c)) else q_mem (k_lq c)) = combine (q_mem (k_dq c)) (q_mem (k_lq c))).
    { unfold handed, ren. rewrite O. destruct (q_mem (k_dq c)) as [|x q], (q_mem (k_lq c)) as [|y q']; try discriminate; destruct r; reflexivity. }
    rewrite Ed, El, combine_app', <- X, <- Y, <- !app_assoc; [|destruct ren; [destruct (q_mem (k_dq c)), (q_mem (k_lq c)); try discriminate; cbn in *; lia|lia]].
    f_equal. f_equal. destruct (rdy && k_valid c); reflexivity. }
  eexists. split; [reflexivity|]. destruct left as [|x q] eqn:EE.
  - constructor; cbn [k_dq k_lq k_left k_valid k_data k_last]; auto. discriminate.
  - constructor; cbn [k_dq k_lq k_left k_valid k_data k_last]; auto. intros _. exists x, q. auto.
Qed.

Lemma client_all : forall l nums sent c, cinv nums sent c -> exists o c', client_run c l = (o, Some c') /\ cinv nums (sent ++ o) c'.
Proof.
  induction l as [|r l IH]; intros nums sent c C; cbn [client_run]; [exists [], c; rewrite app_nil_r; auto|].
  destruct (client_step _ _ _ r C) as [c1 [-> C1]]. destruct (IH _ _ _ C1) as [o [c' [-> C']]]. exists (handed c r ++ o), c'. rewrite app_assoc. auto.
Qed.
Lemma cinv_prefix : forall nums sent c, cinv nums sent c -> prefix sent (tagged nums).
Proof. intros nums sent c C. eexists. symmetry. apply (ci_all _ _ _ C). Qed.

(** Progress: every edge at which the NoC is ready brings the numbers nearer to the end. *)
Definition todo (c : cstate) : nat := 3 * length (k_left c) + length (q_mem (k_dq c)) + (if k_valid c then 0 else match k_left c with [] => 0 | _ => 1 end).
Lemma todo_step : forall nums sent c r c', cinv nums sent c -> client_edge c r = Some c' -> todo c' <= todo c /\ (r = true -> 0 < todo c -> todo c' < todo c).
Proof.
  intros nums sent c r c' C E. destruct C as [D L EL M AL V]. unfold client_edge in E. rewrite (gp_a _ _ D), (gp_e _ _ D) in E.
  set (ren := negb (length (q_mem (k_dq c)) =? 0) && r) in *. set (rdy := negb (15 <=? length (q_mem (k_dq c)))) in *.
  assert (R1 : ren = true -> q_mem (k_dq c) <> []) by (unfold ren; destruct (q_mem (k_dq c)); [discriminate|intros _; discriminate]).
  assert (W : forall v, rdy && v = true -> length (q_mem (k_dq c)) <= 15) by (intros; lia).
  destruct (peek_ok _ 0%Z (k_dq c) ren (rdy && k_valid c) (k_data c) D R1 ltac:(auto)) as [d [Ed' [Gd Ed]]]. rewrite Ed' in E. destruct (peek_tick false _ _ _ _ _ _) as [l|]; [|discriminate]. injection E as <-.
  assert (Q : todo match (if k_valid c && rdy then tl (k_left c) else k_left c) with
           | [] => {| k_left := []; k_valid := false; k_data := k_data c; k_last := k_last c; k_dq := d; k_lq := l |}
           | x :: _ => {| k_left := if k_valid c && rdy then tl (k_left c) else k_left c; k_valid := true; k_data := (x mod 2 ^ 128)%Z; k_last := length (if k_valid c && rdy then tl (k_left c) else k_left c) <=? 1; k_dq := d; k_lq := l |}
           end = 3 * length (if k_valid c && rdy then tl (k_left c) else k_left c) + length (q_mem d)).
  { unfold todo. destruct (if k_valid c && rdy then tl (k_left c) else k_left c); cbn [k_left k_dq k_valid length]; lia. }
  rewrite Q. rewrite Ed, app_length. unfold todo. assert (X : length (if ren then tl (q_mem (k_dq c)) else q_mem (k_dq c)) + (if ren then 1 else 0) = length (q_mem (k_dq c))).
  { destruct ren; [|lia]. destruct (q_mem (k_dq c)); [destruct (R1 eq_refl); reflexivity|cbn; lia]. }
  rewrite (andb_comm rdy). destruct (k_valid c) eqn:Ev; cbn [andb].
  - destruct (V eq_refl) as [x [q [El _]]]. rewrite El. destruct rdy eqn:Er; cbn [tl length] in *.
    + split; [lia|intros; lia].
    + split; [lia|]. intros -> _. assert (Y : ren = true) by (unfold ren; unfold rdy in Er; apply negb_false_iff, Nat.leb_le in Er; destruct (q_mem (k_dq c)); [cbn in Er; lia|reflexivity]). rewrite Y in *. lia.
  - cbn [length]. split; [lia|]. intros -> Hp. destruct (k_left c) as [|x q] eqn:El; cbn [length] in *; [|lia].
    assert (Y : ren = true) by (unfold ren; destruct (q_mem (k_dq c)); [cbn in Hp; lia|reflexivity]). rewrite Y in *. lia.
Qed.
Lemma todo_run : forall l nums sent c o c', cinv nums sent c -> client_run c l = (o, Some c') -> todo c' <= todo c - length (filter (fun b => b) l).
Proof.
  induction l as [|r l IH]; intros nums sent c o c' C E; cbn [client_run] in E; [injection E as _ <-; cbn [filter length]; lia|]. destruct (client_step _ _ _ r C) as [c1 [E1 C1]]. rewrite E1 in E.
  destruct (client_run c1 l) as [o1 f1] eqn:E2. injection E as _ ->. pose proof (IH _ _ _ _ _ C1 E2) as H. destruct (todo_step _ _ _ _ _ C E1) as [H1 H2]. cbn [filter]. destruct r; cbn [length]; [|lia].
  destruct (Nat.eq_dec (todo c) 0) as [Z|Z]; [lia|]. specialize (H2 eq_refl ltac:(lia)). lia.
Qed.
Lemma todo_done : forall nums sent c, cinv nums sent c -> todo c = 0 -> sent = tagged nums.
Proof.
  intros nums sent c C T. unfold todo in T. pose proof (ci_all _ _ _ C) as A. destruct (k_left c); [|cbn [length] in T; lia]. destruct (q_mem (k_dq c)); [|cbn [length] in T; lia]. cbn in A. rewrite app_nil_r in A. exact A.
Qed.

(** ** The adder *)
Lemma op_mod : forall f a b m, (0 < m)%Z -> (apply_op f (a mod m) (b mod m) mod m = apply_op f a b mod m)%Z.
Proof. intros [] a b m Hm; cbn [apply_op]; [symmetry; apply Z.add_mod; lia|symmetry; apply Z.mul_mod; lia]. Qed.
Lemma op_assoc : forall f a b c, apply_op f a (apply_op f b c) = apply_op f (apply_op f a b) c.
Proof. intros []; cbn [apply_op]; intros; lia. Qed.
Lemma op_start : forall f a, apply_op f (start f) a = a /\ apply_op f a (start f) = a.
Proof. intros []; cbn [apply_op start]; intros; lia. Qed.
Definition partial (f : op) (l : list Z) : Z := fold_left (apply_op f) l (start f).
Lemma fold_result : forall f l a, fold_left (apply_op f) l a = apply_op f a (result f l).
Proof. intros f l. induction l as [|x l IH]; intros a; cbn [fold_left result fold_right]; [symmetry; apply op_start|]. rewrite IH. symmetry. apply op_assoc. Qed.
Lemma partial_result : forall f l, partial f l = result f l.
Proof. intros. unfold partial. rewrite fold_result. apply op_start. Qed.
Lemma int32_mod : forall x, (int32 x mod 2 ^ 32 = x mod 2 ^ 32)%Z.
Proof.
  intros x. unfold int32. destruct (x mod 2 ^ 32 <? 2 ^ 31)%Z; [apply Z.mod_mod; lia|]. rewrite <- (Z_mod_plus_full (x mod 2 ^ 32 - 2 ^ 32) 1 (2 ^ 32)). replace (x mod 2 ^ 32 - 2 ^ 32 + 1 * 2 ^ 32)%Z with (x mod 2 ^ 32)%Z by lia. apply Z.mod_mod. lia.
Qed.
Lemma int32_eq : forall x y, (x mod 2 ^ 32 = y mod 2 ^ 32)%Z -> int32 x = int32 y.
Proof. intros x y E. unfold int32. rewrite E. reflexivity. Qed.
Lemma actual_from : forall f l a b, (a mod 2 ^ 32 = b mod 2 ^ 32)%Z -> (fold_left (fun a x => int32 (apply_op f a x)) l a mod 2 ^ 32 = fold_left (apply_op f) l b mod 2 ^ 32)%Z.
Proof.
  intros f l. induction l as [|x l IH]; intros a b E; cbn [fold_left]; [exact E|]. apply IH. rewrite int32_mod, <- (op_mod f a), <- (op_mod f b), E by lia. reflexivity.
Qed.
Lemma actual_int : forall f l a, int32 a = a -> int32 (fold_left (fun a x => int32 (apply_op f a x)) l a) = fold_left (fun a x => int32 (apply_op f a x)) l a.
Proof. intros f l. induction l as [|x l IH]; intros a E; cbn [fold_left]; [exact E|]. apply IH. apply int32_eq, int32_mod. Qed.
Lemma actual_result : forall f l, actual f l = int32 (result f l).
Proof.
  intros f l. unfold actual. rewrite <- actual_int by (destruct f; reflexivity). apply int32_eq. rewrite (actual_from f l (start f) (start f) eq_refl). fold (partial f l). rewrite partial_result. reflexivity.
Qed.
Lemma int32_small : forall x, (0 <= x < 2 ^ 31)%Z -> int32 x = x.
Proof. intros x H. unfold int32. rewrite Z.mod_small by lia. destruct (Z.ltb_spec x (2 ^ 31)); lia. Qed.

(** Numbers in 128 bits have the same lowest 64. *)
Lemma low64 : forall x, ((x mod 2 ^ 128) mod 2 ^ 64 = x mod 2 ^ 64)%Z.
Proof. intros x. replace (2 ^ 128)%Z with (2 ^ 64 * 2 ^ 64)%Z by reflexivity. rewrite Z.rem_mul_r by lia. rewrite Z.mul_comm, Z_mod_plus_full. apply Z.mod_mod. lia. Qed.

Record ainv (f : op) (nums : list Z) (p : list (Z * bool)) (a : astate) : Prop := {
  ai_sum : (d_sum a mod 2 ^ 64 = partial f (map fst p) mod 2 ^ 64)%Z; ai_small : (d_sum a = d_sum a mod 2 ^ 64)%Z;
  ai_fin : d_fin a = true <-> p = tagged nums /\ nums <> [];
  ai_v : d_valid a = true -> p = tagged nums /\ (d_resp a = result f nums mod 2 ^ 64)%Z;
  ai_verdict : forall v, d_verdict a = Some v -> p = tagged nums /\ v = (result f nums mod 2 ^ 64 =? actual f nums mod 2 ^ 128)%Z }.
Lemma ainv0 : forall f nums, ainv f nums [] (adder0 f).
Proof.
  intros f nums. constructor; cbn [adder0 d_sum d_fin d_valid d_verdict d_resp map]; try discriminate; auto.
  - destruct f; reflexivity.
  - split; [discriminate|]. intros [E N]. destruct nums as [|x r]; [congruence|]. rewrite tagged_cons in E. discriminate.
Qed.
Lemma tagged_sum : forall f l a, (fold_left (apply_op f) (map fst (tagged l)) a mod 2 ^ 64 = fold_left (apply_op f) l a mod 2 ^ 64)%Z.
Proof.
  intros f l. assert (G : forall a b, (a mod 2 ^ 64 = b mod 2 ^ 64)%Z -> (fold_left (apply_op f) (map fst (tagged l)) a mod 2 ^ 64 = fold_left (apply_op f) l b mod 2 ^ 64)%Z); [|intros; apply G; reflexivity].
  induction l as [|x l IH]; intros a b E; [exact E|]. rewrite tagged_cons. cbn [map fst fold_left]. apply IH. rewrite <- (op_mod f a), <- (op_mod f b), low64, E by lia. reflexivity.
Qed.
(** Only the last number is flagged. *)
Lemma flagged : forall nums p x l, prefix (p ++ [(x, l)]) (tagged nums) -> l = true <-> p ++ [(x, l)] = tagged nums.
Proof.
  induction nums as [|y r IH]; intros p x l [q E].
  - destruct p; discriminate.
  - rewrite tagged_cons in *. destruct p as [|z p]; cbn [app] in *.
    + injection E as <- <- E2. split.
      * intros H. apply Nat.leb_le in H. cbn [length] in H. destruct r; [reflexivity|cbn in H; lia].
      * intros H. injection H as H. destruct r; [reflexivity|rewrite tagged_cons in H; discriminate].
    + injection E as <- E2. rewrite (IH p x l (ex_intro _ q E2)). split; [intros ->; reflexivity|intros H; injection H; auto].
Qed.
Lemma prefix_whole : forall (a b : list (Z * bool)) x, prefix (a ++ [x]) b -> a = b -> False.
Proof. intros a b x [q E] ->. apply (f_equal (@length _)) in E. rewrite !app_length in E. cbn in E. lia. Qed.

Lemma adder_step : forall f nums p a rx, ainv f nums p a -> prefix (p ++ match rx with Some x => [x] | None => [] end) (tagged nums) ->
  ainv f nums (p ++ match rx with Some x => [x] | None => [] end) (adder_edge f nums a rx).
Proof.
  intros f nums p a rx [S1 S2 FI V VD] PR. unfold adder_edge.
  assert (NV : forall x, rx = Some x -> p <> tagged nums) by (intros x -> E; exact (prefix_whole _ _ _ PR E)).
  destruct rx as [[x l]|].
  - assert (F0 : d_fin a = false) by (destruct (d_fin a) eqn:E; [destruct (NV _ eq_refl); apply FI; reflexivity|reflexivity]).
    assert (V0 : d_valid a = false) by (destruct (d_valid a) eqn:E; [destruct (NV _ eq_refl); apply V; reflexivity|reflexivity]).
    assert (D0 : d_verdict a = None) by (destruct (d_verdict a) eqn:E; [destruct (NV _ eq_refl); eapply VD; reflexivity|reflexivity]).
    rewrite F0, V0, D0. constructor; cbn [d_sum d_fin d_valid d_resp d_verdict orb]; try discriminate.
    + rewrite Z.mod_mod by lia. rewrite map_app. unfold partial. rewrite fold_left_app. cbn [map fst fold_left]. fold (partial f (map fst p)). rewrite <- (op_mod f (partial f (map fst p))), <- S1 by lia. reflexivity.
    + rewrite Z.mod_mod by lia. reflexivity.
    + rewrite (flagged _ _ _ _ PR). split; [intros E; split; auto; intros ->; destruct p; discriminate|tauto].
  - rewrite app_nil_r in *. assert (RS : p = tagged nums -> (d_sum a = result f nums mod 2 ^ 64)%Z).
    { intros ->. rewrite S2, S1. unfold partial. rewrite tagged_sum. fold (partial f nums). rewrite partial_result. reflexivity. }
    constructor; cbn [d_sum d_fin d_valid d_resp d_verdict]; auto.
    + intros E. destruct (d_fin a) eqn:EF; [destruct (proj1 FI eq_refl) as [Q _]; split; auto|cbn in E; auto].
    + intros v E. destruct (d_verdict a) as [u|]; [apply VD; exact E|]. destruct (d_valid a) eqn:EV; [|discriminate]. destruct (V eq_refl) as [V1 V2]. split; auto. injection E as <-. rewrite V2. reflexivity.
Qed.
(** Two edges after everything has come the sink has its verdict. *)
Lemma adder_two : forall f nums a, nums <> [] -> ainv f nums (tagged nums) a -> exists v, d_verdict (adder_edge f nums (adder_edge f nums a None) None) = Some v.
Proof.
  intros f nums a N I. assert (E : d_fin a = true) by (apply I; auto). unfold adder_edge. cbn [d_verdict d_valid d_resp]. rewrite E. cbn [orb]. destruct (d_verdict a); [eauto|]. destruct (d_valid a); eauto.
Qed.
Lemma keeps_verdict : forall f nums a rx v, d_verdict a = Some v -> d_verdict (adder_edge f nums a rx) = Some v.
Proof. intros f nums a rx v E. unfold adder_edge. cbn [d_verdict]. rewrite E. reflexivity. Qed.
Lemma keeps_valid : forall f nums a rx, d_valid a = true -> d_valid (adder_edge f nums a rx) = true.
Proof. intros f nums a rx E. unfold adder_edge. cbn [d_valid]. rewrite E. apply orb_true_r. Qed.
Lemma right : forall f nums, (0 <= result f nums < 2 ^ 31)%Z -> (result f nums mod 2 ^ 64 =? actual f nums mod 2 ^ 128)%Z = true.
Proof. intros f nums H. rewrite actual_result, int32_small by exact H. rewrite !Z.mod_small by lia. apply Z.eqb_refl. Qed.
