From Coq Require Import ZArith Arith Bool List Lia.
From Coq.Floats Require Import SpecFloat.
From Verif Require Import UtilModel.
Import ListNotations.
Open Scope nat_scope.

(** Pools: an object is in use from the moment it is handed out until it is freed. *)
Definition in_use (x : nat) (tr : list pevent) : bool :=
  fold_left (fun u e => match e with ENew y => if x =? y then true else u | EFree y => if x =? y then false else u end) tr false.
Definition news (tr : list pevent) : nat := length (filter (fun e => match e with ENew _ => true | EFree _ => false end) tr).
Definition frees (tr : list pevent) : nat := length (filter (fun e => match e with EFree _ => true | ENew _ => false end) tr).
(** Only objects in use are freed. *)
Definition frees_ok (tr : list pevent) : Prop := forall tr1 x tr2, tr = tr1 ++ EFree x :: tr2 -> in_use x tr1 = true.

Definition pinv (p : pool) (tr : list pevent) : Prop :=
  NoDup (pl_free p) /\ (forall x, In x (pl_free p) -> x < pl_all p) /\
  (forall x, in_use x tr = true <-> x < pl_all p /\ ~ In x (pl_free p)) /\
  pl_all p + frees tr = length (pl_free p) + news tr.
Lemma news_app : forall a b, news (a ++ b) = news a + news b.
Proof. intros. unfold news. rewrite filter_app, app_length. auto. Qed.
Lemma frees_app : forall a b, frees (a ++ b) = frees a + frees b.
Proof. intros. unfold frees. rewrite filter_app, app_length. auto. Qed.

Lemma pinv_new : forall p tr x p', pinv p tr -> pl_new p = (x, p') -> pinv p' (tr ++ [ENew x]) /\ in_use x tr = false.
Proof.
  intros p tr x p' [ND [LT [H E]]] N. unfold pl_new in N. destruct p as [a fr]. cbn [pl_free pl_all] in *.
  assert (Hn : forall y, in_use y (tr ++ [ENew x]) = if y =? x then true else in_use y tr) by (intros y; unfold in_use; rewrite fold_left_app; reflexivity).
  unfold pinv. rewrite news_app, frees_app. change (news [ENew x]) with 1. change (frees [ENew x]) with 0.
  destruct fr as [|y fr]; injection N as <- <-; cbn [pl_all pl_free length] in *.
  - split; [split; [auto|]; split; [intros ? []|]; split; [|lia]|].
    + intros z. rewrite Hn. destruct (Nat.eqb_spec z a) as [->|]; [split; auto|]. rewrite H. split; intros [? ?]; split; auto; lia.
    + destruct (in_use a tr) eqn:U; auto. apply H in U. lia.
  - apply NoDup_cons_iff in ND. destruct ND as [NI ND]. split; [split; [auto|]; split; [intros z Hz; apply LT; right; auto|]; split; [|lia]|].
    + intros z. rewrite Hn. destruct (Nat.eqb_spec z y) as [->|].
      * split; auto. intros _. split; auto. apply LT. left. auto.
      * rewrite H. cbn [In]. split; intros [? Q]; split; auto. intros [?|?]; subst; auto.
    + destruct (in_use y tr) eqn:U; auto. apply H in U. destruct U as [_ U]. exfalso. apply U. left. auto.
Qed.
Lemma pinv_give : forall p tr x, pinv p tr -> in_use x tr = true -> pinv (pl_give x p) (tr ++ [EFree x]).
Proof.
  intros p tr x [ND [LT [H E]]] U. apply H in U. destruct U as [B1 B2]. destruct p as [a fr]. unfold pl_give. cbn [pl_free pl_all] in *.
  assert (Hn : forall y, in_use y (tr ++ [EFree x]) = if y =? x then false else in_use y tr) by (intros y; unfold in_use; rewrite fold_left_app; reflexivity).
  unfold pinv. cbn [pl_free pl_all length]. rewrite news_app, frees_app. change (news [EFree x]) with 0. change (frees [EFree x]) with 1.
  split; [apply NoDup_cons; auto|]. split; [intros y [<-|Hy]; auto|]. split; [|lia].
  intros y. rewrite Hn. cbn [In]. destruct (Nat.eqb_spec y x) as [->|].
  - split; [discriminate|]. intros [_ Q]. exfalso. apply Q. auto.
  - rewrite H. split; intros [? Q]; split; auto. intros [?|?]; subst; auto.
Qed.

Lemma pool_run : forall l p tr0 p' tr, pinv p tr0 -> pl_run l p = (p', tr) -> (forall tr1 x tr2, tr = tr1 ++ EFree x :: tr2 -> in_use x (tr0 ++ tr1) = true) ->
  pinv p' (tr0 ++ tr) /\ (forall tr1 x tr2, tr = tr1 ++ ENew x :: tr2 -> in_use x (tr0 ++ tr1) = false).
Proof.
  induction l as [|[|x] l IH]; intros p tr0 p' tr I R F; cbn [pl_run] in R.
  - injection R as <- <-. rewrite app_nil_r. split; auto. intros tr1 x tr2 E. destruct tr1; discriminate.
  - destruct (pl_new p) as [x p1] eqn:N. destruct (pl_run l p1) as [p2 xs] eqn:R2. injection R as <- <-.
    destruct (pinv_new _ _ _ _ I N) as [I1 NU]. destruct (IH p1 (tr0 ++ [ENew x]) p2 xs I1 R2) as [J1 J2].
    { intros tr1 y tr2 ->. rewrite <- app_assoc. apply (F (ENew x :: tr1) y tr2). reflexivity. }
    rewrite <- app_assoc in J1. split; [exact J1|]. intros tr1 y tr2 E. destruct tr1 as [|e tr1].
    + injection E as <- _. rewrite app_nil_r. auto.
    + injection E as <- E. specialize (J2 _ _ _ E). rewrite <- app_assoc in J2. exact J2.
  - destruct (pl_run l (pl_give x p)) as [p2 xs] eqn:R2. injection R as <- <-.
    assert (U : in_use x tr0 = true) by (specialize (F [] x xs eq_refl); rewrite app_nil_r in F; auto).
    destruct (IH (pl_give x p) (tr0 ++ [EFree x]) p2 xs (pinv_give _ _ _ I U) R2) as [J1 J2].
    { intros tr1 y tr2 ->. rewrite <- app_assoc. apply (F (EFree x :: tr1) y tr2). reflexivity. }
    rewrite <- app_assoc in J1. split; [exact J1|]. intros tr1 y tr2 E. destruct tr1 as [|e tr1]; [discriminate|]. injection E as <- E.
    specialize (J2 _ _ _ E). rewrite <- app_assoc in J2. exact J2.
Qed.
Lemma pinv0 : pinv pool0 [].
Proof. unfold pinv, pool0. cbn. split; [apply NoDup_nil|]. split; [intros x []|]. split; auto. intros x. split; [discriminate|lia]. Qed.

Open Scope Z_scope.
(** Hops. *)
Lemma grid_coord : forall g r c, 0 <= r -> 0 <= c < g -> (r * g + c) / g = r /\ (r * g + c) mod g = c.
Proof. intros g r c Hr Hc. rewrite Z.add_comm, Z.div_add, Z.mod_add, Z.div_small, Z.mod_small by lia. lia. Qed.
Lemma grid_ok : forall g r1 c1 r2 c2, 0 < g < 2 ^ 16 -> 0 <= r1 < g -> 0 <= c1 < g -> 0 <= r2 < g -> 0 <= c2 < g ->
  grid_hops (r1 * g + c1) (r2 * g + c2) g = Some (Z.abs (r1 - r2) + Z.abs (c1 - c2) + 1).
Proof.
  intros g r1 c1 r2 c2 Hg H1 H2 H3 H4. unfold grid_hops. rewrite (Z.mod_small (g * g)) by nia. rewrite (proj2 (Z.eqb_neq (g * g) 0)) by nia.
  rewrite !(Z.mod_small _ (g * g)) by nia. destruct (grid_coord g r1 c1 ltac:(lia) ltac:(lia)) as [-> ->]. destruct (grid_coord g r2 c2 ltac:(lia) ltac:(lia)) as [-> ->]. reflexivity.
Qed.

(** Cycle numbers with exact division. *)
Lemma ceil_mono : forall a b d, 0 < d -> a <= b -> - ((- a) / d) <= - ((- b) / d).
Proof. intros a b d Hd H. pose proof (Z.div_le_mono (- b) (- a) d Hd). lia. Qed.
Lemma cycle_exact_ok : forall pn pd, 0 < pn -> 0 < pd ->
  (forall t u, t <= u -> sim_cycle_exact t pn pd <= sim_cycle_exact u pn pd) /\
  (forall t q, q * pd = 1000 * pn -> sim_cycle_exact (t + q) pn pd = sim_cycle_exact t pn pd + 1) /\
  (forall k r q, q * pd = 1000 * pn -> 0 < r <= q -> sim_cycle_exact (k * q + r) pn pd = k + 1).
Proof.
  intros pn pd H1 H2. unfold sim_cycle_exact. split; [|split].
  - intros t u H. apply ceil_mono; nia.
  - intros t q E. replace (- ((t + q) * pd)) with (- (t * pd) + (-1) * (1000 * pn)) by nia. rewrite Z.div_add by lia. lia.
  - intros k r q E Hr. replace (- ((k * q + r) * pd)) with (- (r * pd) + (- k) * (1000 * pn)) by nia. rewrite Z.div_add by lia.
    assert ((- (r * pd)) / (1000 * pn) = -1); [|lia]. symmetry. apply (Z.div_unique _ _ _ (1000 * pn - r * pd)); nia.
Qed.

(** The fraction: all thousandths are tried. *)
Definition frac_good (m : Z) : bool :=
  match get_fraction 0 m with
  | Some (a, b) => (0 <? b) && Bool.eqb (a * 1000 =? m * b) (m mod 100 =? 0)
  | None => false
  end.
Lemma frac_all : forallb frac_good (map Z.of_nat (seq 0 1000)) = true.
Proof. vm_compute. reflexivity. Qed.
Lemma frac_one : forall m, 0 <= m < 1000 -> frac_good m = true.
Proof. intros m H. pose proof frac_all as F. rewrite forallb_forall in F. apply F. apply in_map_iff. exists (Z.to_nat m). split; [lia|]. apply in_seq. lia. Qed.
Lemma frac_shift : forall i m a b, get_fraction 0 m = Some (a, b) -> get_fraction i m = Some (i * b + a, b).
Proof.
  intros i m a b. unfold get_fraction. destruct (m =? 0). { intros E. injection E as <- <-. f_equal. f_equal; lia. }
  destruct (scale10 400 _ 0) as [[x c]|]; [|discriminate]. destruct (d_ceil x) as [y|]; [|discriminate]. intros E. injection E as <- <-. reflexivity.
Qed.
Lemma fraction_ok : forall i m, 0 <= i -> 0 <= m < 1000 -> exists a b, get_fraction i m = Some (a, b) /\ 0 < b /\
  (a * 1000 = (i * 1000 + m) * b <-> m mod 100 = 0).
Proof.
  intros i m Hi Hm. pose proof (frac_one m Hm) as F. unfold frac_good in F. destruct (get_fraction 0 m) as [[a b]|] eqn:G; [|discriminate].
  apply andb_prop in F. destruct F as [F1 F2]. apply Z.ltb_lt in F1. apply eqb_prop in F2. exists (i * b + a), b. split; [exact (frac_shift i m a b G)|]. split; [exact F1|].
  destruct (Z.eqb_spec (a * 1000) (m * b)), (Z.eqb_spec (m mod 100) 0); try discriminate; split; intros; auto; try lia; exfalso; lia.
Qed.
Definition knobs_wrong (m : Z) : bool :=
  if m mod 100 =? 0 then true else match bw_knobs 0 m with Some (a, b) => (0 <? b) && negb (a * 1000 =? m * b) | None => false end.
Lemma knobs_all : forallb knobs_wrong (map Z.of_nat (seq 0 1000)) = true.
Proof. vm_compute. reflexivity. Qed.
Lemma knobs_bound : forall i m, 0 <= i -> 0 <= m < 1000 -> exists a b a' b', get_fraction i m = Some (a, b) /\ bw_knobs i m = Some (a', b') /\ 0 < b' /\ a' <= b' /\
  (a <= b -> a' = a /\ b' = b) /\ (b < a -> a' = b').
Proof.
  intros i m Hi Hm. destruct (fraction_ok i m Hi Hm) as [a [b [E [B _]]]]. unfold bw_knobs. rewrite E. destruct (Z.leb_spec a b) as [L|L].
  - exists a, b, a, b. split; auto. split; auto. split; auto. split; auto. split; [auto|]. intros. lia.
  - exists a, b, 1, 1. split; auto. split; auto. split; [lia|]. split; [lia|]. split; intros; [lia|auto].
Qed.
Lemma knobs_bad : forall m, 0 < m < 1000 -> m mod 100 <> 0 -> exists a b, bw_knobs 0 m = Some (a, b) /\ 0 < b /\ a * 1000 <> m * b.
Proof.
  intros m H N. pose proof knobs_all as F. rewrite forallb_forall in F. specialize (F m). unfold knobs_wrong in F at 1. rewrite (proj2 (Z.eqb_neq _ _) N) in F.
  assert (I : In m (map Z.of_nat (seq 0 1000))) by (apply in_map_iff; exists (Z.to_nat m); split; [lia|apply in_seq; lia]).
  specialize (F I). destruct (bw_knobs 0 m) as [[a b]|]; [|discriminate]. apply andb_prop in F. destruct F as [F1 F2]. exists a, b. apply Z.ltb_lt in F1.
  split; auto. split; auto. intros E. rewrite E, Z.eqb_refl in F2. discriminate.
Qed.
