From Coq Require Import ZArith Arith Bool List Lia.
From Verif Require Import Fupd ArbiterModel ArbiterSpec.
Import ListNotations.

Record arb_inv (n : nat) (a : arbiter) (I : ast a -> list req -> bool -> Prop) : Prop := {
  ai_init : I (a_init a) [] false;
  ai_add : forall s L d i id pri, I s L d -> i < n -> ~ In i (map r_in L) ->
    exists s', a_add a i id pri s = Some s' /\ I s' (L ++ [(i, id, pri)]) d;
  ai_arb : forall s L, I s L false -> exists s' o, a_arb a s = Some (s', o) /\ good L o /\ I s' L true /\ a_last a s' = option_map r_in o;
  ai_upd : forall s L d, I s L d -> exists s', a_upd a s = Some s' /\ I s' L d /\ a_last a s' = a_last a s;
  ai_clear : forall s L d, I s L d -> I (a_clear a s) [] false;
  ai_num : forall s L d, I s L d -> a_num a s = length L;
  ai_empty : forall s d, I s [] d -> I s [] false }.

Definition arb_ok (n : nat) (a : arbiter) : Prop := exists I, arb_inv n a I.

Lemma arun_ok : forall n a I, arb_inv n a I -> forall l s L d, I s L d -> legal n (map r_in L) d l ->
  exists s' outs, arun a l s = Some (s', outs) /\ Forall2 good (asked L l) outs.
Proof.
  intros n a I H. induction l as [|o r IH]; intros s L d HI HL.
  - exists s, []. split; [reflexivity|constructor].
  - destruct o; cbn [legal asked arun astep] in *.
    + destruct HL as [A [B C]]. destruct (ai_add _ _ _ H s L d i id pri HI A B) as [s' [E1 E2]].
      rewrite E1. destruct (IH s' (L ++ [(i, id, pri)]) d E2) as [s2 [o2 [E3 E4]]].
      { rewrite map_app. exact C. }
      rewrite E3. exists s2, o2. auto.
    + destruct HL as [-> C]. destruct (ai_arb _ _ _ H s L HI) as [s' [o [E1 [G [E2 _]]]]]. rewrite E1.
      destruct (IH s' L true E2 C) as [s2 [o2 [E3 E4]]]. rewrite E3. exists s2, (o :: o2). split; [reflexivity|constructor; auto].
    + destruct (ai_upd _ _ _ H s L d HI) as [s' [E1 [E2 _]]]. rewrite E1.
      destruct (IH s' L d E2 HL) as [s2 [o2 [E3 E4]]]. rewrite E3. exists s2, o2. auto.
    + destruct (IH (a_clear a s) [] false (ai_clear _ _ _ H s L d HI) HL) as [s2 [o2 [E3 E4]]]. rewrite E3. exists s2, o2. auto.
Qed.

(** Base class. *)
Record base_inv (n : nat) (b : base) (L : list req) : Prop := {
  bi_size : b_size b = n;
  bi_num : b_num b = length L;
  bi_req : forall i id pri, b_req b i = Some (id, pri) <-> In (i, id, pri) L;
  bi_range : Forall (fun q => r_in q < n) L;
  bi_nodup : NoDup (map r_in L);
  bi_sel : L = [] -> b_sel b = None }.

Lemma in_inputs : forall L i, In i (map r_in L) <-> exists id pri, In (i, id, pri) L.
Proof.
  intros. rewrite in_map_iff. split.
  - intros [[[j id] p] [E H]]. cbn in E. subst. eauto.
  - intros [id [p H]]. exists (i, id, p). auto.
Qed.

Lemma base0_inv : forall n, base_inv n (base0 n) [].
Proof. intros. constructor; cbn; auto; try constructor; try discriminate; tauto. Qed.

Lemma NoDup_snoc : forall A (l : list A) x, NoDup l -> ~ In x l -> NoDup (l ++ [x]).
Proof.
  intros A l x H N. induction H as [|y l Hy Hl IH]; cbn; [constructor; [auto|constructor]|].
  constructor. - rewrite in_app_iff. cbn. intros [C|[C|[]]]; [auto|subst; apply N; left; auto].
  - apply IH. intro C. apply N. right. auto.
Qed.

Lemma base_add_inv : forall n b L i id pri, base_inv n b L -> i < n -> ~ In i (map r_in L) ->
  exists b', base_add i id pri b = Some b' /\ base_inv n b' (L ++ [(i, id, pri)]) /\ b_sel b' = b_sel b.
Proof.
  intros n b L i id pri [S N R G D Z] Hi Hn. unfold base_add. rewrite S. rewrite (proj2 (Nat.ltb_lt i n) Hi).
  destruct (b_req b i) as [[x y]|] eqn:E.
  - exfalso. apply Hn. apply in_inputs. exists x, y. apply R. auto.
  - eexists. split; [reflexivity|]. split; [|reflexivity]. constructor; cbn.
    + reflexivity.
    + rewrite app_length. cbn. lia.
    + intros j x y. unfold fupd. destruct (Nat.eqb_spec j i) as [->|Ne].
      * rewrite in_app_iff. cbn. split.
        -- intros X. injection X as -> ->. auto.
        -- intros [X|[X|[]]]; [|injection X as -> ->; auto]. apply R in X. congruence.
      * rewrite R, in_app_iff. cbn. split; [auto|]. intros [X|[X|[]]]; [auto|]. congruence.
    + apply Forall_app. split; auto.
    + rewrite map_app. apply NoDup_snoc; auto.
    + intros X. destruct L; discriminate.
Qed.

Lemma base_clear_inv : forall n b L, base_inv n b L -> base_inv n (base_clear b) [] /\ b_sel (base_clear b) = None.
Proof.
  intros n b L [S N R G D Z]. unfold base_clear. destruct L as [|q L].
  - rewrite N. cbn. split; [constructor; auto|auto].
  - rewrite N. cbn. split; [|reflexivity]. constructor; cbn; auto; try constructor; try discriminate; tauto.
Qed.

Lemma base_result_inv : forall n b L w, base_inv n b L -> In w L ->
  base_inv n (base_select (Some (r_in w)) b) L /\ base_result (base_select (Some (r_in w)) b) = Some (Some w).
Proof.
  intros n b L [[i id] p] [S N R G D Z] H. split.
  - constructor; cbn; auto. intros ->. inversion H.
  - unfold base_result. cbn. rewrite (proj2 (R i id p) H). reflexivity.
Qed.

Lemma base_none_inv : forall n b, base_inv n b [] -> base_inv n (base_select None b) [] /\ base_result (base_select None b) = Some None.
Proof.
  intros n b [S N R G D Z]. split; [constructor; cbn; auto|]. unfold base_result. cbn. rewrite N. reflexivity.
Qed.

Lemma nodup_unique : forall L a b, NoDup (map r_in L) -> In a L -> In b L -> r_in a = r_in b -> a = b.
Proof.
  induction L as [|x L IH]; intros a b D A B E; [inversion A|]. cbn in D. apply NoDup_cons_iff in D. destruct D as [D1 D2].
  destruct A as [->|A], B as [->|B]; auto.
  - exfalso. apply D1. rewrite E. apply in_map. auto.
  - exfalso. apply D1. rewrite <- E. apply in_map. auto.
Qed.

(** Round robin. *)
Definition rr_wins (n turn : nat) (L : list req) (w : req) : Prop :=
  In w L /\ (forall j, In j L -> (r_pri j < r_pri w)%Z \/ (r_pri j = r_pri w /\ ring_dist n turn (r_in w) <= ring_dist n turn (r_in j))).

Record rr_inv (n : nat) (s : rr) (L : list req) : Prop := {
  ri_base : base_inv n (r_base s) L;
  ri_best : match r_best s with None => L = [] | Some i => exists w, In w L /\ r_in w = i /\ r_pri w = r_high s /\ forall j, In j L -> (r_pri j <= r_pri w)%Z end }.

Lemma supersedes_spec : forall i1 p1 i2 p2 t n, i1 < n -> i2 < n -> t < n ->
  supersedes i1 p1 i2 p2 t n = true <-> (p2 < p1)%Z \/ (p1 = p2 /\ ring_dist n t i1 < ring_dist n t i2).
Proof.
  intros. unfold supersedes, ring_dist. rewrite orb_true_iff, andb_true_iff, Z.ltb_lt, Z.eqb_eq, Z.ltb_lt.
  assert (E : forall i, i < n -> ((Z.of_nat i - Z.of_nat t + Z.of_nat n) mod Z.of_nat n = Z.of_nat ((i + n - t) mod n))%Z).
  { intros i Hi. rewrite Nat2Z.inj_mod. f_equal. lia. }
  rewrite !E by auto. rewrite <- Nat2Z.inj_lt. tauto.
Qed.

Lemma supersedes_pri : forall i1 p1 i2 p2 t n, (supersedes i1 p1 i2 p2 t n = true -> (p2 <= p1)%Z) /\ (supersedes i1 p1 i2 p2 t n = false -> (p1 <= p2)%Z).
Proof.
  intros. unfold supersedes. destruct (Z.ltb_spec p2 p1); cbn; [split; intros; [lia|discriminate]|].
  destruct (Z.eqb_spec p1 p2); cbn; split; intros; try discriminate; lia.
Qed.

Lemma rr_add_inv : forall n s L i id pri, rr_inv n s L -> i < n -> ~ In i (map r_in L) ->
  exists s', rr_add i id pri s = Some s' /\ rr_inv n s' (L ++ [(i, id, pri)]) /\ r_ptr s' = r_ptr s.
Proof.
  intros n s L i id pri [B W] Hi Hn. unfold rr_add.
  destruct (base_add_inv n _ L i id pri B Hi Hn) as [b' [E [B' _]]]. rewrite E.
  assert (Fr : b_req (r_base s) i = None).
  { destruct (b_req (r_base s) i) as [[x y]|] eqn:X; auto. exfalso. apply Hn. apply in_inputs. exists x, y. apply (bi_req _ _ _ B). auto. }
  rewrite Fr, (bi_num _ _ _ B). eexists. split; [reflexivity|]. split; [|reflexivity]. split; [exact B'|]. cbn [r_best r_high].
  destruct L as [|q L].
  - cbn [length Nat.eqb orb andb app]. exists (i, id, pri). repeat split; cbn; auto. intros j [<-|[]]. cbn. lia.
  - cbn [length Nat.eqb orb andb]. destruct (r_best s) as [j|]; [|discriminate]. destruct W as [w [W1 [W2 [W3 W4]]]].
    destruct (supersedes_pri i pri j (r_high s) (r_ptr s) (b_size (r_base s))) as [P1 P2].
    destruct (supersedes i pri j (r_high s) (r_ptr s) (b_size (r_base s))).
    + exists (i, id, pri). specialize (P1 eq_refl). repeat split; auto.
      * apply in_app_iff. right. left. auto.
      * intros k K. apply in_app_iff in K. destruct K as [K|[<-|[]]]; [|lia]. apply W4 in K. change (r_pri (i, id, pri)) with pri. lia.
    + exists w. specialize (P2 eq_refl). split; [apply in_app_iff; auto|]. split; [auto|]. split; [auto|].
      intros k K. apply in_app_iff in K. destruct K as [K|[<-|[]]]; [auto|]. change (r_pri (i, id, pri)) with pri. lia.
Qed.

Lemma rr_arb_inv : forall n s L, rr_inv n s L -> exists s' o, rr_arb s = Some (s', o) /\ good L o /\ rr_inv n s' L /\ b_sel (r_base s') = option_map r_in o /\ r_ptr s' = r_ptr s /\ option_map r_in o = r_best s.
Proof.
  intros n s L [B W]. unfold rr_arb. destruct (r_best s) as [i|] eqn:E.
  - destruct W as [w [W1 [W2 [W3 W4]]]]. destruct (base_result_inv n _ L w B W1) as [X Y]. rewrite W2 in X, Y. rewrite Y.
    eexists _, _. split; [reflexivity|]. split; [split; auto|]. split; [|cbn; subst; auto]. split; [exact X|]. cbn. eauto.
  - subst. destruct (base_none_inv n _ B) as [X Y]. rewrite Y. eexists _, _. split; [reflexivity|]. split; [reflexivity|]. split; [|cbn; auto].
    split; [exact X|]. reflexivity.
Qed.

Lemma rr_upd_inv : forall n s L, rr_inv n s L -> exists s', rr_upd s = Some s' /\ rr_inv n s' L /\ b_sel (r_base s') = b_sel (r_base s).
Proof.
  intros n s L [B W]. unfold rr_upd. destruct (b_sel (r_base s)) eqn:E; eexists; split; try reflexivity; split; auto; split; auto.
Qed.

Lemma rr_clear_inv : forall n s L, rr_inv n s L -> rr_inv n (rr_clear s) [].
Proof. intros n s L [B W]. split; [apply (base_clear_inv n _ L B)|reflexivity]. Qed.

Lemma rr_ok : forall n, arb_ok n (round_robin n).
Proof.
  intros n. exists (fun s L _ => rr_inv n s L). constructor.
  - split; [apply base0_inv|reflexivity].
  - intros s L d i id pri H A B. destruct (rr_add_inv n s L i id pri H A B) as [s' [X [Y _]]]. exists s'. auto.
  - intros s L H. destruct (rr_arb_inv n s L H) as [s' [o [X [Y [Z [U _]]]]]]. exists s', o. auto.
  - intros s L d H. apply rr_upd_inv. auto.
  - intros s L d H. eapply rr_clear_inv. eauto.
  - intros s L d [B _]. apply (bi_num _ _ _ B).
  - auto.
Qed.

(** The exact winner, while the pointer does not move. *)
Record rr_turn (n t : nat) (s : rr) (L : list req) : Prop := {
  rt_inv : rr_inv n s L;
  rt_ptr : r_ptr s = t;
  rt_best : forall w, r_best s = Some (r_in w) -> In w L -> rr_wins n t L w }.

Lemma rr_add_turn : forall n t s L i id pri, t < n -> rr_turn n t s L -> i < n -> ~ In i (map r_in L) ->
  exists s', rr_add i id pri s = Some s' /\ rr_turn n t s' (L ++ [(i, id, pri)]).
Proof.
  intros n t s L i id pri Ht [H P W] Hi Hn. destruct (rr_add_inv n s L i id pri H Hi Hn) as [s' [E [H' P']]].
  exists s'. split; [auto|]. split; [auto|congruence|].
  unfold rr_add in E. destruct H as [B Wb].
  assert (Fr : b_req (r_base s) i = None).
  { destruct (b_req (r_base s) i) as [[x y]|] eqn:X; auto. exfalso. apply Hn. apply in_inputs. exists x, y. apply (bi_req _ _ _ B). auto. }
  rewrite Fr in E. destruct (base_add i id pri (r_base s)); [|discriminate]. injection E as E. subst s'. cbn [r_best] in *.
  rewrite (bi_num _ _ _ B), P, (bi_size _ _ _ B) in *. destruct L as [|q L].
  - cbn [length Nat.eqb orb andb app]. intros w _ [<-|[]]. split; [left; auto|]. intros j [<-|[]]. right. split; auto.
  - cbn [length Nat.eqb orb andb]. destruct (r_best s) as [j|] eqn:Ej; [|discriminate].
    destruct Wb as [wb [W1 [W2 [W3 W4]]]]. assert (Hj : j < n). { subst j. eapply (proj1 (Forall_forall _ _) (bi_range _ _ _ B)); eauto. }
    destruct (W wb) as [_ W5]; [congruence|auto|].
    destruct (supersedes i pri j (r_high s) t n) eqn:Es.
    + apply supersedes_spec in Es; auto. intros w Ew Iw.
      assert (w = (i, id, pri)).
      { apply in_app_iff in Iw. destruct Iw as [Iw|[<-|[]]]; [|auto]. exfalso. apply Hn. injection Ew as ->. apply in_map. auto. }
      subst w. split; [apply in_app_iff; right; left; auto|]. intros k K. apply in_app_iff in K. destruct K as [K|[<-|[]]]; [|right; split; auto].
      apply W5 in K. rewrite W2, W3 in K. change (r_pri (i, id, pri)) with pri. change (r_in (i, id, pri)) with i. lia.
    + assert (Es' : ~ ((r_high s < pri)%Z \/ (pri = r_high s /\ ring_dist n t i < ring_dist n t j))).
      { rewrite <- supersedes_spec by auto. congruence. }
      intros w Ew Iw. assert (w = wb).
      { injection Ew as Ew. apply in_app_iff in Iw. destruct Iw as [Iw|[<-|[]]].
        - eapply nodup_unique; eauto using bi_nodup. lia.
        - cbn in Ew. exfalso. apply Hn. rewrite <- Ew, <- W2. apply in_map. auto. }
      subst w. split; [auto|]. intros k K. apply in_app_iff in K. destruct K as [K|[<-|[]]]; [auto|].
      change (r_pri (i, id, pri)) with pri. change (r_in (i, id, pri)) with i. rewrite W2, W3. lia.
Qed.

Definition add_op (q : req) : aop := Add (fst (fst q)) (snd (fst q)) (snd q).

Lemma arun_app : forall a l1 l2 s, arun a (l1 ++ l2) s =
  match arun a l1 s with None => None | Some (s1, r1) => match arun a l2 s1 with None => None | Some (s2, r2) => Some (s2, r1 ++ r2) end end.
Proof.
  intros a l1 l2. induction l1 as [|o l1 IH]; intros s; cbn [arun app].
  - destruct (arun a l2 s) as [[? ?]|]; auto.
  - destruct (astep a o s) as [[s1 r1]|]; auto. rewrite IH. destruct (arun a l1 s1) as [[s2 r2]|]; auto.
    destruct (arun a l2 s2) as [[s3 r3]|]; auto. rewrite app_assoc. auto.
Qed.

Lemma rr_adds : forall n t A L s, t < n -> rr_turn n t s L -> NoDup (map r_in (L ++ A)) -> Forall (fun q => r_in q < n) A ->
  exists s', arun (round_robin n) (map add_op A) s = Some (s', []) /\ rr_turn n t s' (L ++ A).
Proof.
  intros n t. induction A as [|[[i id] pri] A IH]; intros L s Ht H D F.
  - rewrite app_nil_r. exists s. auto.
  - apply Forall_cons_iff in F. destruct F as [F1 F2].
    assert (Hn : ~ In i (map r_in L)).
    { rewrite map_app in D. apply NoDup_remove_2 in D. intro C. apply D. apply in_app_iff. auto. }
    destruct (rr_add_turn n t s L i id pri Ht H F1 Hn) as [s1 [E1 H1]].
    destruct (IH (L ++ [(i, id, pri)]) s1 Ht H1) as [s2 [E2 H2]]; [rewrite <- app_assoc; auto|auto|].
    exists s2. cbn [map arun astep add_op fst snd a_add round_robin]. rewrite E1.
    change (arun (round_robin n) (map add_op A) s1) with (arun (round_robin n) (map add_op A) s1) in E2. cbn [round_robin] in E2.
    fold (round_robin n). unfold round_robin in *. rewrite E2. rewrite <- app_assoc in H2. auto.
Qed.

Lemma ring_dist_lt : forall n t i, 0 < n -> ring_dist n t i < n.
Proof. intros. unfold ring_dist. apply Nat.mod_upper_bound. lia. Qed.

Lemma rr_round : forall n t r s, t < n -> rr_turn n t s [] -> round_ok n r ->
  exists s' o, arun (round_robin n) (round_ops r) s = Some (s', [o]) /\ good (rq r) o /\
    match o with
    | None => rr_turn n t s' []
    | Some w => rr_wins n t (rq r) w /\ rr_turn n (if used r then (r_in w + 1) mod n else t) s' []
    end.
Proof.
  intros n t r s Ht H [D F]. unfold round_ops. fold add_op. rewrite arun_app.
  destruct (rr_adds n t (rq r) [] s Ht H D F) as [s1 [E1 H1]]. cbn [app] in H1.
  change (map (fun q : nat * Z * Z => Add (fst (fst q)) (snd (fst q)) (snd q)) (rq r)) with (map add_op (rq r)). rewrite E1.
  destruct H1 as [I1 P1 W1]. destruct (rr_arb_inv n s1 (rq r) I1) as [s2 [o [E2 [G [I2 [S2 [P2 B2]]]]]]].
  assert (K : rr_turn n t (rr_clear s2) []).
  { split; [eapply rr_clear_inv; eauto| cbn; congruence|]. cbn. intros w X; discriminate. }
  destruct o as [w|].
  - assert (W : rr_wins n t (rq r) w) by (apply W1; [symmetry; exact B2|apply G]).
    cbn [app arun astep a_arb a_upd a_clear round_robin]. rewrite E2. destruct (used r).
    + cbn [app arun astep a_upd a_clear round_robin]. unfold rr_upd. rewrite S2. cbn [option_map]. rewrite (bi_size _ _ _ (ri_base _ _ _ I2)).
      eexists _, (Some w). split; [reflexivity|]. split; [auto|]. split; [auto|].
      split; [|reflexivity|intros x X; discriminate]. eapply rr_clear_inv with (L := rq r). destruct I2. split; auto.
    + cbn [app arun astep a_upd a_clear round_robin]. eexists _, (Some w). split; [reflexivity|]. split; auto.
  - cbn [app arun astep a_arb a_upd a_clear round_robin]. rewrite E2. destruct (used r).
    + cbn [app arun astep a_upd a_clear round_robin]. unfold rr_upd. rewrite S2. cbn [option_map]. eexists _, None. split; [reflexivity|]. split; auto.
    + cbn [app arun astep a_upd a_clear round_robin]. eexists _, None. split; [reflexivity|]. split; auto.
Qed.

Lemma rr_rounds : forall n l t s, t < n -> rr_turn n t s [] -> Forall (round_ok n) l ->
  exists s' outs, arun (round_robin n) (rounds_ops l) s = Some (s', outs) /\ rr_results n t l outs.
Proof.
  intros n. induction l as [|r l IH]; intros t s Ht H F.
  - exists s, []. split; auto. exact I.
  - apply Forall_cons_iff in F. destruct F as [F1 F2]. destruct (rr_round n t r s Ht H F1) as [s1 [o [E1 [G X]]]].
    unfold rounds_ops. cbn [flat_map]. rewrite arun_app, E1. destruct o as [w|].
    + destruct X as [W X]. destruct (IH (if used r then (r_in w + 1) mod n else t) s1) as [s2 [outs [E2 R]]]; [destruct (used r); auto; apply Nat.mod_upper_bound; lia|auto|auto|].
      unfold rounds_ops in E2. rewrite E2. exists s2, (Some w :: outs). split; [reflexivity|]. cbn [rr_results]. split; [auto|]. split; [|auto].
      intros j Hj Ej. destruct W as [_ W]. apply W in Hj. destruct Hj as [C|[_ C]]; [lia|auto].
    + destruct (IH t s1 Ht X F2) as [s2 [outs [E2 R]]]. unfold rounds_ops in E2. rewrite E2. exists s2, (None :: outs). split; [reflexivity|]. split; auto.
Qed.

Lemma rr0_turn : forall n, rr_turn n 0 (rr0 n) [].
Proof. intros. split; [split; [apply base0_inv|reflexivity]|reflexivity|intros w X; discriminate]. Qed.

Lemma ring_step : forall n t i j, t < n -> i < n -> j < n -> i <> j -> ring_dist n t j <= ring_dist n t i ->
  ring_dist n ((j + 1) mod n) i < ring_dist n t i.
Proof.
  intros n t i j Ht Hi Hj Ne L. unfold ring_dist in *.
  assert (A : forall x p, p < n -> x < n -> (x + n - p) mod n = if Nat.leb p x then x - p else x + n - p).
  { intros x p Hp Hx. destruct (Nat.leb_spec p x).
    - replace (x + n - p) with (x - p + 1 * n) by lia. rewrite Nat.mod_add by lia. apply Nat.mod_small. lia.
    - apply Nat.mod_small. lia. }
  rewrite A in L by auto. rewrite (A i t) by auto. rewrite (A i t) in L by auto.
  assert (B : (j + 1) mod n = if Nat.eqb (j + 1) n then 0 else j + 1).
  { destruct (Nat.eqb_spec (j + 1) n) as [->|]; [apply Nat.mod_same; lia|apply Nat.mod_small; lia]. }
  rewrite B. destruct (Nat.eqb_spec (j + 1) n).
  - rewrite A by lia. destruct (Nat.leb_spec t j), (Nat.leb_spec t i), (Nat.leb_spec 0 i); lia.
  - rewrite A by lia. destruct (Nat.leb_spec t j), (Nat.leb_spec t i), (Nat.leb_spec (j + 1) i); lia.
Qed.

(** A wanting input that is not granted. *)
Definition not_granted (i : nat) (o : option req) : Prop := option_map r_in o <> Some i.

Lemma wants_same : forall i r w, round_ok (S i) r \/ True -> wants i r -> In w (rq r) -> (forall j, In j (rq r) -> (r_pri j <= r_pri w)%Z) ->
  exists q, In q (rq r) /\ r_in q = i /\ r_pri q = r_pri w.
Proof.
  intros i r w _ [q [A [B C]]] Iw M. exists q. split; [auto|]. split; [auto|]. apply M in A. apply C in Iw. lia.
Qed.

Lemma rr_starve : forall n l t i outs, t < n -> i < n -> Forall (round_ok n) l -> Forall (wants i) l -> rr_results n t l outs ->
  Forall (not_granted i) outs -> length (filter used l) <= ring_dist n t i.
Proof.
  intros n. induction l as [|r l IH]; intros t i outs Ht Hi F W R N; [cbn; lia|].
  destruct outs as [|o outs]; [contradiction|]. apply Forall_cons_iff in F, W, N. destruct F as [F1 F2], W as [W1 W2], N as [N1 N2].
  cbn [rr_results] in R. destruct R as [G R]. destruct o as [w|].
  - destruct R as [M R]. destruct G as [G1 G2]. destruct (wants_same i r w (or_intror I) W1 G1 G2) as [q [Q1 [Q2 Q3]]].
    pose proof (M q Q1 Q3) as D. rewrite Q2 in D. assert (Hw : r_in w < n) by (eapply (proj1 (Forall_forall _ _) (proj2 F1)); eauto).
    assert (Ne : i <> r_in w) by (intro C; apply N1; cbn; congruence).
    cbn [filter]. destruct (used r).
    + apply IH with (i := i) in R; auto; [|apply Nat.mod_upper_bound; lia]. pose proof (ring_step n t i (r_in w) Ht Hi Hw Ne D). cbn [length]. lia.
    + apply IH with (i := i) in R; auto.
  - cbn in G. destruct W1 as [q [Q1 _]]. rewrite G in Q1. inversion Q1.
Qed.

(** Matrix. *)
Lemma before_irrefl : forall h i, ~ before h i i.
Proof. induction h as [|w h IH]; intros i H; cbn in H; [lia|]. destruct (Nat.eqb w i); [auto|]. eapply IH; eauto. Qed.

Lemma before_trans : forall h i j k, before h i j -> before h j k -> before h i k.
Proof.
  induction h as [|w h IH]; intros i j k A B; cbn in *; [lia|].
  destruct (Nat.eqb_spec w i); [contradiction|]. destruct (Nat.eqb_spec w j); [contradiction|].
  destruct (Nat.eqb_spec w k); [exact I|]. eapply IH; eauto.
Qed.

Lemma before_total : forall h i j, i <> j -> before h i j \/ before h j i.
Proof.
  induction h as [|w h IH]; intros i j N; cbn; [lia|].
  destruct (Nat.eqb_spec w i), (Nat.eqb_spec w j); subst; auto.
Qed.

Lemma before_asym : forall h i j, before h i j -> ~ before h j i.
Proof. intros h i j A B. eapply before_irrefl. eapply before_trans; eauto. Qed.

Definition mat_wins (h : list nat) (L : list req) (w : req) : Prop :=
  In w L /\ forall j, In j L -> j <> w -> (r_pri j < r_pri w)%Z \/ (r_pri j = r_pri w /\ before h (r_in w) (r_in j)).

Lemma mat_winner : forall h L, NoDup (map r_in L) -> L <> [] -> exists w, mat_wins h L w.
Proof.
  intros h. induction L as [|x L IH]; intros D N; [congruence|]. cbn in D. apply NoDup_cons_iff in D. destruct D as [D1 D2].
  destruct L as [|y L]. { exists x. split; [left; auto|]. intros j [->|[]] C; congruence. }
  destruct IH as [w [W1 W2]]; [auto|discriminate|].
  assert (Nx : r_in x <> r_in w). { intro C. apply D1. rewrite C. apply in_map. auto. }
  assert (Bt : ((r_pri x < r_pri w)%Z \/ (r_pri x = r_pri w /\ before h (r_in w) (r_in x))) \/ ((r_pri w < r_pri x)%Z \/ (r_pri w = r_pri x /\ before h (r_in x) (r_in w)))).
  { destruct (Z.lt_trichotomy (r_pri x) (r_pri w)) as [C|[C|C]]; auto. destruct (before_total h _ _ Nx); auto. }
  destruct Bt as [C|C].
  - exists w. split; [right; auto|]. intros j [<-|J] E; auto.
  - exists x. split; [left; auto|]. intros j [<-|J] E; [congruence|].
    assert (J' : j = w \/ j <> w) by (destruct (Nat.eq_dec (r_in j) (r_in w)) as [Q|Q]; [left; eapply nodup_unique; eauto|right; congruence]).
    destruct J' as [->|J']; [auto|]. apply W2 in J; auto.
    destruct C as [C|[C C']], J as [J|[J J'']]; try (left; lia). right. split; [lia|]. eapply before_trans; eauto.
Qed.

Record mat_inv (n : nat) (h : list nat) (s : mat) (L : list req) : Prop := {
  mi_base : base_inv n (m_base s) L;
  mi_ord : forall i j, m_mat s i j = true <-> before h i j;
  mi_last0 : L = [] -> m_last s = None;
  mi_last1 : forall q, L = [q] -> m_last s = Some (r_in q) }.

Lemma mat_add_inv : forall n h s L i id pri, mat_inv n h s L -> i < n -> ~ In i (map r_in L) ->
  exists s', mat_add i id pri s = Some s' /\ mat_inv n h s' (L ++ [(i, id, pri)]).
Proof.
  intros n h s L i id pri [B O L0 L1] Hi Hn. unfold mat_add. destruct (base_add_inv n _ L i id pri B Hi Hn) as [b' [E [B' _]]]. rewrite E.
  eexists. split; [reflexivity|]. constructor; cbn; auto.
  - intros X. destruct L; discriminate.
  - intros q X. destruct L as [|a [|? ?]]; cbn in X; try discriminate. injection X as <-. reflexivity.
Qed.

Lemma mat_blocks_false : forall n h s L w j, mat_inv n h s L -> In w L -> In j L -> mat_blocks s (r_in w) (r_pri w) (r_in j) = false <->
  (r_pri j < r_pri w)%Z \/ (r_pri j = r_pri w /\ ~ before h (r_in j) (r_in w)).
Proof.
  intros n h s L w [[j id] p] [B O _ _] W J. unfold mat_blocks. cbn [r_in fst snd]. rewrite (proj2 (bi_req _ _ _ B j id p) J).
  change (r_pri (j, id, p)) with p. rewrite orb_false_iff, andb_false_iff, Z.ltb_ge, Z.eqb_neq. rewrite <- O.
  destruct (m_mat s j (r_in w)).
  - split; [intros [[C|C] D]; [left; lia|discriminate]|]. intros [C|[C D]]; [split; [left; lia|lia]|congruence].
  - split; [|]; intros; [destruct (Z.eq_dec p (r_pri w)); [right; split; auto|left; lia]|split; [right; auto|lia]].
Qed.

Lemma mat_find : forall n h s L, mat_inv n h s L -> L <> [] -> exists w, find (mat_grants s) (seq 0 (b_size (m_base s))) = Some (r_in w) /\ mat_wins h L w.
Proof.
  intros n h s L H N. pose proof H as [B O _ _]. rewrite (bi_size _ _ _ B).
  assert (RG : forall q, In q L -> r_in q < n) by (apply Forall_forall; apply (bi_range _ _ _ B)).
  destruct (find (mat_grants s) (seq 0 n)) as [i|] eqn:E.
  - apply find_some in E. destruct E as [Ei G]. unfold mat_grants in G. destruct (b_req (m_base s) i) as [[id pri]|] eqn:Q; [|discriminate].
    apply (bi_req _ _ _ B) in Q. exists (i, id, pri). split; [reflexivity|]. split; [auto|]. intros j J Nj.
    apply negb_true_iff in G. assert (Gj : mat_blocks s (r_in (i, id, pri)) (r_pri (i, id, pri)) (r_in j) = false).
    { change (r_in (i, id, pri)) with i. change (r_pri (i, id, pri)) with pri. destruct (mat_blocks s i pri (r_in j)) eqn:X; auto.
      exfalso. assert (Y : existsb (mat_blocks s i pri) (seq 0 (b_size (m_base s))) = true); [|congruence].
      apply existsb_exists. exists (r_in j). split; [|auto]. apply in_seq. rewrite (bi_size _ _ _ B). pose proof (RG j J). lia. }
    apply (mat_blocks_false n h s L _ j H Q J) in Gj. destruct Gj as [Gj|[Gj Gk]]; [auto|]. right. split; [auto|].
    destruct (before_total h (r_in (i, id, pri)) (r_in j)); [|auto|contradiction]. intro C. apply Nj. symmetry. eapply nodup_unique; eauto using bi_nodup.
  - exfalso. destruct (mat_winner h L (bi_nodup _ _ _ B) N) as [w [W1 W2]].
    apply find_none with (x := r_in w) in E; [|apply in_seq; pose proof (RG w W1); lia].
    unfold mat_grants in E. destruct w as [[i id] pri]. cbn [r_in fst] in E. rewrite (proj2 (bi_req _ _ _ B i id pri) W1) in E.
    apply negb_false_iff in E. apply existsb_exists in E. destruct E as [j [J1 J2]]. unfold mat_blocks in J2.
    destruct (b_req (m_base s) j) as [[idj pj]|] eqn:Q; [|discriminate]. apply (bi_req _ _ _ B) in Q.
    assert (J3 : mat_blocks s (r_in (i, id, pri)) (r_pri (i, id, pri)) (r_in (j, idj, pj)) = false).
    { apply (mat_blocks_false n h s L _ _ H W1 Q).
      destruct (Nat.eq_dec j i) as [->|Nj].
      - assert (X : (i, idj, pj) = (i, id, pri)) by (eapply nodup_unique; eauto using bi_nodup). injection X as -> ->. right. split; auto. apply before_irrefl.
      - destruct (W2 _ Q) as [C|[C D]]; [congruence|auto|]. right. split; auto. apply before_asym. auto. }
    unfold mat_blocks in J3. cbn [r_in fst] in J3. rewrite (proj2 (bi_req _ _ _ B j idj pj) Q) in J3. change (r_pri (i, id, pri)) with pri in J3. congruence.
Qed.

Lemma mat_wins_good : forall h L w, mat_wins h L w -> good L (Some w).
Proof.
  intros h L w [A B]. split; auto. intros j J. destruct (Z_le_gt_dec (r_pri j) (r_pri w)); auto. destruct (B j J) as [C|[C _]]; [|lia|lia].
  intros ->. lia.
Qed.

Lemma mat_arb_inv : forall n h s L, mat_inv n h s L -> exists s' o, mat_arb s = Some (s', o) /\ mat_inv n h s' L /\ b_sel (m_base s') = option_map r_in o /\
  match o with None => L = [] | Some w => mat_wins h L w end.
Proof.
  intros n h s L H. pose proof H as [B O L0 L1]. unfold mat_arb.
  assert (K : exists o, (if Nat.ltb (b_num (m_base s)) 2 then m_last s else find (mat_grants s) (seq 0 (b_size (m_base s)))) = option_map r_in o /\
    match o with None => L = [] | Some w => mat_wins h L w end).
  { rewrite (bi_num _ _ _ B). destruct L as [|q [|q2 L]].
    - exists None. cbn. auto.
    - exists (Some q). cbn. split; [auto|]. split; [left; auto|]. intros j [->|[]] C. congruence.
    - destruct (mat_find n h s _ H) as [w [E W]]; [discriminate|]. exists (Some w). cbn [length Nat.ltb Nat.leb]. auto. }
  destruct K as [o [-> Ko]]. destruct o as [w|]; cbn [option_map].
  - destruct (base_result_inv n _ L w B (proj1 Ko)) as [X Y]. rewrite Y. eexists _, (Some w). split; [reflexivity|]. split; [|cbn; auto]. constructor; auto.
  - subst. destruct (base_none_inv n _ B) as [X Y]. rewrite Y. eexists _, None. split; [reflexivity|]. split; [|cbn; auto]. constructor; auto.
Qed.

Lemma mat_upd_inv : forall n h s L, mat_inv n h s L -> exists s', mat_upd s = Some s' /\
  mat_inv n (match b_sel (m_base s) with None => h | Some w => w :: h end) s' L /\ b_sel (m_base s') = b_sel (m_base s).
Proof.
  intros n h s L [B O L0 L1]. unfold mat_upd. destruct (b_sel (m_base s)) as [w|] eqn:E; eexists; (split; [reflexivity|]); (split; [|auto]); constructor; auto.
  cbn [m_mat before]. intros i j. destruct (Nat.eqb_spec i j) as [<-|N].
  - split; intros X; exfalso.
    + apply O in X. eapply before_irrefl; eauto.
    + destruct (Nat.eqb w i); [auto|]. eapply before_irrefl; eauto.
  - rewrite (Nat.eqb_sym i w), (Nat.eqb_sym j w). destruct (Nat.eqb w i); [split; [discriminate|contradiction]|].
    destruct (Nat.eqb w j); [tauto|]. apply O.
Qed.

Lemma mat_clear_inv : forall n h s L, mat_inv n h s L -> mat_inv n h (mat_clear s) [].
Proof.
  intros n h s L [B O L0 L1]. constructor; cbn; auto; [apply (base_clear_inv n _ L B)|]. intros q X. discriminate.
Qed.

Lemma mat0_inv : forall n, mat_inv n [] (mat0 n) [].
Proof. intros n. constructor; cbn; auto; [apply base0_inv| |intros; discriminate]. intros i j. apply Nat.ltb_lt. Qed.

Lemma mat_ok : forall n, arb_ok n (matrix n).
Proof.
  intros n. exists (fun s L _ => exists h, mat_inv n h s L). constructor.
  - exists []. apply mat0_inv.
  - intros s L d i id pri [h H] A B. destruct (mat_add_inv n h s L i id pri H A B) as [s' [X Y]]. exists s'. eauto.
  - intros s L [h H]. destruct (mat_arb_inv n h s L H) as [s' [o [X [Y [Z U]]]]]. exists s', o. split; [auto|]. split; [|eauto].
    destruct o; [eapply mat_wins_good; eauto|auto].
  - intros s L d [h H]. destruct (mat_upd_inv n h s L H) as [s' [X [Y Z]]]. exists s'. eauto.
  - intros s L d [h H]. exists h. eapply mat_clear_inv. eauto.
  - intros s L d [h H]. destruct H as [B]. apply (bi_num _ _ _ B).
  - auto.
Qed.

Lemma mat_adds : forall n h A L s, mat_inv n h s L -> NoDup (map r_in (L ++ A)) -> Forall (fun q => r_in q < n) A ->
  exists s', arun (matrix n) (map add_op A) s = Some (s', []) /\ mat_inv n h s' (L ++ A).
Proof.
  intros n h. induction A as [|[[i id] pri] A IH]; intros L s H D F.
  - rewrite app_nil_r. exists s. auto.
  - apply Forall_cons_iff in F. destruct F as [F1 F2].
    assert (Hn : ~ In i (map r_in L)).
    { rewrite map_app in D. apply NoDup_remove_2 in D. intro C. apply D. apply in_app_iff. auto. }
    destruct (mat_add_inv n h s L i id pri H F1 Hn) as [s1 [E1 H1]].
    destruct (IH (L ++ [(i, id, pri)]) s1 H1) as [s2 [E2 H2]]; [rewrite <- app_assoc; auto|auto|].
    exists s2. cbn [map arun astep add_op fst snd a_add matrix]. rewrite E1. unfold matrix in *. rewrite E2. rewrite <- app_assoc in H2. auto.
Qed.

Lemma mat_round : forall n h r s, mat_inv n h s [] -> round_ok n r ->
  exists s' o, arun (matrix n) (round_ops r) s = Some (s', [o]) /\ good (rq r) o /\
    match o with
    | None => mat_inv n h s' []
    | Some w => mat_wins h (rq r) w /\ mat_inv n (if used r then r_in w :: h else h) s' []
    end.
Proof.
  intros n h r s H [D F]. unfold round_ops. rewrite arun_app.
  destruct (mat_adds n h (rq r) [] s H D F) as [s1 [E1 H1]]. cbn [app] in H1.
  change (map (fun q : nat * Z * Z => Add (fst (fst q)) (snd (fst q)) (snd q)) (rq r)) with (map add_op (rq r)). rewrite E1.
  destruct (mat_arb_inv n h s1 (rq r) H1) as [s2 [o [E2 [I2 [S2 W]]]]].
  destruct (mat_upd_inv n h s2 (rq r) I2) as [s3 [E3 [I3 _]]]. rewrite S2 in I3.
  cbn [app arun astep a_arb a_upd a_clear matrix]. rewrite E2.
  destruct (used r); cbn [app arun astep a_arb a_upd a_clear matrix]; [rewrite E3|]; eexists _, o; (split; [reflexivity|]); destruct o as [w|];
    cbn [option_map] in I3; (split; [try (eapply mat_wins_good; eauto); auto|]); try (split; [auto|]); try (eapply mat_clear_inv; eauto).
Qed.

Lemma mat_rounds : forall n l h s, mat_inv n h s [] -> Forall (round_ok n) l ->
  exists s' outs, arun (matrix n) (rounds_ops l) s = Some (s', outs) /\ lrg_results h l outs.
Proof.
  intros n. induction l as [|r l IH]; intros h s H F.
  - exists s, []. split; auto. exact I.
  - apply Forall_cons_iff in F. destruct F as [F1 F2]. destruct (mat_round n h r s H F1) as [s1 [o [E1 [G X]]]].
    unfold rounds_ops. cbn [flat_map]. rewrite arun_app, E1. destruct o as [w|].
    + destruct X as [W X]. destruct (IH _ s1 X F2) as [s2 [outs [E2 R]]].
      unfold rounds_ops in E2. rewrite E2. exists s2, (Some w :: outs). split; [reflexivity|]. cbn [lrg_results]. split; [auto|]. split; [|auto].
      intros j Hj Ej Nj. destruct W as [_ W]. apply W in Hj; auto. destruct Hj as [C|[_ C]]; [lia|auto].
    + destruct (IH h s1 X F2) as [s2 [outs [E2 R]]]. unfold rounds_ops in E2. rewrite E2. exists s2, (None :: outs). split; [reflexivity|]. split; auto.
Qed.

(** The inputs that still come before [i]. *)
Lemma lrg_starve : forall n l h i outs, i < n -> Forall (round_ok n) l -> Forall (wants i) l -> lrg_results h l outs ->
  Forall (not_granted i) outs -> exists ws, length ws = length (filter used l) /\ NoDup ws /\ Forall (fun w => w < n /\ before h w i) ws.
Proof.
  intros n. induction l as [|r l IH]; intros h i outs Hi F W R N.
  - exists []. repeat constructor.
  - destruct outs as [|o outs]; [contradiction|]. apply Forall_cons_iff in F, W, N. destruct F as [F1 F2], W as [W1 W2], N as [N1 N2].
    cbn [lrg_results] in R. destruct R as [G R]. destruct o as [w|].
    + destruct R as [M R]. destruct G as [G1 G2]. destruct (wants_same i r w (or_intror I) W1 G1 G2) as [q [Q1 [Q2 Q3]]].
      assert (Nq : q <> w) by (intros ->; apply N1; cbn; congruence).
      pose proof (M q Q1 Q3 Nq) as Bf. rewrite Q2 in Bf. assert (Hw : r_in w < n) by (eapply (proj1 (Forall_forall _ _) (proj2 F1)); eauto).
      cbn [filter]. destruct (used r).
      * destruct (IH _ i outs Hi F2 W2 R N2) as [ws [A [B C]]]. exists (r_in w :: ws). split; [cbn; auto|]. rewrite Forall_forall in C.
        assert (K : forall x, In x ws -> x < n /\ before h x i /\ x <> r_in w).
        { intros x X. apply C in X. destruct X as [X1 X2]. cbn in X2. destruct (Nat.eqb_spec (r_in w) x); [contradiction|].
          destruct (Nat.eqb_spec (r_in w) i) as [E|E]; [|auto]. exfalso. apply N1. cbn. congruence. }
        split.
        -- constructor; auto. intro X. apply K in X. tauto.
        -- constructor; auto. apply Forall_forall. intros x X. apply K in X. tauto.
      * destruct (IH _ i outs Hi F2 W2 R N2) as [ws X]. eauto.
    + cbn in G. destruct W1 as [q [Q1 _]]. rewrite G in Q1. inversion Q1.
Qed.

Lemma lrg_starve_bound : forall n l h i outs, i < n -> Forall (round_ok n) l -> Forall (wants i) l -> lrg_results h l outs ->
  Forall (not_granted i) outs -> length (filter used l) < n.
Proof.
  intros n l h i outs Hi F W R N. destruct (lrg_starve n l h i outs Hi F W R N) as [ws [A [B C]]]. rewrite <- A.
  rewrite Forall_forall in C. assert (D : NoDup (i :: ws)).
  { constructor; auto. intro X. apply C in X. eapply before_irrefl. apply X. }
  assert (E : incl (i :: ws) (seq 0 n)).
  { intros x [<-|X]; apply in_seq; [lia|]. apply C in X. lia. }
  pose proof (NoDup_incl_length D E) as X. rewrite seq_length in X. cbn in X. lia.
Qed.

(** Histories split. *)
Lemma rr_results_app : forall n a b t outs, t < n -> rr_results n t (a ++ b) outs ->
  exists o1 o2 t', outs = o1 ++ o2 /\ length o1 = length a /\ t' < n /\ rr_results n t' b o2.
Proof.
  intros n. induction a as [|r a IH]; intros b t outs Ht R.
  - exists [], outs, t. auto.
  - destruct outs as [|o outs]; [contradiction|]. cbn [rr_results app] in R. destruct R as [G R].
    assert (K : exists t1, t1 < n /\ rr_results n t1 (a ++ b) outs).
    { destruct o as [w|]; [|eauto]. destruct R as [_ R]. eexists. split; [|exact R]. destruct (used r); auto. apply Nat.mod_upper_bound. lia. }
    destruct K as [t1 [K1 K2]]. destruct (IH b t1 outs K1 K2) as [o1 [o2 [t' [-> [B [C D]]]]]].
    exists (o :: o1), o2, t'. cbn. auto.
Qed.

Lemma lrg_results_app : forall a b h outs, lrg_results h (a ++ b) outs ->
  exists o1 o2 h', outs = o1 ++ o2 /\ length o1 = length a /\ lrg_results h' b o2.
Proof.
  induction a as [|r a IH]; intros b h outs R.
  - exists [], outs, h. auto.
  - destruct outs as [|o outs]; [contradiction|]. cbn [lrg_results app] in R. destruct R as [G R].
    assert (K : exists h1, lrg_results h1 (a ++ b) outs).
    { destruct o as [w|]; [|eauto]. destruct R as [_ R]. eauto. }
    destruct K as [h1 K]. destruct (IH b h1 outs K) as [o1 [o2 [h' [-> [B C]]]]]. exists (o :: o1), o2, h'. cbn. auto.
Qed.

(** Tree. *)
Definition sub_reqs (gs g : nat) (L : list req) : list req :=
  map (fun q => (r_in q mod gs, snd (fst q), snd q)) (filter (fun q => Nat.eqb (r_in q / gs) g) L).

Lemma sub_reqs_in : forall gs g L j id p, In (j, id, p) (sub_reqs gs g L) <-> exists i, In (i, id, p) L /\ i / gs = g /\ i mod gs = j.
Proof.
  intros. unfold sub_reqs. rewrite in_map_iff. split.
  - intros [[[i id'] p'] [E H]]. apply filter_In in H. destruct H as [H1 H2]. apply Nat.eqb_eq in H2. cbn in *. injection E as E1 E2 E3. subst. eauto.
  - intros [i [H [E1 E2]]]. exists (i, id, p). split; [cbn; rewrite E2; auto|]. apply filter_In. split; auto. apply Nat.eqb_eq. auto.
Qed.

Lemma sub_reqs_snoc : forall gs g L i id p, sub_reqs gs g (L ++ [(i, id, p)]) = if Nat.eqb (i / gs) g then sub_reqs gs g L ++ [(i mod gs, id, p)] else sub_reqs gs g L.
Proof.
  intros. unfold sub_reqs. rewrite filter_app, map_app. cbn [filter r_in fst]. destruct (Nat.eqb (i / gs) g); cbn; [auto|rewrite app_nil_r; auto].
Qed.

Lemma sub_reqs_fresh : forall gs L i, 0 < gs -> ~ In i (map r_in L) -> ~ In (i mod gs) (map r_in (sub_reqs gs (i / gs) L)).
Proof.
  intros gs L i Hg N C. apply in_inputs in C. destruct C as [id [p C]]. apply sub_reqs_in in C. destruct C as [j [C [C1 C2]]].
  apply N. assert (j = i) as <-; [|apply in_inputs; eauto]. rewrite (Nat.div_mod j gs), (Nat.div_mod i gs) by lia. congruence.
Qed.

Section Tree.
Variables (n groups gs : nat) (sub glob : arbiter).
Variables (I : ast sub -> list req -> bool -> Prop) (J : ast glob -> list req -> bool -> Prop).
Hypothesis HI : arb_inv gs sub I.
Hypothesis HJ : arb_inv groups glob J.
Hypothesis Hn : n = groups * gs.

Record tree_inv (s : tree sub glob) (L : list req) (d : bool) : Prop := {
  ti_base : base_inv n (t_base s) L;
  ti_gsize : t_gsize s = gs;
  ti_groups : t_groups s = groups;
  ti_group : forall g, g < groups -> exists dg, I (t_group s g) (sub_reqs gs g L) dg /\ (d = false \/ L = [] -> dg = false);
  ti_reqs : forall g, t_reqs s g = length (sub_reqs gs g L);
  ti_global : exists Lg dg, J (t_global s) Lg dg /\ (d = false \/ L = [] -> Lg = [] /\ dg = false);
  ti_sel : b_sel (t_base s) <> None -> exists g, a_last glob (t_global s) = Some g /\ g < groups }.

Lemma gs_pos : forall i, i < n -> 0 < gs /\ i / gs < groups /\ i mod gs < gs.
Proof.
  intros i H. assert (0 < gs) by (destruct gs; lia). split; [auto|]. split; [apply Nat.div_lt_upper_bound; lia|apply Nat.mod_upper_bound; lia].
Qed.

Lemma tree_add_inv : forall s L d i id pri, tree_inv s L d -> i < n -> ~ In i (map r_in L) ->
  exists s', tree_add i id pri s = Some s' /\ tree_inv s' (L ++ [(i, id, pri)]) d.
Proof.
  intros s L d i id pri [B GS GN G R [Lg [dg [K1 K2]]] S] Hi Hf. unfold tree_add. destruct (gs_pos i Hi) as [P1 [P2 P3]].
  destruct (base_add_inv n _ L i id pri B Hi Hf) as [b [E [B' Sb]]]. rewrite E, GS.
  destruct (G (i / gs) P2) as [dg' [G1 G2]].
  destruct (ai_add _ _ _ HI _ _ _ (i mod gs) id pri G1 P3 (sub_reqs_fresh gs L i P1 Hf)) as [x [E2 G3]]. rewrite E2.
  eexists. split; [reflexivity|]. constructor; cbn; auto.
  - intros g Hg. unfold fupd. rewrite sub_reqs_snoc. rewrite (Nat.eqb_sym (i / gs) g). destruct (Nat.eqb_spec g (i / gs)) as [->|N].
    + exists dg'. split; [auto|]. intros [X|X]; [auto|destruct L; discriminate].
    + destruct (G g Hg) as [d2 [Y1 Y2]]. exists d2. split; auto. intros [X|X]; [auto|destruct L; discriminate].
  - intros g. unfold fupd. rewrite sub_reqs_snoc. rewrite (Nat.eqb_sym (i / gs) g). destruct (Nat.eqb_spec g (i / gs)) as [->|N]; [rewrite app_length, R; cbn; lia|auto].
  - exists Lg, dg. split; auto. intros [X|X]; [auto|destruct L; discriminate].
  - rewrite Sb. auto.
Qed.

Lemma tree_collect_inv : forall L reqs gl group global Lg, NoDup gl -> (forall g, In g gl -> g < groups) ->
  (forall g, reqs g = length (sub_reqs gs g L)) ->
  (forall g, In g gl -> I (group g) (sub_reqs gs g L) false) -> J global Lg false -> (forall g, In g gl -> ~ In g (map r_in Lg)) ->
  exists group' global' Lw, tree_collect gl reqs group global = Some (group', global') /\ J global' (Lg ++ Lw) false /\
    (forall g, ~ In g gl -> group' g = group g) /\
    (forall q, In q Lw -> In (r_in q) gl /\ exists w, good (sub_reqs gs (r_in q) L) (Some w) /\ a_last sub (group' (r_in q)) = Some (r_in w) /\ snd (fst q) = snd (fst w) /\ snd q = snd w) /\
    (forall g, In g gl -> (sub_reqs gs g L = [] /\ group' g = group g) \/
       exists w, good (sub_reqs gs g L) (Some w) /\ I (group' g) (sub_reqs gs g L) true /\ a_last sub (group' g) = Some (r_in w) /\
         In (g, snd (fst w), snd w) Lw).
Proof.
  intros L reqs. induction gl as [|g gl IH]; intros group global Lg D Hr Rq HG HJ0 HF.
  - exists group, global, []. cbn. rewrite app_nil_r. repeat split; auto; contradiction.
  - apply NoDup_cons_iff in D. destruct D as [D1 D2]. cbn [tree_collect].
    destruct (sub_reqs gs g L) as [|q0 Ls] eqn:Es.
    + rewrite Rq, Es. cbn [length Nat.eqb].
      destruct (IH group global Lg D2 (fun x X => Hr x (or_intror X)) Rq (fun x X => HG x (or_intror X)) HJ0 (fun x X => HF x (or_intror X))) as [gr [gl' [Lw [A [B [C [E F]]]]]]].
      exists gr, gl', Lw. split; [auto|]. split; [auto|]. split; [intros x X; apply C; intro Y; apply X; right; auto|]. split; [intros q X; destruct (E q X) as [X1 X2]; split; [right; auto|auto]|].
      intros x [<-|X]; [|auto]. left. rewrite C by auto. auto.
    + rewrite Rq, Es. cbn [length Nat.eqb].
      destruct (ai_arb _ _ _ HI (group g) (sub_reqs gs g L) (HG g (or_introl eq_refl))) as [x [o [E1 [G1 [I1 L1]]]]]. rewrite E1.
      destruct o as [w|]; [|cbn in G1; congruence]. destruct w as [[j id] p].
      destruct (ai_add _ _ _ HJ global Lg false g id p HJ0 (Hr g (or_introl eq_refl)) (HF g (or_introl eq_refl))) as [y [E2 J2]]. rewrite E2.
      destruct (IH (fupd group g x) y (Lg ++ [(g, id, p)]) D2 (fun x X => Hr x (or_intror X)) Rq) as [gr [gl' [Lw [A [B [C [E F]]]]]]].
      * intros k K. rewrite fupd_other; [apply HG; right; auto|]. intros ->. auto.
      * auto.
      * intros k K X. rewrite map_app in X. apply in_app_iff in X. destruct X as [X|[X|[]]]; [eapply HF; [right; eauto|auto]|]. cbn in X. subst. auto.
      * exists gr, gl', ((g, id, p) :: Lw). split; [auto|]. split; [rewrite <- app_assoc in B; auto|]. split.
        { intros k K. rewrite C; [|intro X; apply K; right; auto]. apply fupd_other. intros ->. apply K. left. auto. }
        split.
        { intros q [<-|X]; [|destruct (E q X) as [X1 X2]; split; [right; auto|auto]]. split; [left; auto|]. exists (j, id, p).
          cbn [r_in fst snd]. rewrite C by auto. rewrite fupd_same. auto. }
        intros k [<-|K].
        -- right. exists (j, id, p). split; [auto|]. rewrite C by auto. rewrite fupd_same. split; [auto|]. split; [auto|]. left. auto.
        -- destruct (F k K) as [[F1 F2]|[w [F1 [F2 [F3 F4]]]]].
           ++ left. split; auto. rewrite F2. apply fupd_other. intros ->. auto.
           ++ right. exists w. split; [auto|]. split; [auto|]. split; [auto|right; auto].
Qed.

Lemma tree_arb_inv : forall s L, tree_inv s L false -> exists s' o, tree_arb s = Some (s', o) /\ good L o /\ tree_inv s' L true /\ b_sel (t_base s') = option_map r_in o.
Proof.
  intros s L H. pose proof H as [B GS GN G R [Lg [dg [K1 K2]]] S]. unfold tree_arb. rewrite (bi_num _ _ _ B). destruct L as [|q0 L0].
  - cbn [length Nat.eqb]. exists s, None. split; [auto|]. split; [reflexivity|]. split; [|cbn; apply (bi_sel _ _ _ B); auto].
    constructor; auto. + intros g Hg. destruct (G g Hg) as [d1 [X Y]]. exists d1. split; auto. + exists Lg, dg. split; auto.
  - set (L := q0 :: L0) in *. cbn [length Nat.eqb L]. destruct (K2 (or_introl eq_refl)) as [-> ->]. rewrite GN.
    assert (HG : forall g, In g (seq 0 groups) -> I (t_group s g) (sub_reqs gs g L) false).
    { intros g Hg. apply in_seq in Hg. destruct (G g) as [d1 [X Y]]; [lia|]. rewrite (Y (or_introl eq_refl)) in X. auto. }
    destruct (tree_collect_inv L (t_reqs s) (seq 0 groups) (t_group s) (t_global s) [] (seq_NoDup _ _)) as [gr [gl [Lw [E [Jw [C [Ew F]]]]]]]; auto.
    { intros g X. apply in_seq in X. lia. }
    rewrite E. cbn [app] in Jw. destruct (ai_arb _ _ _ HJ gl Lw Jw) as [gl' [o [E1 [Go [J1 L1]]]]]. rewrite E1.
    assert (FL : forall q, In q L -> exists w, good (sub_reqs gs (r_in q / gs) L) (Some w) /\ a_last sub (gr (r_in q / gs)) = Some (r_in w) /\ In (r_in q / gs, snd (fst w), snd w) Lw /\ (r_pri q <= r_pri w)%Z).
    { intros [[i id] p] Q. assert (Hi : i < n) by (apply (proj1 (Forall_forall _ _) (bi_range _ _ _ B) _ Q)). destruct (gs_pos i Hi) as [P1 [P2 P3]].
      assert (Q' : In (i mod gs, id, p) (sub_reqs gs (i / gs) L)) by (apply sub_reqs_in; eauto).
      change (r_in (i, id, p)) with i. destruct (F (i / gs)) as [[F1 _]|[w [F1 [F2 [F3 F4]]]]]; [apply in_seq; lia|rewrite F1 in Q'; inversion Q'|].
      exists w. split; [auto|]. split; [auto|]. split; [auto|]. destruct F1 as [_ F1]. apply F1 in Q'. exact Q'. }
    destruct o as [[[g id] p]|].
    2:{ exfalso. cbn in Go. destruct (FL q0) as [w [_ [_ [X _]]]]; [left; auto|]. rewrite Go in X. inversion X. }
    destruct Go as [Go1 Go2]. destruct (Ew _ Go1) as [Hg [w [Gw [Lw1 [Q1 Q2]]]]]. cbn [r_in fst snd] in *. apply in_seq in Hg.
    rewrite (proj2 (Nat.ltb_lt g groups)) by lia. rewrite Lw1.
    destruct w as [[j idw] pw]. cbn [r_in fst snd] in *. subst idw pw. destruct Gw as [Gw1 Gw2].
    apply sub_reqs_in in Gw1. destruct Gw1 as [i [Iq [D1 D2]]].
    assert (Hi : i < n) by (apply (proj1 (Forall_forall _ _) (bi_range _ _ _ B) _ Iq)). destruct (gs_pos i Hi) as [P1 [P2 P3]].
    assert (Ei : g * gs + j = i) by (rewrite <- D1, <- D2; rewrite (Nat.div_mod i gs) at 3 by lia; lia).
    rewrite GS, Ei, (bi_size _ _ _ B). rewrite (proj2 (Nat.ltb_lt j gs)) by (rewrite <- D2; auto). rewrite (proj2 (Nat.ltb_lt i n)) by auto. cbn [andb].
    destruct (base_result_inv n _ L (i, id, p) B Iq) as [X Y]. change (r_in (i, id, p)) with i in X, Y. rewrite Y.
    eexists _, _. split; [reflexivity|]. split.
    { split; [auto|]. intros q Q. destruct (FL q Q) as [w [_ [_ [W1 W2]]]]. apply Go2 in W1. unfold r_pri in *. cbn [snd] in *. lia. }
    split; [|reflexivity]. constructor; cbn; auto.
    + intros k Hk. destruct (F k) as [[F1 F2]|[w [F1 [F2 [F3 F4]]]]]; [apply in_seq; lia| |].
      * exists false. rewrite F2. split; [apply HG; apply in_seq; lia|auto].
      * exists true. split; [auto|]. intros [Z|Z]; discriminate.
    + exists Lw, true. split; [auto|]. intros [Z|Z]; discriminate.
    + intros _. exists g. split; [auto|lia].
Qed.

Lemma tree_upd_inv : forall s L d, tree_inv s L d -> exists s', tree_upd s = Some s' /\ tree_inv s' L d /\ b_sel (t_base s') = b_sel (t_base s).
Proof.
  intros s L d H. pose proof H as [B GS GN G R [Lg [dg [K1 K2]]] S]. unfold tree_upd. destruct (b_sel (t_base s)) as [w|] eqn:E; [|exists s; auto].
  destruct (S ltac:(discriminate)) as [g [A1 A2]]. rewrite A1, GN, (proj2 (Nat.ltb_lt g groups) A2).
  destruct (G g A2) as [d1 [G1 G2]]. destruct (ai_upd _ _ _ HI _ _ _ G1) as [x [E1 [I1 L1]]]. destruct (ai_upd _ _ _ HJ _ _ _ K1) as [y [E2 [J1 L2]]].
  rewrite E1, E2. eexists. split; [reflexivity|]. split; [|auto]. constructor; cbn; auto.
  - intros k Hk. unfold fupd. destruct (Nat.eqb_spec k g) as [->|N]; [exists d1; auto|auto].
  - exists Lg, dg. auto.
  - intros _. exists g. rewrite L2. auto.
Qed.

Lemma tree_clear_inv : forall s L d, tree_inv s L d -> tree_inv (tree_clear s) [] false.
Proof.
  intros s L d H. pose proof H as [B GS GN G R [Lg [dg [K1 K2]]] S]. unfold tree_clear. rewrite (bi_num _ _ _ B). destruct L as [|q0 L0].
  - cbn [length Nat.eqb]. constructor; auto.
    + intros g Hg. destruct (G g Hg) as [d1 [X Y]]. exists d1. auto.
    + exists Lg, dg. auto.
  - cbn [length Nat.eqb]. destruct (base_clear_inv n _ _ B) as [B1 B2]. constructor; cbn; auto.
    + intros g Hg. destruct (G g Hg) as [d1 [X Y]]. exists false. split; [apply (ai_clear _ _ _ HI _ _ _ X)|auto].
    + exists [], false. split; [apply (ai_clear _ _ _ HJ _ _ _ K1)|auto].
    + rewrite B2. congruence.
Qed.

Lemma tree_ok_sec : 0 < groups -> arb_ok n (tree_arbiter sub glob n groups).
Proof.
  intros Pg. exists tree_inv. constructor.
  - constructor; cbn; auto.
    + apply base0_inv.
    + rewrite Hn, Nat.mul_comm. apply Nat.div_mul. lia.
    + intros g Hg. exists false. split; [apply (ai_init _ _ _ HI)|auto].
    + exists [], false. split; [apply (ai_init _ _ _ HJ)|auto].
    + congruence.
  - exact tree_add_inv.
  - exact tree_arb_inv.
  - exact tree_upd_inv.
  - exact tree_clear_inv.
  - intros s L d H. apply (bi_num _ _ _ (ti_base _ _ _ H)).
  - intros s d [B G1 G2 G R K S]. constructor; auto.
    + intros g Hg. destruct (G g Hg) as [dg [X Y]]. exists dg. auto.
    + destruct K as [Lg [dg [X Y]]]. exists Lg, dg. auto.
Qed.
End Tree.

Lemma new_arbiter_ok : forall k n a, new_arbiter k n = Some a -> arb_ok n a.
Proof.
  induction k as [| |g k IH]; intros n a E; cbn [new_arbiter] in E.
  - injection E as <-. apply rr_ok.
  - injection E as <-. apply mat_ok.
  - destruct (Nat.eqb_spec g 0); [discriminate|]. destruct (Nat.eqb_spec (n mod g) 0) as [Hm|]; [|discriminate].
    destruct (new_arbiter k (n / g)) as [x|] eqn:E1; [|discriminate]. destruct (new_arbiter k g) as [y|] eqn:E2; [|discriminate].
    injection E as <-. destruct (IH _ _ E1) as [I HI]. destruct (IH _ _ E2) as [J HJ].
    eapply tree_ok_sec; eauto; [|lia]. rewrite (Nat.div_mod n g) at 1 by lia. lia.
Qed.

Lemma new_arbiter_runs : forall k n a l, new_arbiter k n = Some a -> legal n [] false l ->
  exists s outs, arun a l (a_init a) = Some (s, outs) /\ Forall2 good (asked [] l) outs.
Proof.
  intros k n a l E H. destruct (new_arbiter_ok k n a E) as [I HI]. eapply arun_ok; eauto. apply (ai_init _ _ _ HI).
Qed.
