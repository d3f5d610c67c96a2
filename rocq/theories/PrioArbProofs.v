(** The priority arbiter: what it grants. *)
From Coq Require Import ZArith Arith Bool List Lia Sorted.
From Verif Require Import PrioArbModel PrioArbSpec.
Import ListNotations.
Open Scope Z_scope.

Lemma add_in : forall r l y, In y (p_add r l) -> y = r \/ In y l.
Proof.
  intros r l. induction l as [|x t IH]; intros y; cbn [p_add]; [intros [<-|[]]; auto|]. destruct (q_in x <? q_in r).
  - intros [<-|H]; [right; left; auto|]. destruct (IH y H); auto. right. right. auto.
  - destruct (q_in x =? q_in r); [destruct (q_pri x <? q_pri r)|].
    + intros [<-|H]; auto. right. right. auto.
    + intros H. auto.
    + intros [<-|H]; auto.
Qed.
Lemma add_sorted : forall r l, StronglySorted (fun x y => q_in x < q_in y) l -> StronglySorted (fun x y => q_in x < q_in y) (p_add r l).
Proof.
  intros r l H. induction H as [|x t H IH F]; cbn [p_add]; [repeat constructor|]. rewrite Forall_forall in F. destruct (Z.ltb_spec (q_in x) (q_in r)).
  - constructor; auto. rewrite Forall_forall. intros y Hy. apply add_in in Hy. destruct Hy as [-> | Hy]; auto.
  - destruct (Z.eqb_spec (q_in x) (q_in r)); [destruct (q_pri x <? q_pri r)|].
    + constructor; auto. rewrite Forall_forall. intros y Hy. specialize (F y Hy). lia.
    + constructor; auto. rewrite Forall_forall. auto.
    + constructor; [constructor; auto; rewrite Forall_forall; auto|]. rewrite Forall_forall. intros y [<-|Hy]; [lia|]. specialize (F y Hy). lia.
Qed.
(** The best request for an input afterwards. *)
Lemma add_view : forall r l x, StronglySorted (fun x y => q_in x < q_in y) l ->
  (In x (p_add r l) <-> (In x l /\ q_in x <> q_in r) \/ (q_in x = q_in r /\ ((x = r /\ forall y, In y l -> q_in y = q_in r -> q_pri y < q_pri r) \/ (In x l /\ q_pri r <= q_pri x)))).
Proof.
  intros r l x H. induction H as [|a t H IH F]; cbn [p_add].
  - cbn [In]. split; [intros [<-|[]]; right; split; auto; left; split; auto; intros y []|intros [[[] _]|[_ [[-> _]|[[] _]]]]; auto].
  - rewrite Forall_forall in F. destruct (Z.ltb_spec (q_in a) (q_in r)) as [L|G].
    + cbn [In]. rewrite IH. split.
      * intros [<-|[[A B]|[A [[B C]|[B C]]]]]; [left; split; auto; lia|left; auto| |right; split; auto]. right. split; auto. left. split; auto. intros y [<-|Hy]; [lia|auto].
      * intros [[[<-|A] B]|[A [[B C]|[[<-|B] C]]]]; [left; auto|right; left; auto| |lia|]; right; right; split; auto.
    + destruct (Z.eqb_spec (q_in a) (q_in r)) as [E|Ne]; [destruct (Z.ltb_spec (q_pri a) (q_pri r)) as [P|P]|]; cbn [In].
      * split.
        -- intros [<-|Hx]; [right; split; auto; left; split; auto; intros y [<-|Hy] Ey; auto; specialize (F y Hy); lia|]. left. split; auto. specialize (F x Hx). lia.
        -- intros [[[<-|A] B]|[A [[B C]|[[<-|B] C]]]]; [lia|right; auto|left; auto|lia|]. specialize (F x B). lia.
      * split.
        -- intros [<-|Hx]; [right; split; auto|]. left. split; auto. specialize (F x Hx). lia.
        -- intros [[[<-|A] B]|[A [[B C]|[[<-|B] C]]]]; [lia|right; auto| |left; auto|right; auto]. specialize (C a (or_introl eq_refl) E). lia.
      * split.
        -- intros [<-|[<-|Hx]]; [right; split; auto; left; split; auto; intros y [<-|Hy] Ey; [lia|]; specialize (F y Hy); lia|left; auto|]. left. split; auto. specialize (F x Hx). lia.
        -- intros [[[<-|A] B]|[A [[B C]|[[<-|B] C]]]]; [right; left; auto|right; right; auto|left; auto|right; left; auto|right; right; auto].
Qed.
Lemma from_split : forall rr l, StronglySorted (fun x y => q_in x < q_in y) l -> exists a, l = a ++ p_from rr l /\ (forall x, In x a -> q_in x < rr) /\ (forall x, In x (p_from rr l) -> rr <= q_in x).
Proof.
  intros rr l H. induction H as [|x t H IH F]; [exists []; split; auto; split; intros ? []|]. cbn [p_from]. destruct (Z.ltb_spec (q_in x) rr) as [L|G].
  - destruct IH as [a [E [A B]]]. exists (x :: a). split; [cbn; congruence|]. split; auto. intros y [<-|Hy]; auto.
  - exists []. split; auto. split; [intros ? []|]. rewrite Forall_forall in F. intros y [<-|Hy]; auto. specialize (F y Hy). lia.
Qed.
Lemma loop1 : forall s f all rr e m, p_loop (length s + f) all rr e s false m = p_loop f all rr e [] false (fold_left p_upd s m).
Proof. intros s. induction s as [|x s IH]; intros f all rr e m; [reflexivity|]. cbn [length plus p_loop negb orb fold_left]. apply IH. Qed.
Lemma loop2 : forall a f all rr e s m, (forall x, In x a -> q_in x < rr) -> (forall x, In x s -> rr <= q_in x) ->
  p_loop (length a + S f) all rr e (a ++ s) true m = Some (fst (fold_left p_upd a m), match s with [] => true | _ => false end).
Proof.
  intros a. induction a as [|x a IH]; intros f all rr e s m A B; cbn [length plus app fold_left].
  - cbn [p_loop negb orb]. destruct s as [|y s]; [destruct (e <? rr); reflexivity|]. specialize (B y (or_introl eq_refl)). destruct (Z.ltb_spec (q_in y) rr); [lia|reflexivity].
  - cbn [p_loop negb orb]. pose proof (A x (or_introl eq_refl)). destruct (Z.ltb_spec (q_in x) rr); [|lia]. apply IH; auto. intros; apply A; right; auto.
Qed.
(** The first of the best. *)
Lemma upd_fold : forall l m, (forall x, In x l -> 0 <= q_in x) -> 0 <= fst m ->
  (fold_left p_upd l m = m /\ forall y, In y l -> q_pri y <= snd m) \/ exists b x c, l = b ++ x :: c /\ fold_left p_upd l m = (q_in x, q_pri x) /\ snd m < q_pri x /\ (forall y, In y b -> q_pri y < q_pri x) /\ (forall y, In y c -> q_pri y <= q_pri x).
Proof.
  intros l. induction l as [|a l IH]; intros m Hl Hm; [left; split; auto; intros y []|]. cbn [fold_left]. unfold p_upd at 2 4. destruct (Z.eqb_spec (fst m) (-1)); [lia|]. rewrite orb_false_r. rewrite Z.gtb_ltb. destruct (Z.ltb_spec (snd m) (q_pri a)) as [L|G].
  - destruct (IH (q_in a, q_pri a)) as [[E A]|[b [x [c [-> [E [P [B C]]]]]]]]; [intros; apply Hl; right; auto|apply Hl; left; auto| |]; right.
    + exists [], a, l. rewrite E. split; auto. split; auto. split; auto. split; [intros y []|exact A].
    + cbn [snd] in P. exists (a :: b), x, c. split; auto. split; auto. split; [lia|]. split; auto. intros y [<-|Hy]; auto.
  - destruct (IH m) as [[E A]|[b [x [c [-> [E [P [B C]]]]]]]]; [intros; apply Hl; right; auto|auto|left|right].
    + split; auto. intros y [<-|Hy]; auto.
    + exists (a :: b), x, c. split; auto. split; auto. split; auto. split; auto. intros y [<-|Hy]; auto. lia.
Qed.
Lemma upd_first : forall l, l <> [] -> (forall x, In x l -> 0 <= q_in x) ->
  exists b x c, l = b ++ x :: c /\ fold_left p_upd l (-1, 0) = (q_in x, q_pri x) /\ (forall y, In y b -> q_pri y < q_pri x) /\ (forall y, In y c -> q_pri y <= q_pri x).
Proof.
  intros [|a l] N H; [congruence|]. cbn [fold_left]. replace (p_upd (-1, 0) a) with (q_in a, q_pri a) by (unfold p_upd; cbn [fst]; rewrite orb_true_r; reflexivity).
  destruct (upd_fold l (q_in a, q_pri a)) as [[E A]|[b [x [c [-> [E [P [B C]]]]]]]]; [intros; apply H; right; auto|apply H; left; auto| |].
  - exists [], a, l. split; auto. split; auto. split; [intros y []|exact A].
  - cbn [snd] in P. exists (a :: b), x, c. split; auto. split; auto. split; auto. intros y [<-|Hy]; auto.
Qed.
Lemma upd_again : forall x m, q_pri x <= snd m -> 0 <= fst m -> p_upd m x = m.
Proof. intros x m H F. unfold p_upd. rewrite Z.gtb_ltb. destruct (Z.ltb_spec (snd m) (q_pri x)); [lia|]. destruct (Z.eqb_spec (fst m) (-1)); [lia|reflexivity]. Qed.
Lemma sorted_app_inv : forall (a s : list req), StronglySorted (fun x y => q_in x < q_in y) (a ++ s) -> StronglySorted (fun x y => q_in x < q_in y) a /\ StronglySorted (fun x y => q_in x < q_in y) s /\ forall x y, In x a -> In y s -> q_in x < q_in y.
Proof.
  intros a s. induction a as [|x a IH]; intros H; [split; [constructor|split; [exact H|intros ? ? []]]|]. inversion H as [|? ? H1 H2]; subst. destruct (IH H1) as [A [B C]]. rewrite Forall_forall in H2. split; [constructor; auto; rewrite Forall_forall; intros; apply H2; apply in_or_app; auto|]. split; auto. intros u v [<-|Hu] Hv; auto. apply H2. apply in_or_app. auto.
Qed.
Lemma behind_small : forall inputs rr x, 0 <= rr < inputs -> 0 <= q_in x < inputs -> behind inputs rr x = if q_in x <? rr then q_in x - rr + inputs else q_in x - rr.
Proof.
  intros inputs rr x Hr Hx. unfold behind. destruct (Z.ltb_spec (q_in x) rr); [|apply Z.mod_small; lia]. symmetry. apply (Z.mod_unique_pos _ _ (-1)); lia.
Qed.
Lemma sorted_mid : forall b x (c : list req), StronglySorted (fun x y => q_in x < q_in y) (b ++ x :: c) -> forall y, In y c -> q_in x < q_in y.
Proof. intros b x c H. destruct (sorted_app_inv b (x :: c) H) as [_ [B _]]. inversion B as [|? ? _ F]; subst. rewrite Forall_forall in F. exact F. Qed.
(** One arbitration. *)
Lemma arb_ok : forall inputs rr e l, 0 <= rr < inputs -> requests_ok inputs l -> l <> [] ->
  exists x r, p_arbitrate inputs rr e l = Some (q_in x, (q_in x + 1) mod inputs, r) /\ chosen inputs rr l x /\ (r = true <-> forall y, In y (tl l) -> q_in y < rr).
Proof.
  intros inputs rr e l Hr [So Rg] N. destruct (from_split rr l So) as [a [E [A B]]]. set (s := p_from rr l) in *.
  assert (N2 : s ++ a <> []) by (intros Z0; apply app_eq_nil in Z0; destruct Z0 as [Z1 Z2]; apply N; rewrite E, Z1, Z2; reflexivity).
  assert (In2 : forall y, In y (s ++ a) <-> In y l) by (intros y; assert (Q : In y l <-> In y (a ++ s)) by (rewrite <- E; tauto); rewrite Q, !in_app_iff; tauto).
  destruct (upd_first (s ++ a) N2) as [b [x [c [E2 [F [Pb Pc]]]]]]; [intros y Hy; apply In2 in Hy; apply Rg in Hy; lia|].
  assert (So2 : StronglySorted (fun x y => q_in x < q_in y) (a ++ s)) by (rewrite <- E; exact So). destruct (sorted_app_inv a s So2) as [Sa [Ss _]].
  assert (L : exists r, p_loop (2 * length l + 3) l rr e s false (-1, 0) = Some (q_in x, r) /\ (r = true <-> forall y, In y (tl l) -> q_in y < rr)).
  { assert (Len : length l = (length a + length s)%nat) by (rewrite <- app_length, <- E; reflexivity). replace (2 * length l + 3)%nat with (length s + S (length a + S (length l + 1)))%nat by lia. rewrite loop1. rewrite fold_left_app in F. set (m := fold_left p_upd s (-1, 0)) in *.
    destruct a as [|h a].
    - cbn [app] in E. cbn [fold_left] in F. destruct l as [|h t] eqn:El; [congruence|]. cbn [p_loop negb orb]. rewrite upd_again.
      + cbn [length plus]. assert (Bt : forall y, In y t -> rr <= q_in y) by (intros y Hy; apply B; rewrite <- E; right; auto). pose proof (loop2 [] (S (length t + 1)) (h :: t) rr e t m ltac:(intros ? []) Bt) as X. cbn [app length plus fold_left] in X. exists (match t with [] => true | _ => false end). rewrite F in *. cbn [fst] in X. split; [exact X|]. cbn [tl]. destruct t as [|y t]; [split; auto; intros _ y []|]. split; [discriminate|]. intros Hy. specialize (Hy y (or_introl eq_refl)). specialize (Bt y (or_introl eq_refl)). lia.
      + rewrite F. cbn [snd]. assert (Hh : In h (b ++ x :: c)) by (rewrite <- E2; apply In2; left; auto). apply in_app_or in Hh. destruct Hh as [Hh|[<-|Hh]]; [specialize (Pb h Hh); lia|lia|auto].
      + rewrite F. cbn [fst]. assert (In x (h :: t)) by (apply In2; rewrite E2; apply in_or_app; right; left; auto). apply Rg in H. lia.
    - cbn [app] in E. clearbody s. remember (length l + 1)%nat as G eqn:EG. clear EG Len. rewrite E. cbn [p_loop negb orb length]. cbn [fold_left] in F. replace (S (length a) + S G)%nat with (length a + S (S G))%nat by lia.
      rewrite loop2; auto; [|intros; apply A; right; auto]. rewrite F. cbn [fst]. eexists. split; [reflexivity|]. cbn [app tl]. destruct s as [|y s].
      + split; auto. intros _ y Hy. apply A. right. rewrite app_nil_r in Hy. exact Hy.
      + split; [discriminate|]. intros Hy. specialize (Hy y ltac:(apply in_or_app; right; left; auto)). specialize (B y (or_introl eq_refl)). lia. }
  destruct L as [r [L Lr]]. assert (Hx : In x l) by (apply In2; rewrite E2; apply in_or_app; right; left; auto). exists x, r. split; [|split; auto].
  - unfold p_arbitrate. destruct l as [|h t]; [congruence|]. fold s. rewrite L. pose proof (Rg x Hx). destruct (Z.eqb_spec (q_in x) (-1)); [lia|]. rewrite Z.rem_mod_nonneg by lia. reflexivity.
  - split; auto. intros y Hy. assert (Hy2 := Hy). apply In2 in Hy2. rewrite E2 in Hy2. apply in_app_or in Hy2. destruct Hy2 as [Hb|[<-|Hc]]; [left; auto|right; lia|]. specialize (Pc y Hc). destruct (Z.eq_dec (q_pri y) (q_pri x)) as [Ep|]; [|left; lia]. right. split; auto.
    rewrite !behind_small by auto.
    (* x comes before y in s ++ a *)
    assert (O : (In x s /\ In y a) \/ (In x s /\ In y s /\ q_in x < q_in y) \/ (In x a /\ In y a /\ q_in x < q_in y)).
    { clear - E2 Hc Sa Ss. revert b E2. induction s as [|z s IH]; intros b E2.
      - cbn [app] in E2. right. right. rewrite E2 in Sa |- *. split; [apply in_or_app; right; left; auto|]. split; [apply in_or_app; right; right; auto|]. apply (sorted_mid _ _ _ Sa). exact Hc.
      - inversion Ss as [|? ? Ss' Fs]; subst. destruct b as [|w b]; cbn [app] in E2; inversion E2; subst.
        + apply in_app_or in Hc. rewrite Forall_forall in Fs. destruct Hc as [Hc|Hc]; [right; left; split; [left; auto|split; [right; auto|auto]]|left; split; [left; auto|auto]].
        + destruct (IH Ss' b H1) as [[O1 O2]|[[O1 [O2 O3]]|O1]]; [left; split; [right; auto|auto]|right; left; split; [right; auto|split; [right; auto|auto]]|right; right; exact O1]. }
    pose proof (Rg x Hx). pose proof (Rg y Hy). destruct O as [[O1 O2]|[[O1 [O2 O3]]|[O1 [O2 O3]]]].
    + apply B in O1. apply A in O2. destruct (Z.ltb_spec (q_in x) rr); [lia|]. destruct (Z.ltb_spec (q_in y) rr); lia.
    + apply B in O1. apply B in O2. destruct (Z.ltb_spec (q_in x) rr); [lia|]. destruct (Z.ltb_spec (q_in y) rr); lia.
    + apply A in O1. apply A in O2. destruct (Z.ltb_spec (q_in x) rr); [|lia]. destruct (Z.ltb_spec (q_in y) rr); lia.
Qed.
Lemma closer : forall inputs rr x y, 0 <= rr < inputs -> 0 <= q_in x < inputs -> 0 <= q_in y < inputs -> q_in x <> q_in y -> behind inputs rr x <= behind inputs rr y -> behind inputs ((q_in x + 1) mod inputs) y < behind inputs rr y.
Proof.
  intros inputs rr x y Hr Hx Hy Ne L. pose proof (Z.mod_pos_bound (q_in x + 1) inputs ltac:(lia)) as B. rewrite (behind_small inputs rr) in * by auto. rewrite (behind_small inputs rr y) in * by auto. rewrite behind_small by auto.
  destruct (Z.eq_dec (q_in x + 1) inputs) as [E|]; [rewrite E, Z.mod_same in * by lia|rewrite (Z.mod_small (q_in x + 1)) in * by lia]; destruct (Z.ltb_spec (q_in x) rr); destruct (Z.ltb_spec (q_in y) rr); destruct (Z.ltb_spec (q_in y) 0); try destruct (Z.ltb_spec (q_in y) (q_in x + 1)); lia.
Qed.
