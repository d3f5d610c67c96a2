(** Reading the description of a network. *)
From Coq Require Import Ascii String ZArith Arith Bool List Lia Sorted.
From Verif Require Import Fupd NetModel AnyNetModel AnyNetSpec AnyNetRoute.
Import ListNotations.
Open Scope nat_scope.

(** ** Maps *)
Lemma get_set : forall A (k j : nat) (v : A) m, nm_get j (nm_set k v m) = if Nat.eqb k j then Some v else nm_get j m.
Proof.
  intros A k j v m. induction m as [|[i x] m IH]; cbn [nm_set nm_get].
  - destruct (Nat.eqb k j); reflexivity.
  - destruct (Nat.eqb_spec i k) as [E|E]; [subst i; cbn [nm_get]; destruct (Nat.eqb_spec k j); auto|].
    destruct (Nat.ltb_spec k i); cbn [nm_get]; destruct (Nat.eqb_spec k j) as [E1|E1]; auto.
    + subst j. destruct (Nat.eqb_spec i k); [lia|]. rewrite IH. reflexivity.
    + destruct (Nat.eqb_spec i j); auto.
Qed.
Lemma set_keys : forall A (k j : nat) (v : A) m, In j (map fst (nm_set k v m)) <-> j = k \/ In j (map fst m).
Proof.
  intros A k j v m. induction m as [|[i x] m IH]; cbn [nm_set map fst In]; [intuition|].
  destruct (Nat.eqb_spec i k) as [E|E]; [subst i; cbn [map fst In]; intuition|]. destruct (Nat.ltb_spec k i); cbn [map fst In]; [intuition|]. rewrite IH. intuition.
Qed.
Lemma set_sorted : forall A (k : nat) (v : A) m, StronglySorted lt (map fst m) -> StronglySorted lt (map fst (nm_set k v m)).
Proof.
  intros A k v m H. induction m as [|[i x] m IH]; cbn [nm_set map fst] in *; [repeat constructor|]. inversion H as [|? ? H1 H2]; subst.
  destruct (Nat.eqb_spec i k) as [E|E]; [subst i; exact H|]. destruct (Nat.ltb_spec k i); cbn [map fst].
  - constructor; auto. constructor; [lia|]. rewrite Forall_forall in *. intros y Hy. specialize (H2 y Hy). lia.
  - constructor; auto. rewrite Forall_forall in *. intros y Hy. apply set_keys in Hy. destruct Hy as [->|Hy]; [lia|auto].
Qed.
Lemma sub_set2 : forall a b v m r, sub r (set2 a b v m) = if Nat.eqb a r then nm_set b v (sub a m) else sub r m.
Proof. intros a b v m r. unfold set2. unfold sub at 1. rewrite get_set. destruct (Nat.eqb a r); reflexivity. Qed.
Lemma sub_fresh : forall k m r, sub r (fresh k m) = sub r m.
Proof. intros k m r. unfold fresh. destruct (nm_get k m) eqn:E; auto. unfold sub. rewrite get_set. destruct (Nat.eqb_spec k r) as [E1|E1]; [subst r; rewrite E; reflexivity|reflexivity]. Qed.
Lemma fresh_keys : forall k m r, In r (map fst (fresh k m)) <-> r = k \/ In r (map fst m).
Proof.
  intros k m r. unfold fresh. destruct (nm_get k m) eqn:E; [|apply set_keys]. split; [auto|]. intros [->|H]; auto. apply nm_key. eauto.
Qed.
Lemma fresh_sorted : forall k m, StronglySorted lt (map fst m) -> StronglySorted lt (map fst (fresh k m)).
Proof. intros k m H. unfold fresh. destruct (nm_get k m); auto. apply set_sorted. auto. Qed.
Lemma set2_keys : forall a b v m r, In r (map fst (set2 a b v m)) <-> r = a \/ In r (map fst m).
Proof. intros. apply set_keys. Qed.
Lemma set2_sorted : forall a b v m, StronglySorted lt (map fst m) -> StronglySorted lt (map fst (set2 a b v m)).
Proof. intros. apply set_sorted. auto. Qed.
Lemma set2_subs : forall a b v m r, (forall r, StronglySorted lt (map fst (sub r m))) -> StronglySorted lt (map fst (sub r (set2 a b v m))).
Proof. intros a b v m r H. rewrite sub_set2. destruct (Nat.eqb a r); auto. apply set_sorted. auto. Qed.

(** ** What the lines say *)
Lemma last_app : forall A (l : list A) x d, last (l ++ [x]) d = x.
Proof. intros A l x d. induction l as [|a l IH]; [reflexivity|]. cbn [app last]. destruct (l ++ [x]) eqn:E; [destruct l; discriminate|exact IH]. Qed.
Lemma last_none : forall A (l : list A), last (map Some l) None = None <-> l = [].
Proof.
  intros A l. split; [|intros ->; reflexivity]. intros H. destruct l as [|a l] using rev_ind; auto. rewrite map_app in H. cbn [map] in H. rewrite last_app in H. discriminate.
Qed.
Lemma told_item : forall D r its it a b, told (D ++ [(r, its ++ [it])]) a b = told (D ++ [(r, its)]) a b ++ (if Nat.eqb r a then told1 b it else []).
Proof.
  intros D r its it a b. unfold told. rewrite !flat_map_app, <- app_assoc. f_equal. cbn [flat_map fst snd]. rewrite !app_nil_r. destruct (Nat.eqb r a); auto. rewrite flat_map_app. cbn [flat_map]. rewrite app_nil_r. reflexivity.
Qed.
Lemma told_line : forall D r a b, told (D ++ [(r, [])]) a b = told D a b.
Proof. intros D r a b. unfold told. rewrite flat_map_app. cbn [flat_map fst snd]. destruct (Nat.eqb r a); apply app_nil_r. Qed.
Lemma names_item : forall D r its it a m, names (D ++ [(r, its ++ [it])]) a m <-> names (D ++ [(r, its)]) a m \/ (a = r /\ it = INode m).
Proof.
  intros D r its it a m. unfold names. split.
  - intros [x [H1 H2]]. apply in_app_iff in H1. destruct H1 as [H1|[H1|[]]]; [left; exists x; split; auto; apply in_app_iff; auto|]. injection H1 as <- <-. apply in_app_iff in H2. destruct H2 as [H2|[H2|[]]]; [|auto].
    left. exists its. split; auto. apply in_app_iff. right. left. auto.
  - intros [[x [H1 H2]]|[-> ->]]; [|exists (its ++ [INode m]); split; apply in_app_iff; right; left; auto]. apply in_app_iff in H1. destruct H1 as [H1|[H1|[]]]; [exists x; split; auto; apply in_app_iff; auto|]. injection H1 as <- <-.
    exists (its ++ [it]). split; apply in_app_iff; [right; left|left]; auto.
Qed.
Lemma names_line : forall D r a m, names (D ++ [(r, [])]) a m <-> names D a m.
Proof.
  intros D r a m. unfold names. split.
  - intros [x [H1 H2]]. apply in_app_iff in H1. destruct H1 as [H1|[H1|[]]]; [eauto|]. injection H1 as _ <-. destruct H2.
  - intros [x [H1 H2]]. exists x. split; auto. apply in_app_iff. auto.
Qed.
Lemma mentions_item : forall D r its it a, mentions (D ++ [(r, its ++ [it])]) a <-> mentions (D ++ [(r, its)]) a \/ exists x, it = IRouter a x.
Proof.
  intros D r its it a. unfold mentions. split.
  - intros [r' [x [H1 H2]]]. apply in_app_iff in H1. destruct H1 as [H1|[H1|[]]]; [left; exists r', x; split; auto; apply in_app_iff; auto|]. injection H1 as <- <-.
    destruct H2 as [H2|[y H2]]; [left; exists r, its; split; auto; apply in_app_iff; right; left; auto|]. apply in_app_iff in H2. destruct H2 as [H2|[H2|[]]]; [left; exists r, its; split; eauto; apply in_app_iff; right; left; auto|eauto].
  - intros [[r' [x [H1 H2]]]|[x ->]]; [|exists r, (its ++ [IRouter a x]); split; [apply in_app_iff; right; left; auto|right; exists x; apply in_app_iff; right; left; auto]].
    apply in_app_iff in H1. destruct H1 as [H1|[H1|[]]]; [exists r', x; split; auto; apply in_app_iff; auto|]. injection H1 as <- <-. exists r, (its ++ [it]). split; [apply in_app_iff; right; left; auto|].
    destruct H2 as [H2|[y H2]]; auto. right. exists y. apply in_app_iff. auto.
Qed.
Lemma mentions_line : forall D r a, mentions (D ++ [(r, [])]) a <-> a = r \/ mentions D a.
Proof.
  intros D r a. unfold mentions. split.
  - intros [r' [x [H1 H2]]]. apply in_app_iff in H1. destruct H1 as [H1|[H1|[]]]; [eauto|]. injection H1 as <- <-. destruct H2 as [H2|[y []]]. auto.
  - intros [->|[r' [x [H1 H2]]]]; [exists r, []; split; auto; apply in_app_iff; right; left; auto|]. exists r', x. split; auto. apply in_app_iff. auto.
Qed.
Lemma mentions_head : forall D r its, mentions (D ++ [(r, its)]) r.
Proof. intros D r its. exists r, its. split; auto. apply in_app_iff. right. left. auto. Qed.

(** ** The steps *)
Lemma described0 : described [] an0.
Proof.
  constructor; cbn [an0 an_node an_local an_link map nm_get In].
  - intros m r. split; [discriminate|intros [x [[] _]]].
  - intros r m x. unfold sub. cbn [nm_get]. split; [discriminate|intros [_ [y [[] _]]]].
  - intros a b. reflexivity.
  - intros r. split; [intros []|intros [x [y [[] _]]]].
  - intros r. split; [intros []|intros [x [y [[] _]]]].
  - split; [constructor|]. split; [constructor|]. split; [constructor|]. intros r. split; constructor.
Qed.
Lemma new_described : forall D r F, described D F -> described (D ++ [(r, [])]) (new_router r F).
Proof.
  intros D r F [A1 A2 A3 A4 A5 [A6 [A7 [A8 A9]]]]. constructor; cbn [new_router an_node an_local an_link].
  - intros m x. rewrite A1, names_line. reflexivity.
  - intros x m y. rewrite sub_fresh, names_line. apply A2.
  - intros a b. unfold lat, adj, wanted. cbn [new_router an_link]. rewrite sub_fresh, !told_line. apply A3.
  - intros x. rewrite fresh_keys, mentions_line, A4. reflexivity.
  - intros x. rewrite fresh_keys, mentions_line, A5. reflexivity.
  - split; auto. split; [apply fresh_sorted; auto|]. split; [apply fresh_sorted; auto|]. intros x. rewrite !sub_fresh. apply A9.
Qed.
Lemma attach_described : forall D r its m F F', described (D ++ [(r, its)]) F -> attach m r F = Some F' -> described (D ++ [(r, its ++ [INode m])]) F'.
Proof.
  intros D r its m F F' [A1 A2 A3 A4 A5 [A6 [A7 [A8 A9]]]] E.
  assert (EF : F' = {| an_node := nm_set m r (an_node F); an_local := set2 r m 1%Z (an_local F); an_link := an_link F |} /\ (nm_get m (an_node F) = None \/ nm_get m (an_node F) = Some r)).
  { unfold attach in E. destruct (nm_get m (an_node F)) as [x|] eqn:En; [|injection E as <-; auto]. destruct (Nat.eqb_spec x r) as [Ex|Ex]; [|discriminate]. subst x. injection E as <-. auto. }
  destruct EF as [-> EN]. constructor; cbn [an_node an_local an_link].
  - intros m' r'. rewrite get_set, names_item. destruct (Nat.eqb_spec m m') as [Em|Em].
    + subst m'. rewrite <- A1. split; [intros X; injection X as <-; auto|]. intros [X|[-> _]]; auto. destruct EN; congruence.
    + rewrite A1. split; auto. intros [X|[_ X]]; auto. injection X as ->. congruence.
  - intros r' m' x. rewrite sub_set2, names_item. destruct (Nat.eqb_spec r r') as [Er|Er].
    + subst r'. rewrite get_set. destruct (Nat.eqb_spec m m') as [Em|Em]; [subst m'; split; [intros X; injection X as <-; auto|intros [-> _]; auto]|]. rewrite A2. split; [tauto|]. intros [-> [X|[_ X]]]; auto. injection X as ->. congruence.
    + rewrite A2. split; [tauto|]. intros [-> [X|[X _]]]; auto. congruence.
  - intros a b. unfold lat, adj. cbn [an_link]. unfold wanted. rewrite !told_item. cbn [told1]. replace (if Nat.eqb r a then [] else []) with (@nil Z) by (destruct (Nat.eqb r a); auto).
    replace (if Nat.eqb r b then [] else []) with (@nil Z) by (destruct (Nat.eqb r b); auto). rewrite !app_nil_r. apply A3.
  - intros x. rewrite set2_keys, A4, mentions_item. split; [|intros [X|[y X]]; [auto|discriminate]]. intros [->|X]; auto. left. apply mentions_head.
  - intros x. rewrite A5, mentions_item. split; auto. intros [X|[y X]]; [auto|discriminate].
  - split; [apply set_sorted; auto|]. split; [apply set2_sorted; auto|]. split; auto. intros x. split; [apply set2_subs; intros y; apply A9|apply A9].
Qed.
Lemma attach_none : forall D r its m F, described (D ++ [(r, its)]) F -> attach m r F = None -> ~ agree (D ++ [(r, its ++ [INode m])]).
Proof.
  intros D r its m F [A1 _ _ _ _ _] E AG. unfold attach in E. destruct (nm_get m (an_node F)) as [x|] eqn:En; [|discriminate]. destruct (Nat.eqb_spec x r) as [Ex|Ex]; [discriminate|]. apply A1 in En.
  apply Ex. apply (AG x r m); apply names_item; auto.
Qed.
Lemma connect_described : forall D r its q F, described (D ++ [(r, its)]) F -> described (D ++ [(r, its ++ [IRouter q None])]) (connect r q (new_router q F)).
Proof.
  intros D r its q F [A1 A2 A3 A4 A5 [A6 [A7 [A8 A9]]]].
  assert (NE : forall x y, fresh q (an_link F) = x -> sub y x = sub y (an_link F)) by (intros x y <-; apply sub_fresh).
  constructor; cbn [connect new_router an_node an_local an_link].
  - intros m x. rewrite A1, names_item. split; auto. intros [X|[_ X]]; [auto|discriminate].
  - intros x m y. rewrite sub_fresh, names_item, A2. split; [tauto|]. intros [-> [X|[_ X]]]; [auto|discriminate].
  - intros a b. unfold lat, adj. cbn [connect new_router an_link]. rewrite sub_set2. unfold wanted. rewrite !told_item. cbn [told1].
    assert (G : forall x y, nm_get x (sub y (set2 r q 1%Z (fresh q (an_link F)))) = if (Nat.eqb r y && Nat.eqb q x)%bool then Some 1%Z else lat F y x).
    { intros x y. rewrite sub_set2. destruct (Nat.eqb_spec r y) as [E|E]; cbn [andb]; [subst y; rewrite get_set, sub_fresh; destruct (Nat.eqb q x); reflexivity|rewrite sub_fresh; reflexivity]. }
    set (L := set2 r q 1%Z (fresh q (an_link F))) in *.
    assert (W : nm_get b (sub a (match nm_get r (if Nat.eqb r q then nm_set q 1%Z (sub r (fresh q (an_link F))) else sub q (fresh q (an_link F))) with Some _ => L | None => set2 q r 1%Z L end)) =
      if (Nat.eqb r a && Nat.eqb q b)%bool then Some 1%Z else if (Nat.eqb q a && Nat.eqb r b)%bool then match lat F a b with Some x => Some x | None => Some 1%Z end else lat F a b).
    { replace (if Nat.eqb r q then nm_set q 1%Z (sub r (fresh q (an_link F))) else sub q (fresh q (an_link F))) with (sub q L) by (unfold L; rewrite sub_set2; reflexivity). rewrite G.
      destruct (Nat.eqb_spec r q) as [Erq|Erq]; cbn [andb].
      - subst q. rewrite Nat.eqb_refl. rewrite G. destruct (Nat.eqb r a && Nat.eqb r b)%bool; reflexivity.
      - destruct (lat F q r) as [y|] eqn:El.
        + rewrite G. destruct (Nat.eqb_spec r a) as [Ea|Ea], (Nat.eqb_spec q b) as [Eb|Eb]; cbn [andb]; auto; destruct (Nat.eqb_spec q a) as [Ec|Ec], (Nat.eqb_spec r b) as [Ed|Ed]; cbn [andb]; auto; subst; rewrite El; reflexivity.
        + rewrite sub_set2. destruct (Nat.eqb_spec q a) as [Ec|Ec].
          * subst a. rewrite get_set. destruct (Nat.eqb_spec r b) as [Ed|Ed]; [subst b; rewrite El; destruct (Nat.eqb r q && Nat.eqb q r)%bool; reflexivity|]. rewrite G. cbn [andb]. destruct (Nat.eqb_spec r q); [congruence|]. reflexivity.
          * rewrite G. destruct (Nat.eqb r a && Nat.eqb q b)%bool; reflexivity. }
    rewrite <- sub_set2 in W. rewrite <- sub_set2. fold L. fold L in W. etransitivity; [exact W|]. clear W G.
    pose proof (A3 a b) as Ab. unfold wanted in Ab.
    destruct (Nat.eqb_spec r a) as [Ea|Ea], (Nat.eqb_spec q b) as [Eb|Eb]; cbn [andb].
    + rewrite map_app. cbn [map]. rewrite last_app. reflexivity.
    + rewrite app_nil_r. rewrite Ab. destruct (Nat.eqb_spec q a) as [Ec|Ec], (Nat.eqb_spec r b) as [Ed|Ed]; cbn [andb]; rewrite ?app_nil_r; try reflexivity.
      subst. destruct (last _ _) as [x|] eqn:El; auto. congruence.
    + rewrite app_nil_r, Ab. destruct (Nat.eqb_spec q a) as [Ec|Ec], (Nat.eqb_spec r b) as [Ed|Ed]; cbn [andb]; rewrite ?app_nil_r; try reflexivity.
      destruct (last _ _) as [x|] eqn:El; auto. destruct (told _ b a); cbn; reflexivity.
    + rewrite app_nil_r, Ab. destruct (Nat.eqb_spec q a) as [Ec|Ec], (Nat.eqb_spec r b) as [Ed|Ed]; cbn [andb]; rewrite ?app_nil_r; try reflexivity.
      destruct (last _ _) as [x|] eqn:El; auto. destruct (told _ b a); cbn; reflexivity.
  - intros x. rewrite fresh_keys, A4, mentions_item. split; [intros [->|X]; eauto|]. intros [X|[y X]]; auto. injection X as -> _. auto.
  - intros x. assert (K : In x (map fst (match nm_get r (sub q (set2 r q 1%Z (fresh q (an_link F)))) with Some _ => set2 r q 1%Z (fresh q (an_link F)) | None => set2 q r 1%Z (set2 r q 1%Z (fresh q (an_link F))) end)) <-> x = q \/ x = r \/ In x (map fst (an_link F))).
    { destruct (nm_get r _); rewrite !set2_keys, fresh_keys; intuition. }
    rewrite K, A5, mentions_item. split.
    + intros [->|[->|X]]; [right; eauto|left; apply mentions_head|auto].
    + intros [X|[y X]]; auto. injection X as -> _. auto.
  - split; auto. split; [apply fresh_sorted; auto|]. assert (SF : forall y, StronglySorted lt (map fst (sub y (fresh q (an_link F))))) by (intros y; rewrite sub_fresh; apply A9).
    split; [destruct (nm_get r _); repeat apply set2_sorted; apply fresh_sorted; auto|]. intros x. split; [rewrite sub_fresh; apply A9|]. destruct (nm_get r _); repeat (apply set2_subs; intros); auto.
Qed.
Lemma weight_described : forall D r its q x F, described (D ++ [(r, its ++ [IRouter q None])]) F ->
  described (D ++ [(r, its ++ [IRouter q (Some x)])]) {| an_node := an_node F; an_local := an_local F; an_link := set2 r q x (an_link F) |}.
Proof.
  intros D r its q x F [A1 A2 A3 A4 A5 [A6 [A7 [A8 A9]]]]. constructor; cbn [an_node an_local an_link].
  - intros m y. rewrite A1, !names_item. split; (intros [X|[_ X]]; [auto|discriminate]).
  - intros y m z. rewrite A2, !names_item. split; (intros [-> [X|[_ X]]]; [auto|discriminate]).
  - intros a b. unfold lat, adj. cbn [an_link]. rewrite sub_set2. pose proof (A3 a b) as Ab. unfold lat, adj, wanted in Ab. rewrite !told_item in Ab. unfold wanted. rewrite !told_item. cbn [told1] in *. revert Ab.
    destruct (Nat.eqb_spec r a) as [Ea|Ea].
    + subst a. rewrite get_set. destruct (Nat.eqb_spec q b) as [Eb|Eb].
      * intros _. rewrite map_app. cbn [map]. rewrite last_app. reflexivity.
      * intros Ab. rewrite Ab. clear. rewrite !app_nil_r. destruct (last (map Some (told (D ++ [(r, its)]) r b)) None); auto. destruct (Nat.eqb r b), (Nat.eqb q r); rewrite ?app_nil_r; auto; destruct (told _ b r); reflexivity.
    + intros Ab. rewrite Ab. clear. rewrite !app_nil_r. destruct (last (map Some (told (D ++ [(r, its)]) a b)) None); auto. destruct (Nat.eqb r b), (Nat.eqb q a); rewrite ?app_nil_r; auto; destruct (told _ b a); reflexivity.
  - intros y. rewrite A4, !mentions_item. split; (intros [X|[z X]]; [auto|injection X as -> _; eauto]).
  - intros y. rewrite set2_keys, A5, !mentions_item. split.
    + intros [->|[X|[z X]]]; [left; apply mentions_head|auto|injection X as -> _; eauto].
    + intros [X|[z X]]; auto. injection X as -> _. eauto.
  - split; auto. split; auto. split; [apply set2_sorted; auto|]. intros y. split; [apply A9|]. apply set2_subs. intros. apply A9.
Qed.

(** ** Lines *)
Lemma kind_none : forall t, t <> "router"%string -> t <> "node"%string -> kind t = None.
Proof. intros t H1 H2. unfold kind. rewrite (proj2 (String.eqb_neq _ _) H1), (proj2 (String.eqb_neq _ _) H2). reflexivity. Qed.
Lemma read_app : forall l1 l2 p, read_words p (l1 ++ l2) = match read_words p l1 with Some p' => read_words p' l2 | None => None end.
Proof. intros l1. induction l1 as [|s l1 IH]; intros l2 p; cbn [app read_words]; auto. destruct (read_word p s); auto. Qed.
Lemma agree_pre : forall D r its it, agree (D ++ [(r, its ++ [it])]) -> agree (D ++ [(r, its)]).
Proof. intros D r its it A a b m H1 H2. apply (A a b m); apply names_item; auto. Qed.
Lemma agree_pre_all : forall D r its its', agree (D ++ [(r, its ++ its')]) -> agree (D ++ [(r, its)]).
Proof.
  intros D r its its'. induction its' as [|it its' IH] using rev_ind; intros A; [rewrite app_nil_r in A; auto|]. apply IH. rewrite app_assoc in A. eapply agree_pre; eauto.
Qed.
Lemma agree_lines : forall D D', agree (D ++ D') -> agree D.
Proof. intros D D' A a b m [x [H1 H2]] [y [H3 H4]]. apply (A a b m); [exists x|exists y]; split; auto; apply in_app_iff; auto. Qed.
Definition in_body (p : pline) (r : nat) : Prop := p_head p = true /\ p_hid p = r /\ (p_st p = BodyType \/ p_st p = LinkWeight).
Lemma read_item : forall D r its it ws p, item_text it ws -> in_body p r -> described (D ++ [(r, its)]) (p_f p) ->
  match read_words p ws with
  | Some p' => in_body p' r /\ described (D ++ [(r, its ++ [it])]) (p_f p')
  | None => ~ agree (D ++ [(r, its ++ [it])])
  end.
Proof.
  intros D r its it ws p IT [B1 [B2 B3]] DS. destruct p as [st hd hid bd bid F]. cbn [p_st p_head p_hid p_f] in *. subst hd hid.
  assert (K : forall s k l, kind s = Some k -> read_words {| p_st := st; p_head := true; p_hid := r; p_body := bd; p_bid := bid; p_f := F |} (s :: l) =
    read_words {| p_st := BodyId; p_head := true; p_hid := r; p_body := k; p_bid := bid; p_f := F |} l).
  { intros s k l Ek. cbn [read_words]. unfold read_word. cbn [p_st p_head p_hid p_body p_bid p_f]. destruct B3 as [-> | ->]; rewrite Ek; reflexivity. }
  destruct IT as [m s En|q s En|q x s t En N1 N2 Ex].
  - rewrite (K _ false) by reflexivity. cbn [read_words]. unfold read_word. cbn [p_st p_head p_hid p_body p_bid p_f]. rewrite En. destruct (attach m r F) as [F'|] eqn:Ea; [|eapply attach_none; eauto].
    split; [unfold in_body; cbn; auto|]. cbn [p_f]. eapply attach_described; eauto.
  - rewrite (K _ true) by reflexivity. cbn [read_words]. unfold read_word. cbn [p_st p_head p_hid p_body p_bid p_f]. rewrite En. split; [unfold in_body; cbn; auto|]. cbn [p_f]. apply connect_described. auto.
  - rewrite (K _ true) by reflexivity. cbn [read_words]. unfold read_word at 1. cbn [p_st p_head p_hid p_body p_bid p_f]. rewrite En. unfold read_word. cbn [p_st p_head p_hid p_body p_bid p_f]. rewrite (kind_none t) by auto.
    split; [unfold in_body; cbn; auto|]. cbn [p_f]. rewrite Ex. apply weight_described. apply connect_described. auto.
Qed.
Lemma read_items : forall its' ws D r its p, Forall2 item_text its' ws -> in_body p r -> described (D ++ [(r, its)]) (p_f p) ->
  match read_words p (concat ws) with
  | Some p' => described (D ++ [(r, its ++ its')]) (p_f p')
  | None => ~ agree (D ++ [(r, its ++ its')])
  end.
Proof.
  intros its' ws D r its p H. revert its p. induction H as [|it w its' ws H1 H2 IH]; intros its p B DS; cbn [concat].
  - cbn [read_words]. rewrite app_nil_r. auto.
  - rewrite read_app. pose proof (read_item D r its it w p H1 B DS) as X. replace (its ++ it :: its') with ((its ++ [it]) ++ its') by (rewrite <- app_assoc; reflexivity).
    destruct (read_words p w) as [p'|]; [destruct X as [X1 X2]; apply IH; auto|]. intros A. apply X. eapply agree_pre_all; eauto.
Qed.
Lemma read_text : forall D l s F, line_text l (words ""%string s) -> described D F ->
  match read_line F s with Some F' => described (D ++ [l]) F' | None => ~ agree (D ++ [l]) end.
Proof.
  intros D l s F H DS. unfold read_line. inversion H as [r t its ws En HI El Ew]. clear H. subst l. cbn [read_words]. unfold read_word at 1. cbn [p_st line0 kind]. cbn [String.eqb]. unfold read_word at 1. cbn [p_st p_head p_hid p_body p_bid p_f].
  rewrite En. pose proof (read_items its ws D r [] {| p_st := BodyType; p_head := true; p_hid := r; p_body := false; p_bid := 0; p_f := new_router r F |} HI) as X. cbn [app] in X.
  unfold in_body in X. cbn [p_head p_hid p_st p_f] in X. specialize (X (conj eq_refl (conj eq_refl (or_introl eq_refl))) (new_described D r F DS)).
  cbn in *. destruct (read_words _ (concat ws)); auto.
Qed.
Lemma read_all : forall D' ss, Forall2 (fun l s => line_text l (words ""%string s)) D' ss -> forall D F, described D F ->
  match read_lines F ss with Some F' => described (D ++ D') F' | None => ~ agree (D ++ D') end.
Proof.
  intros D' ss H. induction H as [|l s D' ss H1 H2 IH]; intros D F DS; cbn [read_lines]; [rewrite app_nil_r; auto|]. pose proof (read_text D l s F H1 DS) as X.
  replace (D ++ l :: D') with ((D ++ [l]) ++ D') by (rewrite <- app_assoc; reflexivity). destruct (read_line F s) as [F'|]; [apply IH; auto|]. intros A. apply X. eapply agree_lines; eauto.
Qed.
Lemma described_agree : forall D F, described D F -> agree D.
Proof. intros D F [A _ _ _ _ _] r r' m H1 H2. apply A in H1, H2. congruence. Qed.
