(** The text of a description, and descriptions with all numbers in use. *)
From Coq Require Import Ascii String ZArith Arith Bool List Lia Sorted Decimal DecimalString DecimalNat.
From Verif Require Import Fupd NetModel AnyNetModel AnyNetSpec AnyNetRoute AnyNetWires AnyNetRead.
Import ListNotations.
Open Scope nat_scope.

Lemma sorted_same : forall l l', StronglySorted lt l -> StronglySorted lt l' -> (forall x, In x l <-> In x l') -> l = l'.
Proof.
  intros l. induction l as [|a l IH]; intros [|a' l'] H H' E; auto.
  - exfalso. apply (E a'). left. auto.
  - exfalso. apply (E a). left. auto.
  - inversion H as [|? ? H1 H2]; inversion H' as [|? ? H1' H2']; subst. rewrite Forall_forall in *. assert (a = a').
    { destruct (proj1 (E a) (or_introl eq_refl)) as [X|X]; auto. destruct (proj2 (E a') (or_introl eq_refl)) as [Y|Y]; auto. specialize (H2 _ Y). specialize (H2' _ X). lia. }
    subst a'. f_equal. apply IH; auto. intros x. split; intros X.
    + destruct (proj1 (E x) (or_intror X)) as [Y|Y]; auto. specialize (H2 _ X). lia.
    + destruct (proj2 (E x) (or_intror X)) as [Y|Y]; auto. specialize (H2' _ X). lia.
Qed.
Lemma seq_sorted : forall k a, StronglySorted lt (seq a k).
Proof. intros k. induction k as [|k IH]; intros a; cbn [seq]; constructor; auto. rewrite Forall_forall. intros x Hx. apply in_seq in Hx. lia. Qed.
Lemma sorted_seq : forall l k, StronglySorted lt l -> (forall x, In x l <-> x < k) -> l = seq 0 k.
Proof. intros l k H E. apply sorted_same; auto; [apply seq_sorted|]. intros x. rewrite E, in_seq. lia. Qed.
Lemma sorted_nodup : forall l, StronglySorted lt l -> NoDup l.
Proof. intros l H. induction H as [|a l H1 IH H2]; constructor; auto. intros X. rewrite Forall_forall in H2. specialize (H2 _ X). lia. Qed.
Lemma node_keys : forall D F, described D F -> forall m, In m (map fst (an_node F)) <-> exists r, names D r m.
Proof. intros D F DS m. rewrite nm_key. split; intros [r H]; exists r; apply (ds_node D F DS); auto. Qed.
Lemma file_some : forall D F, described D F ->
  (Nat.eqb (length (an_local F)) (length (an_link F)) && same_list (map fst (an_node F)) (seq 0 (length (an_node F))))%bool = true <-> exists k, forall m, (exists r, names D r m) <-> m < k.
Proof.
  intros D F DS. pose proof DS as [A1 A2 A3 A4 A5 [A6 [A7 [A8 A9]]]]. assert (EL : map fst (an_local F) = map fst (an_link F)) by (apply sorted_same; auto; intros x; rewrite A4, A5; reflexivity).
  assert (E : length (an_local F) = length (an_link F)) by (rewrite <- (map_length fst (an_local F)), EL; apply map_length). rewrite E, Nat.eqb_refl. cbn [andb]. unfold same_list. destruct (list_eq_dec _ _ _) as [X|X].
  - split; auto. intros _. exists (length (an_node F)). intros m. rewrite <- (node_keys D F DS), X, in_seq. lia.
  - split; [discriminate|]. intros [k H]. exfalso. apply X. assert (Y : map fst (an_node F) = seq 0 k) by (apply sorted_seq; auto; intros m; rewrite (node_keys D F DS); auto).
    rewrite Y. rewrite <- (map_length fst (an_node F)), Y, seq_length. reflexivity.
Qed.
Lemma last_in : forall A (l : list A) x, last (map Some l) None = Some x -> In x l.
Proof. intros A l x. destruct l as [|a l] using rev_ind; [discriminate|]. rewrite map_app. cbn [map]. rewrite last_app. intros E. injection E as ->. apply in_app_iff. right. left. auto. Qed.
Lemma told_in : forall D a b x, In x (told D a b) <-> exists its, In (a, its) D /\ (In (IRouter b (Some x)) its \/ (x = 1%Z /\ In (IRouter b None) its)).
Proof.
  intros D a b x. unfold told. rewrite in_flat_map. split.
  - intros [[r its] [H1 H2]]. cbn [fst snd] in H2. destruct (Nat.eqb_spec r a) as [E|E]; [|destruct H2]. subst r. apply in_flat_map in H2. destruct H2 as [it [H2 H3]]. exists its. split; auto. destruct it as [m|q y]; [destruct H3|]. cbn [told1] in H3.
    destruct (Nat.eqb_spec q b) as [E|E]; [|destruct H3]. subst q. destruct H3 as [<-|[]]. destruct y; auto.
  - intros [its [H1 H2]]. exists (a, its). split; auto. cbn [fst snd]. rewrite Nat.eqb_refl. apply in_flat_map. destruct H2 as [H2|[-> H2]]; eexists; (split; [exact H2|]); cbn [told1]; rewrite Nat.eqb_refl; left; auto.
Qed.
Lemma wanted_none : forall D a b, wanted D a b = None <-> told D a b = [] /\ told D b a = [].
Proof.
  intros D a b. unfold wanted. destruct (last _ _) as [x|] eqn:E.
  - split; [discriminate|]. intros [X _]. rewrite X in E. discriminate.
  - apply last_none in E. destruct (told D b a); split; auto; [discriminate|intros [_ X]; discriminate].
Qed.
Lemma described_clean : forall D F, described D F -> (exists k, forall m, (exists r, names D r m) <-> m < k) -> (exists k, forall r, mentions D r <-> r < k) ->
  (forall r its q x, In (r, its) D -> In (IRouter q (Some x)) its -> (1 <= x)%Z) -> clean F.
Proof.
  intros D F DS [kn Hn] [kr Hr] Hx. pose proof DS as [A1 A2 A3 A4 A5 [A6 [A7 [A8 A9]]]].
  assert (EL : map fst (an_link F) = seq 0 kr) by (apply sorted_seq; auto; intros x; rewrite A5; auto). assert (EO : map fst (an_local F) = seq 0 kr) by (apply sorted_seq; auto; intros x; rewrite A4; auto).
  assert (ES : an_size F = kr) by (unfold an_size; rewrite <- (map_length fst), EL; apply seq_length).
  assert (EN : map fst (an_node F) = seq 0 kn) by (apply sorted_seq; auto; intros m; rewrite (node_keys D F DS); auto). assert (EM : an_nodes F = kn) by (unfold an_nodes; rewrite <- (map_length fst), EN; apply seq_length).
  constructor.
  - rewrite ES. auto.
  - rewrite ES. auto.
  - rewrite EM. auto.
  - intros m r. unfold locals. rewrite nm_key, A1. split; [intros [x X]; apply A2 in X; tauto|]. intros X. exists 1%Z. apply A2. auto.
  - intros r. split; apply sorted_nodup; apply A9.
  - intros a b. rewrite !A3, !wanted_none. tauto.
  - intros a b x E. rewrite A3 in E. unfold wanted in E. destruct (last _ _) as [y|] eqn:El.
    + injection E as ->. apply last_in in El. apply told_in in El. destruct El as [its [H1 [H2|[-> _]]]]; [eapply Hx; eauto|lia].
    + destruct (told D b a); [discriminate|]. injection E as <-. lia.
  - intros r m x E. apply A2 in E. destruct E as [-> _]. lia.
Qed.
(** Routers that all are linked to a router with a smaller number, or in another way step by step to the first one. *)
Lemma roads_up : forall F up depth, clean F -> 0 < an_size F -> (forall a, a < an_size F -> a = 0 \/ (lat F a (up a) <> None /\ depth (up a) < depth a)) -> connected F.
Proof.
  intros F up depth CL H0 H. assert (RD : forall k a, depth a < k -> a < an_size F -> (exists x, road F a 0 x) /\ exists x, road F 0 a x).
  { intros k. induction k as [|k IH]; intros a Hk Ha; [lia|]. destruct (H a Ha) as [->|[L Hd]]; [split; exists 0%Z; constructor; auto|].
    destruct (lat F a (up a)) as [x|] eqn:E; [|congruence]. destruct (lat_lt F CL _ _ _ E) as [_ Hu]. destruct (IH (up a)) as [[y Y] [z Z]]; auto; [lia|]. split; [eexists; eapply road_cons; eauto|].
    assert (L' : lat F (up a) a <> None) by (apply (cl_sym F CL); congruence). destruct (lat F (up a) a) as [t|] eqn:Et; [|congruence].
    exists (z + (t + 0))%Z. eapply road_app; eauto. eapply road_cons; eauto. constructor. auto. }
  intros a b Ha Hb. destruct (RD (S (depth a)) a) as [[x X] _]; auto. destruct (RD (S (depth b)) b) as [_ [y Y]]; auto. eexists. eapply road_app; eauto.
Qed.

(** ** Words *)
Definition blank : ascii := ascii_of_nat 32.
Fixpoint no_blank (s : string) : Prop := match s with EmptyString => True | String c r => nat_of_ascii c <> 32 /\ no_blank r end.
Lemma string_app_nil : forall s, (s ++ "")%string = s.
Proof. intros s. induction s as [|c s IH]; cbn; [auto|rewrite IH; auto]. Qed.
Lemma string_app_assoc : forall a b c, ((a ++ b) ++ c)%string = (a ++ (b ++ c))%string.
Proof. intros a b c. induction a as [|x a IH]; cbn; [auto|rewrite IH; auto]. Qed.
Lemma words_word : forall s cur r, no_blank s -> words cur (s ++ r)%string = words (cur ++ s)%string r.
Proof.
  intros s. induction s as [|c s IH]; intros cur r H; [cbn [append]; rewrite string_app_nil; auto|]. destruct H as [H1 H2]. cbn [append words]. destruct (Nat.eqb_spec (nat_of_ascii c) 32); [congruence|].
  rewrite IH by auto. rewrite string_app_assoc. reflexivity.
Qed.
Lemma eqb_ne : forall s, s <> ""%string -> String.eqb s "" = false.
Proof. intros s H. apply String.eqb_neq. auto. Qed.
Lemma words_concat : forall l, (forall s, In s l -> s <> ""%string /\ no_blank s) -> words ""%string (String.concat " " l) = l.
Proof.
  intros l H. induction l as [|s l IH]; [reflexivity|]. destruct (H s (or_introl eq_refl)) as [H1 H2]. destruct l as [|t l].
  - cbn [String.concat]. rewrite <- (string_app_nil s) at 1. rewrite words_word by auto. cbn [append words]. rewrite eqb_ne by auto. reflexivity.
  - change (String.concat " " (s :: t :: l)) with (s ++ (String blank (String.concat " " (t :: l))))%string. rewrite words_word by auto. change ("" ++ s)%string with s. cbn [words].
    replace (Nat.eqb (nat_of_ascii blank) 32) with true by reflexivity. rewrite eqb_ne by auto. f_equal. apply IH. intros x Hx. apply H. right. auto.
Qed.
(** Decimal numbers. *)
Lemma digits_uint : forall d acc, digits (Z.of_nat acc) (NilEmpty.string_of_uint d) = Z.of_nat (Nat.of_uint_acc d acc).
Proof.
  intros d. induction d; intros acc; cbn [NilEmpty.string_of_uint digits Nat.of_uint_acc]; [reflexivity|..];
  rewrite <- IHd, Nat.tail_mul_spec; cbn [Nat.tail_add]; (match goal with |- context [if ?c then _ else _] => replace c with true by reflexivity end); f_equal;
  match goal with |- context [nat_of_ascii ?c] => let v := eval vm_compute in (nat_of_ascii c) in change (nat_of_ascii c) with v end; lia.
Qed.
Lemma uint_no_blank : forall d, no_blank (NilEmpty.string_of_uint d).
Proof. intros d. induction d; cbn [NilEmpty.string_of_uint no_blank]; auto; split; auto; vm_compute; discriminate. Qed.
Lemma to_uint_some : forall n, Nat.to_uint n <> Nil.
Proof. intros n E. pose proof (DecimalNat.Unsigned.of_to n) as H. rewrite E in H. cbn in H. subst n. discriminate. Qed.
Lemma atoi_uint : forall d, atoi (NilEmpty.string_of_uint d) = digits 0 (NilEmpty.string_of_uint d).
Proof. intros d. destruct d; reflexivity. Qed.
Lemma number_decimal : forall n, number (decimal n) = Some n /\ decimal n <> ""%string /\ no_blank (decimal n).
Proof.
  intros n. assert (A : atoi (decimal n) = Z.of_nat n).
  { unfold decimal. rewrite atoi_uint. change 0%Z with (Z.of_nat 0). rewrite digits_uint. change (Nat.of_uint_acc (Nat.to_uint n) 0) with (Nat.of_uint (Nat.to_uint n)). rewrite DecimalNat.Unsigned.of_to. reflexivity. }
  unfold number. rewrite A. split; [destruct (Z.ltb_spec (Z.of_nat n) 0); [lia|rewrite Nat2Z.id; reflexivity]|]. split; [|apply uint_no_blank]. unfold decimal. pose proof (to_uint_some n) as H. destruct (Nat.to_uint n); cbn; congruence.
Qed.
Lemma decimal_word : forall n, decimal n <> "router"%string /\ decimal n <> "node"%string.
Proof.
  intros n. destruct (number_decimal n) as [H _]. split; intros E; rewrite E in H; injection H as <-; discriminate.
Qed.
Lemma text_read : forall l, (forall q x, In (IRouter q (Some x)) (snd l) -> (0 <= x)%Z) -> line_text l (words ""%string (line_string l)).
Proof.
  intros [r its] H. cbn [snd] in H. unfold line_string. cbn [fst snd]. rewrite words_concat.
  - destruct (number_decimal r) as [Hr _]. constructor; auto. induction its as [|it its IH]; cbn [map]; constructor; [|apply IH; intros q x X; apply (H q x); right; auto].
    destruct it as [m|q [x|]]; cbn [item_words].
    + constructor. apply number_decimal.
    + destruct (decimal_word (Z.to_nat x)). constructor; auto; [apply number_decimal|]. destruct (number_decimal (Z.to_nat x)) as [X _]. unfold number in X. destruct (Z.ltb_spec (atoi (decimal (Z.to_nat x))) 0) as [L|L]; [discriminate|].
      injection X as X. specialize (H q x (or_introl eq_refl)). lia.
    + constructor. apply number_decimal.
  - intros s [<-|[<-|Hs]]; [split; [discriminate|cbn; repeat split; discriminate]|split; apply number_decimal|]. apply in_concat in Hs. destruct Hs as [ws [H1 H2]]. apply in_map_iff in H1. destruct H1 as [it [<- _]].
    assert (KW : forall t, t = "router"%string \/ t = "node"%string -> t <> ""%string /\ no_blank t) by (intros t [-> | ->]; (split; [discriminate|cbn; repeat split; discriminate])).
    destruct it as [m|q [x|]]; cbn [item_words In] in H2; repeat (destruct H2 as [<-|H2]; [first [split; apply number_decimal|apply KW; auto]|]); destruct H2.
Qed.

(** ** Decision procedures, for the examples *)
Definition nodes_of (D : list (nat * list item)) : list (nat * nat) := flat_map (fun l => flat_map (fun it => match it with INode m => [(fst l, m)] | _ => [] end) (snd l)) D.
Definition routers_of (D : list (nat * list item)) : list nat := flat_map (fun l => fst l :: flat_map (fun it => match it with IRouter q _ => [q] | _ => [] end) (snd l)) D.
Definition weights_of (D : list (nat * list item)) : list Z := flat_map (fun l => flat_map (fun it => match it with IRouter _ (Some x) => [x] | _ => [] end) (snd l)) D.
Definition allb (l : list nat) (k : nat) : bool := forallb (fun x => Nat.ltb x k) l && forallb (fun x => existsb (Nat.eqb x) l) (seq 0 k).
Definition goodb (D : list (nat * list item)) (k j : nat) : bool :=
  forallb (fun a => forallb (fun c => negb (Nat.eqb (snd a) (snd c)) || Nat.eqb (fst a) (fst c)) (nodes_of D)) (nodes_of D) && allb (map snd (nodes_of D)) k && allb (routers_of D) j && forallb (fun x => (1 <=? x)%Z) (weights_of D).
Lemma nodes_in : forall D r m, In (r, m) (nodes_of D) <-> names D r m.
Proof.
  intros D r m. unfold nodes_of, names. rewrite in_flat_map. split.
  - intros [[a its] [H1 H2]]. cbn [fst snd] in H2. apply in_flat_map in H2. destruct H2 as [[x|q y] [H2 H3]]; [|destruct H3]. destruct H3 as [H3|[]]. injection H3 as <- <-. eauto.
  - intros [its [H1 H2]]. exists (r, its). split; auto. cbn [fst snd]. apply in_flat_map. exists (INode m). split; auto. left. auto.
Qed.
Lemma routers_in : forall D r, In r (routers_of D) <-> mentions D r.
Proof.
  intros D r. unfold routers_of, mentions. rewrite in_flat_map. split.
  - intros [[a its] [H1 H2]]. cbn [fst snd] in H2. exists a, its. split; auto. destruct H2 as [H2|H2]; auto. apply in_flat_map in H2. destruct H2 as [[x|q y] [H2 H3]]; [destruct H3|]. destruct H3 as [<-|[]]. eauto.
  - intros [a [its [H1 H2]]]. exists (a, its). split; auto. cbn [fst snd]. destruct H2 as [<-|[x H2]]; [left; auto|]. right. apply in_flat_map. eexists. split; [exact H2|]. left. auto.
Qed.
Lemma allb_ok : forall l k, allb l k = true -> forall x, In x l <-> x < k.
Proof.
  intros l k H x. apply andb_true_iff in H. destruct H as [H1 H2]. rewrite forallb_forall in H1, H2. split; [intros X; apply Nat.ltb_lt; auto|]. intros X. assert (Y := H2 x ltac:(apply in_seq; lia)). apply existsb_exists in Y. destruct Y as [y [Y1 Y2]]. apply Nat.eqb_eq in Y2. congruence.
Qed.
Lemma goodb_ok : forall D k j, goodb D k j = true -> agree D /\ (forall m, (exists r, names D r m) <-> m < k) /\ (forall r, mentions D r <-> r < j) /\ (forall r its q x, In (r, its) D -> In (IRouter q (Some x)) its -> (1 <= x)%Z).
Proof.
  intros D k j H. unfold goodb in H. rewrite !andb_true_iff in H. destruct H as [[[H1 H2] H3] H4]. split; [|split; [|split]].
  - intros r r' m A B. apply nodes_in in A, B. rewrite forallb_forall in H1. specialize (H1 _ A). rewrite forallb_forall in H1. specialize (H1 _ B). cbn [fst snd] in H1. rewrite Nat.eqb_refl in H1. apply Nat.eqb_eq. exact H1.
  - intros m. rewrite <- (allb_ok _ _ H2). rewrite in_map_iff. split; [intros [r A]; exists (r, m); split; auto; apply nodes_in; auto|]. intros [[r x] [<- A]]. exists r. apply nodes_in. auto.
  - intros r. rewrite <- (allb_ok _ _ H3), routers_in. reflexivity.
  - intros r its q x A B. rewrite forallb_forall in H4. apply Z.leb_le. apply H4. unfold weights_of. apply in_flat_map. exists (r, its). split; auto. apply in_flat_map. eexists. split; [exact B|]. left. auto.
Qed.
Lemma good_file : forall D ss k j, ss = map line_string D -> goodb D k j = true -> exists F, read_file ss = Some F /\ clean F /\ described D F.
Proof.
  intros D ss k j -> H. destruct (goodb_ok D k j H) as [A1 [A2 [A3 A4]]].
  assert (TX : Forall2 (fun l s => line_text l (words ""%string s)) D (map line_string D)).
  { clear - A4. induction D as [|[r its] D IH]; cbn [map]; constructor; [|apply IH; intros; eapply A4; eauto; right; eauto]. apply text_read. intros q x X. specialize (A4 r its q x (or_introl eq_refl) X). lia. }
  pose proof (read_all D _ TX [] an0 described0) as X. cbn [app] in X. unfold read_file. destruct (read_lines an0 (map line_string D)) as [F|]; [|contradiction]. exists F. rewrite (proj2 (file_some D F X)) by eauto. split; auto. split; auto.
  eapply described_clean; eauto.
Qed.
Definition shortb (F : anyfile) (W : Z) : bool := forallb (fun e => forallb (fun a => (snd a <=? W)%Z) (snd e)) (an_link F) && (0 <=? W)%Z && (Z.of_nat (an_size F) * W <? max_int)%Z.
Lemma shortb_ok : forall F W, shortb F W = true -> short F.
Proof.
  intros F W H. unfold shortb in H. rewrite !andb_true_iff in H. destruct H as [[H1 H2] H3]. apply Z.leb_le in H2. apply Z.ltb_lt in H3. exists W. split; auto. intros a q x E. unfold lat, adj, sub in E.
  destruct (nm_get a (an_link F)) as [l|] eqn:El; [|discriminate]. apply nm_in in El, E. rewrite forallb_forall in H1. specialize (H1 _ El). cbn [snd] in H1. rewrite forallb_forall in H1. specialize (H1 _ E). apply Z.leb_le in H1. exact H1.
Qed.
Definition upb (F : anyfile) (up depth : list nat) : bool :=
  Nat.ltb 0 (an_size F) && forallb (fun a => Nat.eqb a 0 || match lat F a (nth a up 0) with Some _ => Nat.ltb (nth (nth a up 0) depth 0) (nth a depth 0) | None => false end) (seq 0 (an_size F)).
Lemma upb_ok : forall F up depth, clean F -> upb F up depth = true -> connected F.
Proof.
  intros F up depth CL H. apply andb_true_iff in H. destruct H as [H1 H2]. apply Nat.ltb_lt in H1. rewrite forallb_forall in H2. apply (roads_up F (fun a => nth a up 0) (fun a => nth a depth 0) CL H1).
  intros a Ha. specialize (H2 a ltac:(apply in_seq; lia)). apply orb_true_iff in H2. destruct H2 as [H2|H2]; [left; apply Nat.eqb_eq; auto|]. right. destruct (lat F a (nth a up 0)); [|discriminate]. split; [discriminate|]. apply Nat.ltb_lt. auto.
Qed.
