(** Flits of the adapters as flits of the network: whole packets go in, and what comes out is what C83 says. *)
From Coq Require Import ZArith Arith Bool List Lia.
From Verif Require Import Fupd BufferModel RouteModel IqRouterModel IqRouterSpec IqRouterProofs NetModel NetSpec NetOrder NetMeshModel NetMeshSpec StreamSpec StreamProofs TermModel TermSpec TermProofs TermFlow.
Import ListNotations.
Open Scope nat_scope.

(** ** Sequences of events *)
Lemma tdecent_from_snoc : forall P w rf ok es h o (s : term P) s1 o1 e, tdecent_from w rf ok h o es s -> term_run w rf es s = Some (s1, o1) -> tdecent w ok (h ++ es) (o ++ o1) e -> tdecent_from w rf ok h o (es ++ [e]) s.
Proof.
  intros P w rf ok es. induction es as [|a es IH]; intros h o s s1 o1 e D E K; cbn [term_run app tdecent_from] in *.
  - injection E as <- <-. rewrite !app_nil_r in K. split; [exact K|]. intros; exact Logic.I.
  - destruct D as [D1 D2]. destruct (term_step w rf a s) as [[s2 o2]|] eqn:E2; [|discriminate]. destruct (term_run w rf es s2) as [[s3 o3]|] eqn:E3; [|discriminate]. injection E as <- <-.
    split; auto. intros s' o' Q. injection Q as <- <-. eapply IH; eauto. rewrite <- !app_assoc. exact K.
Qed.
Lemma term_run_snoc : forall P w rf es (s : term P) e, term_run w rf (es ++ [e]) s =
  match term_run w rf es s with Some (s1, o1) => match term_step w rf e s1 with Some (s2, o2) => Some (s2, o1 ++ o2) | None => None end | None => None end.
Proof.
  intros P w rf es. induction es as [|a es IH]; intros s e; cbn [term_run app].
  - destruct (term_step w rf e s) as [[s2 o2]|]; auto. cbn [app]. rewrite app_nil_r. reflexivity.
  - destruct (term_step w rf a s) as [[s1 o1]|]; auto. rewrite IH. destruct (term_run w rf es s1) as [[s2 o2]|]; auto. destruct (term_step w rf e s2) as [[s3 o3]|]; auto. rewrite app_assoc. reflexivity.
Qed.

(** ** Flits without their routes *)
Definition strip (f : flit) : flit := {| f_id := f_id f; f_pid := f_pid f; f_head := f_head f; f_tail := f_tail f; f_vc := f_vc f; f_la := [] |}.
Lemma fold_strip : forall l a, fold_left pstep (map strip l) a = fold_left pstep l a.
Proof. intros l. induction l as [|f l IH]; intros a; cbn [map fold_left]; auto. Qed.
Lemma parse_strip : forall l, parse (map strip l) = parse l.
Proof. intros. apply fold_strip. Qed.
Lemma filter_map_comm : forall A B (g : A -> B) (p : B -> bool) l, filter p (map g l) = map g (filter (fun x => p (g x)) l).
Proof. intros A B g p l. induction l as [|a l IH]; cbn [map filter]; auto. destruct (p (g a)); cbn [map]; rewrite IH; reflexivity. Qed.
Lemma on_vc_strip : forall v l, on_vc v (map strip l) = map strip (on_vc v l).
Proof. intros. unfold on_vc. rewrite filter_map_comm. reflexivity. Qed.
Lemma map_eq_split : forall A B (f : A -> B) l l1 a b l2, map f l = l1 ++ a :: b :: l2 -> exists k1 x y k2, l = k1 ++ x :: y :: k2 /\ map f k1 = l1 /\ f x = a /\ f y = b /\ map f k2 = l2.
Proof.
  intros A B f l l1 a b l2 E. apply map_eq_app in E. destruct E as [k1 [k [E1 [E2 E3]]]]. destruct k as [|x [|y k2]]; try discriminate. cbn [map] in E3. injection E3 as E3 E4 E5.
  exists k1, x, y, k2. auto.
Qed.
Lemma together_strip : forall flow l, together flow (map strip l) <-> together flow l.
Proof.
  intros flow l. split; intros H l1 a b l2 E Ht.
  - apply (H (map strip l1) (strip a) (strip b) (map strip l2)); auto. rewrite E, map_app. reflexivity.
  - apply map_eq_split in E. destruct E as [k1 [x [y [k2 [E1 [E2 [E3 [E4 E5]]]]]]]]. rewrite <- E3, <- E4. cbn [strip f_id]. apply (H k1 x y k2 E1). rewrite <- E3 in Ht. exact Ht.
Qed.
Lemma agree_strip : forall T l, agree T (map strip l) <-> agree T l.
Proof. intros. unfold agree. rewrite !together_strip. reflexivity. Qed.
Lemma tag_strip : forall l, map tag (map strip l) = map tag l.
Proof. intros. rewrite map_map. reflexivity. Qed.

(** ** Packets *)
Section F.
Context {F : Type} (code : F -> Z) (decode : Z -> F) (hd tl : F -> bool) (pid : F -> Z) (vc lo src dst : F -> nat).
Hypothesis DC : forall f, decode (code f) = f.
Definition enc (f : F) : flit := {| f_id := code f; f_pid := pid f; f_head := hd f; f_tail := tl f; f_vc := vc f; f_la := [] |}.
Definition dec (g : flit) : F := decode (f_id g).
Definition tr : traffic := {| y_src := fun i => src (decode i); y_dest := fun i => dst (decode i); y_b := fun i => lo (decode i); y_e := fun i => lo (decode i) |}.
(** A packet: exactly its first flit is a head, exactly its last a tail, all have the same packet id, channel, type, source and destination. *)
Definition whole (p : list F) : Prop :=
  p <> [] /\ (forall j f, nth_error p j = Some f -> (hd f = true <-> j = 0) /\ (tl f = true <-> S j = length p)) /\
  exists x v t s d, forall f, In f p -> pid f = x /\ vc f = v /\ lo f = t /\ src f = s /\ dst f = d.

Lemma map_dec_enc : forall l, map dec (map enc l) = l.
Proof. intros l. rewrite map_map. rewrite <- (map_id l) at 2. apply map_ext. intros f. unfold dec, enc. cbn [f_id]. apply DC. Qed.
Lemma map_dec_strip : forall l, map dec (map strip l) = map dec l.
Proof. intros. rewrite map_map. reflexivity. Qed.

Lemma whole_parse : forall p, whole p -> parse (map enc p) = Some None.
Proof.
  intros p [H1 [H2 [x [v [t [s [d H3]]]]]]].
  assert (X : forall j, j <= length p -> parse (map enc (firstn j p)) = Some (if Nat.eqb j 0 || Nat.eqb j (length p) then None else Some x)).
  { intros j. induction j as [|j IH]; intros Hj; [reflexivity|]. destruct (nth_error p j) as [f|] eqn:Ef; [|apply nth_error_None in Ef; lia].
    assert (Es : firstn (S j) p = firstn j p ++ [f]).
    { clear - Ef. revert j Ef. induction p as [|a p IH]; intros [|j] Ef; try discriminate; cbn in *; [injection Ef as ->; reflexivity|]. rewrite (IH j Ef). reflexivity. }
    rewrite Es, map_app. cbn [map]. rewrite IqRouterProofs.parse_snoc, IH by lia. destruct (H2 j f Ef) as [A B]. destruct (H3 f (nth_error_In _ _ Ef)) as [C _]. cbn [pstep enc f_head f_tail f_pid].
    assert (N0 : Nat.eqb j (length p) = false) by (apply Nat.eqb_neq; lia). rewrite N0, orb_false_r. cbn [Nat.eqb orb].
    assert (Et : tl f = Nat.eqb (S j) (length p)) by (apply eq_true_iff_eq; rewrite B, Nat.eqb_eq; reflexivity). cbn [Nat.eqb] in Et.
    destruct (Nat.eqb_spec j 0) as [E0|E0].
    - rewrite (proj2 A E0), Et, C. destruct (match length p with O => false | S m => Nat.eqb j m end); reflexivity.
    - assert (Eh : hd f = false) by (destruct (hd f); auto; exfalso; apply E0, A; auto). rewrite Eh, C, Z.eqb_refl, Et. cbn [negb andb]. destruct (match length p with O => false | S m => Nat.eqb j m end); reflexivity. }
  specialize (X (length p) (le_n _)). rewrite firstn_all in X. rewrite X, Nat.eqb_refl, orb_true_r. reflexivity.
Qed.
Lemma wholes_parse : forall ps, Forall whole ps -> parse (map enc (concat ps)) = Some None.
Proof.
  intros ps H. induction H as [|p ps H1 H2 IH]; [reflexivity|]. cbn [concat]. rewrite map_app. unfold parse. rewrite fold_left_app. fold (parse (map enc p)). rewrite (whole_parse p H1). exact IH.
Qed.
Lemma whole_last : forall p, whole p -> exists a g, p = a ++ [g] /\ tl g = true.
Proof.
  intros p [H1 [H2 _]]. destruct (exists_last H1) as [a [g E]]. exists a, g. split; auto. apply (H2 (length a) g).
  - rewrite E, nth_error_app2, Nat.sub_diag; auto.
  - rewrite E, app_length. cbn. lia.
Qed.
Lemma wholes_together : forall (flow : Z -> nat) ps, (forall p f g, In p ps -> In f p -> In g p -> flow (code f) = flow (code g)) -> Forall whole ps -> together flow (map enc (concat ps)).
Proof.
  intros flow ps. induction ps as [|p ps IH]; intros Fl H l1 a b l2 E Ht; [destruct l1; discriminate|]. inversion H as [|? ? Hp Hps]. subst. cbn [concat] in E.
  apply map_eq_split in E. destruct E as [k1 [x [y [k2 [E [E1 [E2 [E3 E4]]]]]]]]. subst l1 a b l2. cbn [enc f_id f_tail] in *.
  destruct (Nat.lt_ge_cases (S (length k1)) (length p)) as [L|L].
  - apply (Fl p); [left; auto| |].
    + apply (nth_error_In _ (S (length k1))). rewrite <- (nth_error_app1 p (concat ps)) by lia. rewrite E, nth_error_app2 by lia. replace (S (length k1) - length k1) with 1 by lia. reflexivity.
    + apply (nth_error_In _ (length k1)). rewrite <- (nth_error_app1 p (concat ps)) by lia. rewrite E, nth_error_app2, Nat.sub_diag by lia. reflexivity.
  - destruct (Nat.eq_dec (S (length k1)) (length p)) as [Q|Q].
    + exfalso. destruct Hp as [_ [H2 _]]. assert (Ex : nth_error p (length k1) = Some x) by (rewrite <- (nth_error_app1 p (concat ps)) by lia; rewrite E, nth_error_app2, Nat.sub_diag by lia; reflexivity).
      destruct (H2 _ _ Ex) as [_ B]. rewrite (proj2 B Q) in Ht. discriminate.
    + assert (Sp : exists k, k1 = p ++ k /\ concat ps = k ++ x :: y :: k2).
      { exists (skipn (length p) k1). assert (A : firstn (length p) k1 = p).
        { apply (f_equal (firstn (length p))) in E. rewrite !firstn_app in E. replace (length p - length p) with 0 in E by lia. replace (length p - length k1) with 0 in E by lia. cbn [firstn] in E. rewrite !app_nil_r, firstn_all in E. auto. }
        split; [rewrite <- (firstn_skipn (length p) k1) at 1; rewrite A; reflexivity|].
        rewrite <- (firstn_skipn (length p) k1), A, <- app_assoc in E. apply app_inv_head in E. exact E. }
      destruct Sp as [k [-> E']]. apply (IH (fun p' f g Hp' => Fl p' f g (or_intror Hp')) Hps (map enc k) (enc x) (enc y) (map enc k2)); [|exact Ht]. rewrite E', map_app. reflexivity.
Qed.

Definition packets (l : list F) : Prop := exists ps, Forall whole ps /\ prefix l (concat ps).
Lemma on_vc_enc : forall v l, on_vc v (map enc l) = map enc (filter (fun f => Nat.eqb (vc f) v) l).
Proof. intros. unfold on_vc. rewrite filter_map_comm. reflexivity. Qed.
Lemma filter_wholes : forall v ps, Forall whole ps -> exists qs, Forall whole qs /\ incl qs ps /\ filter (fun f => Nat.eqb (vc f) v) (concat ps) = concat qs.
Proof.
  intros v ps H. induction H as [|p ps Hp Hps IH]; [exists []; split; [constructor|split; [intros ? []|reflexivity]]|]. destruct IH as [qs [Q1 [Q2 Q3]]].
  cbn [concat]. rewrite filter_app, Q3. pose proof Hp as [_ [_ [x [u [t [s [d H3]]]]]]]. destruct (Nat.eqb_spec u v) as [E|E].
  - exists (p :: qs). split; [constructor; auto|]. split; [intros q [<-|Hq]; [left|right]; auto|]. cbn [concat]. f_equal.
    assert (A : forall f, In f p -> Nat.eqb (vc f) v = true) by (intros f Hf; apply Nat.eqb_eq; destruct (H3 f Hf) as [_ [E1 _]]; congruence). clear - A.
    induction p as [|a p IH]; [reflexivity|]. cbn [filter]. rewrite (A a) by (left; auto). rewrite IH; auto. intros f Hf. apply A. right. auto.
  - exists qs. split; auto. split; [intros q Hq; right; auto|]. replace (filter _ p) with (@nil F); [reflexivity|]. symmetry.
    assert (A : forall f, In f p -> Nat.eqb (vc f) v = false) by (intros f Hf; apply Nat.eqb_neq; destruct (H3 f Hf) as [_ [E1 _]]; congruence). clear - A.
    induction p as [|a p IH]; [reflexivity|]. cbn [filter]. rewrite (A a) by (left; auto). apply IH. intros f Hf. apply A. right. auto.
Qed.
Lemma packets_ok : forall l v, packets l -> well_formed (on_vc v (map enc l)) /\ agree tr (on_vc v (map enc l)).
Proof.
  intros l v [ps [H [k E]]]. destruct (filter_wholes v ps H) as [qs [Q1 [_ Q3]]]. rewrite on_vc_enc. rewrite E, filter_app in Q3. split.
  - unfold well_formed. apply (parse_pre _ (map enc (filter (fun f => Nat.eqb (vc f) v) k))). rewrite <- map_app, Q3, (wholes_parse qs Q1). discriminate.
  - apply (agree_pre tr _ (map enc (filter (fun f => Nat.eqb (vc f) v) k))). rewrite <- map_app, Q3.
    assert (A : forall q f g, In q qs -> In f q -> In g q -> src f = src g /\ dst f = dst g /\ lo f = lo g).
    { intros q f g Hq Hf Hg. rewrite Forall_forall in Q1. destruct (Q1 q Hq) as [_ [_ [x [u [t [s [d H3]]]]]]]. destruct (H3 f Hf) as [_ [_ [? [? ?]]]]. destruct (H3 g Hg) as [_ [_ [? [? ?]]]]. repeat split; congruence. }
    split; [|split; [|split]]; apply wholes_together; auto; intros q f g Hq Hf Hg; cbn [tr y_src y_dest y_b y_e]; rewrite !DC; destruct (A q f g Hq Hf Hg) as [? [? ?]]; auto.
Qed.
Lemma packets_pre : forall a b, packets (a ++ b) -> packets a.
Proof. intros a b [ps [H [k E]]]. exists ps. split; auto. exists (b ++ k). rewrite E, app_assoc. reflexivity. Qed.

(** ** What arrives *)
Section Got.
Variables (N vcs : nat) (tk : nat -> list flit) (gt : list flit) (sent : nat -> list F) (d : nat).
Hypothesis TK : forall m, m < N -> map strip (tk m) = map enc (sent m).
Hypothesis OWN : forall m f, m < N -> In f (sent m) -> src f = m /\ vc f = lo f.
Hypothesis M1 : forall f, In f gt -> y_dest tr (f_id f) = d /\ y_src tr (f_id f) < N /\ f_vc f = y_b tr (f_id f) /\ f_vc f < vcs.
Hypothesis M2 : forall v, well_formed (on_vc v gt) /\ agree tr (on_vc v gt).
Hypothesis M3 : forall m v, m < N -> v < vcs -> prefix (map tag (between tr m d v gt)) (map tag (between tr m d v (tk m))).

Lemma tags_dec : forall a b, map tag a = map tag b -> map dec a = map dec b.
Proof.
  intros a. induction a as [|x a IH]; intros [|y b] E; try discriminate; auto. cbn [map] in *. injection E as E1 E2 E3 E4 E5. rewrite (IH b E5). unfold dec. rewrite E1. reflexivity.
Qed.
Lemma prefix_dec : forall a b, prefix (map tag a) (map tag b) -> prefix (map dec a) (map dec b).
Proof.
  intros a b [k E]. apply map_eq_app in E. destruct E as [b1 [b2 [-> [E2 E3]]]]. exists (map dec b2). rewrite map_app. f_equal. apply tags_dec. exact E2.
Qed.
Lemma dec_between : forall m v l, map dec (between tr m d v l) = filter (fun f => Nat.eqb (src f) m && Nat.eqb (dst f) d && Nat.eqb (lo f) v) (map dec l).
Proof. intros. unfold between. rewrite filter_map_comm. reflexivity. Qed.
Lemma dec_tk : forall m, m < N -> map dec (tk m) = sent m.
Proof. intros m Hm. rewrite <- map_dec_strip, TK by auto. apply map_dec_enc. Qed.
Lemma filter_same : forall A (p q : A -> bool) l, (forall x, In x l -> p x = q x) -> filter p l = filter q l.
Proof. intros A p q l. induction l as [|a l IH]; intros H; [reflexivity|]. cbn [filter]. rewrite (H a) by (left; auto). rewrite IH by (intros; apply H; right; auto). reflexivity. Qed.
Lemma sent_between : forall m v, m < N -> map dec (between tr m d v (tk m)) = filter (fun f => Nat.eqb (dst f) d && Nat.eqb (vc f) v) (sent m).
Proof.
  intros m v Hm. rewrite dec_between, (dec_tk m Hm). apply filter_same. intros f Hf. destruct (OWN m f Hm Hf) as [A B]. rewrite A, B, Nat.eqb_refl. reflexivity.
Qed.
(** What arrives is what was sent. *)
Lemma arrived_sent : forall g, In g gt -> strip g = enc (dec g) /\ In (dec g) (sent (src (dec g))) /\ src (dec g) < N /\ dst (dec g) = d /\ vc (dec g) = lo (dec g) /\ vc (dec g) < vcs.
Proof.
  intros g Hg. destruct (M1 g Hg) as [A1 [A2 [A3 A4]]]. cbn [tr y_dest y_src y_b] in *. fold (dec g) in A1, A2, A3.
  destruct (M3 (src (dec g)) (f_vc g) A2 A4) as [k E].
  assert (In (tag g) (map tag (between tr (src (dec g)) d (f_vc g) (tk (src (dec g)))))) as Hin.
  { rewrite E, in_app_iff. left. apply in_map. unfold between. apply filter_In. split; auto. cbn [tr y_src y_dest y_b]. fold (dec g). rewrite A1, <- A3, !Nat.eqb_refl. reflexivity. }
  apply in_map_iff in Hin. destruct Hin as [h [Eh Hh]]. unfold between in Hh. apply filter_In in Hh. destruct Hh as [Hh _].
  assert (In (strip h) (map enc (sent (src (dec g))))) as Hs by (rewrite <- TK by auto; apply in_map; auto). apply in_map_iff in Hs. destruct Hs as [f [Ef Hf]].
  destruct (OWN _ f A2 Hf) as [B1 B2]. injection Eh as C1 C2 C3 C4. assert (Ed : dec g = f) by (unfold dec; rewrite <- C1; injection Ef as D1 _ _ _ _; rewrite <- D1; apply DC).
  rewrite Ed in *. split; [|repeat split; auto; lia]. unfold strip, enc. injection Ef as D1 D2 D3 D4 D5. rewrite <- C1, <- C2, <- C3, <- C4, D1, D2, D3, D4. f_equal. lia.
Qed.
Lemma arrived_vc : forall g, In g gt -> vc (dec g) = f_vc g.
Proof. intros g Hg. destruct (arrived_sent g Hg) as [E _]. apply (f_equal f_vc) in E. symmetry. exact E. Qed.
Lemma arrived_prefix : forall m v, m < N -> v < vcs -> prefix (filter (fun f => Nat.eqb (src f) m && Nat.eqb (vc f) v) (map dec gt)) (filter (fun f => Nat.eqb (dst f) d && Nat.eqb (vc f) v) (sent m)).
Proof.
  intros m v Hm Hv. rewrite <- (sent_between m v Hm). replace (filter _ (map dec gt)) with (map dec (between tr m d v gt)); [apply prefix_dec, M3; auto|].
  rewrite dec_between. apply filter_same. intros f Hf. apply in_map_iff in Hf. destruct Hf as [g [<- Hg]]. destruct (arrived_sent g Hg) as [_ [_ [_ [A [B _]]]]]. rewrite A, B, Nat.eqb_refl, andb_true_r. reflexivity.
Qed.
Lemma arrived_all : (forall m v, m < N -> v < vcs -> map tag (between tr m d v gt) = map tag (between tr m d v (tk m))) ->
  forall m v, m < N -> v < vcs -> filter (fun f => Nat.eqb (src f) m && Nat.eqb (vc f) v) (map dec gt) = filter (fun f => Nat.eqb (dst f) d && Nat.eqb (vc f) v) (sent m).
Proof.
  intros H m v Hm Hv. rewrite <- (sent_between m v Hm), <- (tags_dec _ _ (H m v Hm Hv)).
  rewrite dec_between. apply filter_same. intros f Hf. apply in_map_iff in Hf. destruct Hf as [g [<- Hg]]. destruct (arrived_sent g Hg) as [_ [_ [_ [A [B _]]]]]. rewrite A, B, Nat.eqb_refl, andb_true_r. reflexivity.
Qed.
(** Packets do not interleave on a channel. *)
Lemma arrived_worm : forall v a f g b, filter (fun f => Nat.eqb (vc f) v) (map dec gt) = a ++ f :: g :: b -> tl f = false -> src g = src f.
Proof.
  intros v a f g b E Ht. rewrite filter_map_comm in E. assert (Ef : filter (fun x => Nat.eqb (vc (dec x)) v) gt = on_vc v gt) by (unfold on_vc; apply filter_same; intros x Hx; rewrite (arrived_vc x Hx); reflexivity). rewrite Ef in E.
  apply map_eq_split in E. destruct E as [k1 [x [y [k2 [E [_ [E2 [E3 _]]]]]]]]. destruct (M2 v) as [_ [A _]].
  assert (Hx : In x gt) by (assert (X : In x (on_vc v gt)) by (rewrite E, in_app_iff; right; left; auto); apply filter_In in X; apply X).
  specialize (A k1 x y k2 E). cbn [tr y_src] in A. fold (dec x) (dec y) in A. rewrite E2, E3 in A. apply A. destruct (arrived_sent x Hx) as [S _]. apply (f_equal f_tail) in S. cbn [strip enc f_tail] in S. rewrite S, E2. exact Ht.
Qed.
End Got.
End F.
