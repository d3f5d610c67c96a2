(** Networks from tables of channels: wiring and packets. *)
From Coq Require Import ZArith Arith Bool List Lia Permutation.
From Verif Require Import Fupd AllocModel AllocSpec BufferModel RouteModel ChannelModel IqRouterModel IqRouterSpec IqRouterInv NetModel NetSpec NetMeshModel NetMeshSpec NetMeshProofs NetProgressSpec FlyProofs FatTreeProofs TreeModel TreeSpec.
Import ListNotations.
Open Scope nat_scope.

Lemma tab_in : forall l r i, r < length l -> i < length (nth r l []) -> In (tab l r i) (concat l).
Proof.
  intros l r i Hr Hi. apply in_concat. exists (nth r l []). split; [apply nth_In; auto|]. unfold tab. apply nth_In; auto.
Qed.
Lemma tab_ex : forall l c, In c (concat l) -> exists r i, r < length l /\ i < length (nth r l []) /\ tab l r i = c.
Proof.
  intros l c H. apply in_concat in H. destruct H as [x [Hx Hc]]. destruct (In_nth l x [] Hx) as [r [Hr Er]]. destruct (In_nth x c (Ch 0) Hc) as [i [Hi Ei]]. exists r, i. unfold tab. rewrite Er. auto.
Qed.
Lemma tab_one : forall l, NoDup (concat l) -> forall r i r' i', r < length l -> i < length (nth r l []) -> r' < length l -> i' < length (nth r' l []) -> tab l r i = tab l r' i' -> r = r' /\ i = i'.
Proof.
  intros l. induction l as [|x l IH]; intros ND r i r' i' Hr Hi Hr' Hi' E; [cbn in Hr; lia|]. cbn [concat] in ND.
  assert (D : NoDup x /\ NoDup (concat l) /\ forall a, In a x -> ~ In a (concat l)).
  { clear - ND. induction x as [|a x IHx]; [split; [constructor|split; auto]|]. cbn [app] in ND. inversion ND; subst. destruct (IHx H2) as [D1 [D2 D3]]. split; [constructor; auto; intros Hc; apply H1; apply in_app_iff; auto|]. split; auto.
    intros y [<-|Hy]; [intros Hc; apply H1; apply in_app_iff; auto|apply D3; auto]. }
  destruct D as [D1 [D2 D3]].
  destruct r as [|r], r' as [|r']; cbn [length nth] in *.
  - split; auto. unfold tab in E. cbn [nth] in E. apply (proj1 (NoDup_nth x (Ch 0)) D1); auto.
  - exfalso. apply (D3 (tab (x :: l) 0 i)); [unfold tab; cbn [nth]; apply nth_In; auto|]. rewrite E. apply (tab_in l r' i'); auto. lia.
  - exfalso. apply (D3 (tab (x :: l) 0 i')); [unfold tab; cbn [nth]; apply nth_In; auto|]. rewrite <- E. apply (tab_in l r i); auto. lia.
  - destruct (IH D2 r i r' i') as [-> ->]; auto; try lia.
Qed.

(** ** What is checked by computation *)
Definition full (n : nat -> cid) (nodes chans : nat) : list cid := map n (seq 0 nodes) ++ map Ch (seq 0 chans).
Definition all_in (x : list cid) (l : list (list cid)) : bool := let y := concat l in Nat.eqb (length y) (length x) && forallb (fun c => existsb (cid_eqb c) y) x.
Definition degs (size : nat) (deg : nat -> nat) (l : list (list cid)) : bool := Nat.eqb (length l) size && forallb (fun r => Nat.eqb (length (nth r l [])) (deg r)) (seq 0 size).
Lemma degs_ok : forall size deg l, degs size deg l = true -> length l = size /\ forall r, r < size -> length (nth r l []) = deg r.
Proof.
  intros size deg l H. apply andb_true_iff in H. destruct H as [H1 H2]. apply Nat.eqb_eq in H1. split; auto. intros r Hr. rewrite forallb_forall in H2. apply Nat.eqb_eq. apply H2. apply in_seq. lia.
Qed.
Lemma full_nodup : forall n nodes chans, (forall a b, n a = n b -> a = b) -> (forall a c, n a <> Ch c) -> NoDup (full n nodes chans).
Proof.
  intros n nodes chans J D. unfold full. apply NoDup_app.
  - apply FinFun.Injective_map_NoDup; [exact J|apply seq_NoDup].
  - apply FinFun.Injective_map_NoDup; [intros a b E; congruence|apply seq_NoDup].
  - intros x H1 H2. apply in_map_iff in H1, H2. destruct H1 as [a [<- _]]. destruct H2 as [c [E _]]. apply (D a c). auto.
Qed.
Lemma all_ok : forall x l, NoDup x -> all_in x l = true -> NoDup (concat l) /\ forall c, In c (concat l) <-> In c x.
Proof.
  intros x l ND H. apply andb_true_iff in H. destruct H as [H1 H2]. apply Nat.eqb_eq in H1. rewrite forallb_forall in H2.
  assert (Inc : incl x (concat l)). { intros c Hc. specialize (H2 c Hc). apply existsb_exists in H2. destruct H2 as [y [Hy E]]. apply cid_eqb_eq in E. subst y. exact Hy. }
  split.
  - apply (NoDup_incl_NoDup ND); auto. lia.
  - intros c. split; [|apply Inc]. apply (NoDup_length_incl ND); auto. lia.
Qed.

Section Tree.
Variables (size nodes chans : nat) (deg : nat -> nat) (ins outs : list (list cid)) (b : bcfg) (rd : bool) (cd ob : Z).
Let w : netcfg := tree_net size nodes chans deg ins outs b rd cd ob.
Hypothesis Di : degs size deg ins = true.
Hypothesis Do : degs size deg outs = true.
Hypothesis Ai : all_in (full Inj nodes chans) ins = true.
Hypothesis Ao : all_in (full Ej nodes chans) outs = true.

Let ndi : NoDup (full Inj nodes chans).
Proof. apply full_nodup; [intros x y E; congruence|discriminate]. Qed.
Let ndo : NoDup (full Ej nodes chans).
Proof. apply full_nodup; [intros x y E; congruence|discriminate]. Qed.
Lemma t_snk : forall c r i, w_snk w c = Some (r, i) <-> (r < size /\ i < deg r /\ tab ins r i = c).
Proof.
  intros c r i. destruct (degs_ok _ _ _ Di) as [L1 L2]. apply port_iff. intros r1 i1 r2 i2 H1 H2 H3 H4 E. apply (tab_one ins (proj1 (all_ok _ _ ndi Ai))); auto; try lia; rewrite L2; auto.
Qed.
Lemma t_src : forall c r i, w_src w c = Some (r, i) <-> (r < size /\ i < deg r /\ tab outs r i = c).
Proof.
  intros c r i. destruct (degs_ok _ _ _ Do) as [L1 L2]. apply port_iff. intros r1 i1 r2 i2 H1 H2 H3 H4 E. apply (tab_one outs (proj1 (all_ok _ _ ndo Ao))); auto; try lia; rewrite L2; auto.
Qed.
Lemma snk_in : forall c, w_snk w c <> None <-> In c (full Inj nodes chans).
Proof.
  intros c. destruct (degs_ok _ _ _ Di) as [L1 L2]. destruct (all_ok _ _ ndi Ai) as [_ A]. rewrite <- A. apply (some_ne True); auto.
  - intros r i E. apply t_snk in E. destruct E as [E1 [E2 <-]]. apply tab_in; [lia|rewrite L2; auto].
  - intros Hc. destruct (tab_ex _ _ Hc) as [r [i [H1 [H2 H3]]]]. exists r, i. apply t_snk. rewrite L1 in H1. rewrite L2 in H2 by auto. auto.
Qed.
Lemma src_in : forall c, w_src w c <> None <-> In c (full Ej nodes chans).
Proof.
  intros c. destruct (degs_ok _ _ _ Do) as [L1 L2]. destruct (all_ok _ _ ndo Ao) as [_ A]. rewrite <- A. apply (some_ne True); auto.
  - intros r i E. apply t_src in E. destruct E as [E1 [E2 <-]]. apply tab_in; [lia|rewrite L2; auto].
  - intros Hc. destruct (tab_ex _ _ Hc) as [r [i [H1 [H2 H3]]]]. exists r, i. apply t_src. rewrite L1 in H1. rewrite L2 in H2 by auto. auto.
Qed.
Lemma full_ch : forall n c, (forall a, n a <> Ch c) -> In (Ch c) (full n nodes chans) <-> c < chans.
Proof.
  intros n c D. unfold full. rewrite in_app_iff, !in_map_iff. split.
  - intros [[x [E _]]|[x [E Hx]]]; [destruct (D x E)|]. injection E as ->. apply in_seq in Hx. lia.
  - intros Hc. right. exists c. split; auto. apply in_seq. lia.
Qed.
Lemma full_node : forall n m, (forall a b, n a = n b -> a = b) -> (forall c, n m <> Ch c) -> In (n m) (full n nodes chans) <-> m < nodes.
Proof.
  intros n m J D. unfold full. rewrite in_app_iff, !in_map_iff. split.
  - intros [[x [E Hx]]|[x [E Hx]]]; [|destruct (D x); auto]. apply J in E. subst x. apply in_seq in Hx. lia.
  - intros Hc. left. exists m. split; auto. apply in_seq. lia.
Qed.
Lemma t_wired : wired w.
Proof.
  constructor.
  - intros r _. split; reflexivity.
  - apply t_snk.
  - apply t_src.
  - intros m. split.
    + destruct (w_src w (Inj m)) eqn:E; auto. exfalso. assert (X : In (Inj m) (full Ej nodes chans)) by (apply src_in; congruence). unfold full in X. rewrite in_app_iff, !in_map_iff in X. destruct X as [[x [E' _]]|[x [E' _]]]; discriminate.
    + rewrite snk_in. apply (full_node Inj); [intros; congruence|discriminate].
  - intros m. split.
    + destruct (w_snk w (Ej m)) eqn:E; auto. exfalso. assert (X : In (Ej m) (full Inj nodes chans)) by (apply snk_in; congruence). unfold full in X. rewrite in_app_iff, !in_map_iff in X. destruct X as [[x [E' _]]|[x [E' _]]]; discriminate.
    + rewrite src_in. apply (full_node Ej); [intros; congruence|discriminate].
  - intros c. split; [rewrite snk_in|rewrite src_in]; apply full_ch; discriminate.
Qed.

(** ** Packets *)
Variables (ports : nat -> nat -> list Z) (okb : nat -> nat -> bool) (left : cid -> nat -> nat) (rank : cid -> nat) (T : traffic).
Definition okc (c : cid) (d : nat) : bool := match c with Inj _ => true | Ej m => Nat.eqb m d | Ch x => okb x d end.
Definition chk_go : bool :=
  forallb (fun r => forallb (fun d =>
    let ps := ports r d in
    negb (match ps with [] => true | _ => false end) &&
    forallb (fun c => if okc c d then forallb (fun p => let o := Z.to_nat p in let c' := tab outs r o in Z.leb 0 p && Nat.ltb o (deg r) && okc c' d && Nat.eqb (left c d) (S (left c' d))) ps else true) (nth r ins [])) (seq 0 nodes)) (seq 0 size).
Definition chk_rank : bool :=
  forallb (fun r => forallb (fun d =>
    let x := filter (fun c => okc c d) (nth r ins []) in let y := filter (fun c => okc c d) (nth r outs []) in
    forallb (fun c => forallb (fun c' => Nat.ltb (rank c') (rank c)) y) x) (seq 0 nodes)) (seq 0 size).
Hypothesis Go : chk_go = true.
Hypothesis Ra : chk_rank = true.
Let ok := tree_ok nodes okb T (bc_vcs b).

Lemma ok_okc : forall c g, ok c g -> okc c (y_dest T (f_id g)) = true.
Proof. intros c g [_ [_ [_ [_ O]]]]. destruct c; cbn [okc]; auto. apply Nat.eqb_eq. auto. Qed.
Lemma go_ok : forall r i d, r < size -> i < deg r -> d < nodes -> okc (tab ins r i) d = true -> ports r d <> [] /\
  forall p, In p (ports r d) -> (0 <= p)%Z /\ Z.to_nat p < deg r /\ okc (tab outs r (Z.to_nat p)) d = true /\ left (tab ins r i) d = S (left (tab outs r (Z.to_nat p)) d).
Proof.
  intros r i d Hr Hi Hd O. unfold chk_go in Go. rewrite forallb_forall in Go. specialize (Go r ltac:(apply in_seq; lia)). rewrite forallb_forall in Go. specialize (Go d ltac:(apply in_seq; lia)).
  apply andb_true_iff in Go. destruct Go as [G1 G2]. split; [intros E; rewrite E in G1; discriminate|]. intros p Hp. rewrite forallb_forall in G2. destruct (degs_ok _ _ _ Di) as [L1 L2].
  specialize (G2 (tab ins r i) ltac:(unfold tab; apply nth_In; rewrite L2; auto)). rewrite O in G2. rewrite forallb_forall in G2. specialize (G2 p Hp). cbv zeta in G2. rewrite !andb_true_iff in G2. destruct G2 as [[[A B] C] D].
  apply Z.leb_le in A. apply Nat.ltb_lt in B. apply Nat.eqb_eq in D. auto.
Qed.
Lemma t_lawful : forall r i f es, r < w_n w -> i < c_in (w_cfg w r) -> ok (w_in w r i) f ->
  (exists p, In p (ports r (y_dest T (f_id f))) /\ es = [add_range p (Z.of_nat (y_b T (f_id f))) (Z.of_nat (y_e T (f_id f)))]) -> lawful w ok r f es /\ es <> [].
Proof.
  intros r i f es Hr Hi O [p [Hp ->]]. split; [|discriminate]. pose proof (ok_okc _ _ O) as Oc. destruct O as [O1 [O2 [O3 [O4 _]]]]. destruct (go_ok r i _ Hr Hi O2 Oc) as [_ G]. destruct (G p Hp) as [P1 [P2 [P3 _]]]. split.
  - split.
    + constructor; [|constructor]. cbn [add_range o_port o_lo o_hi]. change (c_outs (w_cfg w r)) with (deg r). change (c_vcs (w_cfg w r)) with (bc_vcs b). lia.
    + unfold channels_of. cbn [flat_map]. rewrite app_nil_r. unfold elem_pairs. apply FinFun.Injective_map_NoDup; [intros x y E; injection E; auto|]. apply seq_NoDup.
  - intros o v g Hin Sg Ev. unfold channels_of in Hin. cbn [flat_map] in Hin. rewrite app_nil_r in Hin. unfold elem_pairs in Hin. apply in_map_iff in Hin. destruct Hin as [v' [E Hin]].
    cbn [add_range o_port o_lo o_hi] in *. injection E as <- <-. apply in_seq in Hin. change (w_out w) with (tab outs). destruct Sg as [Eg _]. unfold ok, tree_ok. rewrite Eg. split; auto. split; auto. split; auto. split; [lia|].
    assert (Hs : w_src w (tab outs r (Z.to_nat p)) = Some (r, Z.to_nat p)) by (apply t_src; auto). destruct (tab outs r (Z.to_nat p)) as [m|m|c]; cbn [okc] in P3; auto.
    + rewrite (proj1 (wi_inj w t_wired m)) in Hs. discriminate.
    + apply Nat.eqb_eq. auto.
Qed.
Lemma t_start : forall f, y_src T (f_id f) < w_nodes w -> y_dest T (f_id f) < w_nodes w -> y_b T (f_id f) <= f_vc f <= y_e T (f_id f) -> y_e T (f_id f) < bc_vcs (w_b w) -> ok (Inj (y_src T (f_id f))) f.
Proof. intros f H1 H2 H3 H4. change (bc_vcs (w_b w)) with (bc_vcs b) in H4. unfold ok, tree_ok. split; auto. split; auto. split; [lia|]. split; [lia|]. reflexivity. Qed.
Lemma t_end : forall d f, ok (Ej d) f -> y_dest T (f_id f) = d.
Proof. intros d f [O1 [O2 [O3 [O4 O5]]]]. auto. Qed.
Lemma t_descends : descends w ok (fun c _ => rank c).
Proof.
  intros c c' r i o f g Ei Eo Hh [Sid _] A B. pose proof (ok_okc _ _ A) as Ac. pose proof (ok_okc _ _ B) as Bc. rewrite Sid in Bc. destruct A as [_ [A2 _]]. apply t_snk in Ei. apply t_src in Eo. destruct Ei as [Hr [Hi Ec]]. destruct Eo as [_ [Ho Ec']].
  unfold chk_rank in Ra. rewrite forallb_forall in Ra. specialize (Ra r ltac:(apply in_seq; lia)). rewrite forallb_forall in Ra. specialize (Ra (y_dest T (f_id f)) ltac:(apply in_seq; lia)). cbv zeta in Ra. rewrite forallb_forall in Ra.
  destruct (degs_ok _ _ _ Di) as [_ L2]. destruct (degs_ok _ _ _ Do) as [_ M2].
  specialize (Ra c). rewrite forallb_forall in Ra. apply Nat.ltb_lt. apply Ra; apply filter_In; (split; [|assumption]); subst c c'; unfold tab; apply nth_In; [rewrite L2|rewrite M2]; auto.
Qed.
Lemma t_goes : forall gives bb ee d, d < nodes -> (forall r, r < size -> exists es, gives r es) -> (forall r es, r < size -> gives r es -> exists p, In p (ports r d) /\ es = [add_range p bb ee]) -> (forall m, left (Ej m) d = 0) ->
  forall h c, left c d = h -> okc c d = true -> (In c (full Inj nodes chans) \/ c = Ej d) -> goes w gives bb ee d c h.
Proof.
  intros gives bb ee d Hd G1 G2 L0. intros h. induction h as [|h IH]; intros c El O Hc.
  - destruct Hc as [Hc| ->]; [|apply goes_out]. exfalso. apply snk_in in Hc. destruct (w_snk w c) as [[r i]|] eqn:Es; [|congruence]. apply t_snk in Es. destruct Es as [Hr [Hi <-]]. destruct (go_ok r i d Hr Hi Hd O) as [N G].
    destruct (ports r d) as [|p ps]; [congruence|]. destruct (G p (or_introl eq_refl)) as [_ [_ [_ X]]]. lia.
  - destruct Hc as [Hc| ->]; [|rewrite L0 in El; discriminate]. apply snk_in in Hc. destruct (w_snk w c) as [[r i]|] eqn:Es; [|congruence]. pose proof Es as Es'. apply t_snk in Es. destruct Es as [Hr [Hi Ec]]. rewrite <- Ec in O, El. destruct (go_ok r i d Hr Hi Hd O) as [N G].
    apply (goes_hop w gives bb ee d c r i h Es' (G1 r Hr)). intros es He. destruct (G2 r es Hr He) as [p [Hp ->]]. destruct (G p Hp) as [P1 [P2 [P3 P4]]]. exists (Z.to_nat p). rewrite Z2Nat.id by auto. split; auto. split; auto. change (w_out w) with (tab outs). apply IH; [lia|auto|].
    assert (Hs : w_src w (tab outs r (Z.to_nat p)) = Some (r, Z.to_nat p)) by (apply t_src; auto). destruct (tab outs r (Z.to_nat p)) as [m|m|x].
    + rewrite (proj1 (wi_inj w t_wired m)) in Hs. discriminate.
    + right. cbn [okc] in P3. apply Nat.eqb_eq in P3. congruence.
    + left. apply full_ch; [discriminate|]. apply (wi_ch w t_wired x). congruence.
Qed.
End Tree.
