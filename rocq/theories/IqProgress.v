(** What a router gives out when there is something to give. *)
From Coq Require Import ZArith Arith Bool List Lia Permutation.
From Verif Require Import Fupd ArbiterModel AllocModel AllocSpec BufferModel BufferSpec BufferProofs RouteModel IqRouterModel IqRouterSpec IqRouterProofs IqRouterInv IqRouterRun IqPotential NetModel NetSpec NetProgressSpec.
Import ListNotations.
Open Scope nat_scope.

Lemma given_in : forall A B (a : A) (b : B) D, In (a, Some b) D -> (0 < given D)%Z.
Proof.
  intros A B a b D. induction D as [|d D IH]; intros H; [destruct H|]. rewrite given_cons. assert (X := given_nonneg _ _ D). destruct H as [->|H]; [cbn [snd]; lia|]. specialize (IH H). destruct (snd d); lia.
Qed.
Lemma map_opt_in : forall A B (f : A -> option B) l q a, map_opt f l = Some q -> In a l -> exists b, f a = Some b /\ In b q.
Proof.
  intros A B f l. induction l as [|x l IH]; intros q a H Ha; [destruct Ha|]. cbn [map_opt] in H. destruct (f x) as [b|] eqn:E; [|discriminate]. destruct (map_opt f l) as [r|]; [|discriminate]. injection H as <-.
  destruct Ha as [->|Ha]; [exists b; split; auto; left; auto|]. destruct (IH _ _ eq_refl Ha) as [b' [A1 A2]]. exists b'. split; auto. right. auto.
Qed.
Lemma map_opt_two : forall A B (f : A -> option B) l q, map_opt f l = Some q -> Forall2 (fun a b => f a = Some b) l q.
Proof.
  intros A B f l. induction l as [|x l IH]; intros q H; cbn [map_opt] in H; [injection H as <-; constructor|]. destruct (f x) as [b|] eqn:E; [|discriminate]. destruct (map_opt f l) as [r|]; [|discriminate]. injection H as <-. constructor; auto.
Qed.

Section Live.
Variables (c : iqcfg) (P : bpolicy) (I : bst -> po_st P -> Prop).
Hypothesis HP : policy_ok (c_b c) P I.
Variable Rm : Z -> bst -> nat -> po_st P -> Prop.
Hypothesis HR : room_ok (c_b c) P I Rm.

(** The way of a packet that has an output. *)
Lemma gparse_head : forall l p ow, gparse l = Some (Some (p, ow)) -> exists t, In t l /\ f_head (fst t) = true /\ way t = ow.
Proof.
  intros l. induction l as [|t l IH] using rev_ind; intros p ow H; [discriminate|]. rewrite gparse_snoc in H. destruct (gparse l) as [[[p1 w1]|]|] eqn:G; cbn [gstep] in H; [| |discriminate].
  - destruct (_ && _); [|discriminate]. destruct (f_tail (fst t)); [discriminate|]. injection H as -> ->. destruct (IH _ _ eq_refl) as [t' [A B]]. exists t'. split; auto. apply in_app_iff. auto.
  - destruct (f_head (fst t)) eqn:Hd; [|discriminate]. destruct (f_tail (fst t)); [discriminate|]. injection H as _ <-. exists t. split; auto. apply in_app_iff. right. left. auto.
Qed.
Lemma active_from : forall xs pr pv ps px s g i v o w, Inv c P I xs pr pv ps px s g -> i < c_in c -> v < c_vcs c -> v_state (r_vc s i v) = Active -> v_out (r_vc s i v) = Some (o, w) ->
  o < c_outs c /\ w < c_vcs c /\ exists f, In f (g_rx g i v) /\ f_vc f = v /\ f_head f = true /\ chosen c xs i f (o, w).
Proof.
  intros xs pr pv ps px s g i v o w H Hi Hv S E. pose proof (iv_vc _ _ _ _ _ _ _ _ _ _ H i v Hi Hv) as K. destruct (vk_st _ _ _ _ _ _ _ K) as [gs [G St]]. unfold stok in St. rewrite S in St. destruct St as [o' [w' [E' [Ho [Hw St]]]]].
  rewrite E in E'. injection E' as <- <-. split; auto. split; auto. pose proof (vk_vc _ _ _ _ _ _ _ K) as FV. rewrite Forall_forall in FV. destruct gs as [[p ow]|].
  - subst ow. destruct (gparse_head _ _ _ G) as [[f [o1 g1]] [A [B C]]]. cbn [fst] in B. unfold way in C. cbn [fst snd] in C. injection C as -> Ev. exists f.
    assert (Hin : In f (g_rx g i v)) by (rewrite (vk_rx _ _ _ _ _ _ _ K); apply in_app_iff; left; apply in_map_iff; exists (f, (o, g1)); auto). split; auto. split; [auto|]. split; auto.
    pose proof (vk_gone _ _ _ _ _ _ _ K) as F. rewrite Forall_forall in F. specialize (F _ A). unfold trip_ok in F. destruct F as [_ [_ [_ [_ [_ [_ [F _]]]]]]]. specialize (F B). rewrite Ev in F. exact F.
  - destruct St as [f [r [Eb Ch]]]. destruct (vk_front _ _ _ _ _ _ _ _ _ K Eb) as [gs [s1 [G1 [_ [Ps _]]]]]. rewrite G in G1. injection G1 as <-. cbn [option_map pstep] in Ps. destruct (f_head f) eqn:Hd; [|discriminate].
    assert (Hin : In f (g_rx g i v)) by (rewrite (vk_rx _ _ _ _ _ _ _ K), Eb; apply in_app_iff; right; left; auto). exists f. auto.
Qed.
Lemma valloc_from : forall xs pr pv ps px s g i v, Inv c P I xs pr pv ps px s g -> i < c_in c -> v < c_vcs c -> v_state (r_vc s i v) = VAlloc ->
  exists f, In f (g_rx g i v) /\ f_vc f = v /\ f_head f = true /\ good_route c (v_route (r_vc s i v)) /\ offered c xs i f (v_route (r_vc s i v)).
Proof.
  intros xs pr pv ps px s g i v H Hi Hv S. pose proof (iv_vc _ _ _ _ _ _ _ _ _ _ H i v Hi Hv) as K. destruct (vk_st _ _ _ _ _ _ _ K) as [gs [G St]]. unfold stok in St. rewrite S in St. destruct St as [-> [Gr [f [r [Eb Of]]]]].
  destruct (vk_front _ _ _ _ _ _ _ _ _ K Eb) as [gs [s1 [G1 [_ [Ps _]]]]]. rewrite G in G1. injection G1 as <-. cbn [option_map pstep] in Ps. destruct (f_head f) eqn:Hd; [|discriminate].
  pose proof (vk_vc _ _ _ _ _ _ _ K) as FV. rewrite Forall_forall in FV.
  assert (Hin : In f (g_rx g i v)) by (rewrite (vk_rx _ _ _ _ _ _ _ K), Eb; apply in_app_iff; right; left; auto). exists f. auto 10.
Qed.

(** Someone asks for an output channel that is free. *)
Lemma va_live : forall xs pr ps px s g x i v o w, Inv c P I xs pr [] ps px s g ->
  (forall l, legal_asks (c_in c * c_vcs c) (c_outs c * c_vcs c) l -> matching l (i_va x l)) -> gives (c_in c * c_vcs c) (c_outs c * c_vcs c) (i_va x) ->
  i < c_in c -> v < c_vcs c -> v_state (r_vc s i v) = VAlloc -> In (o, w) (channels_of (v_route (r_vc s i v))) -> available_for (bs_b (r_next s o)) w = true ->
  forall D, va_evaluate c x s = Some D -> (0 < given D)%Z.
Proof.
  intros xs pr ps px s g x i v o w H Al Gi Hi Hv St Hin Av D ED.
  set (R := fun (iv : nat * nat) (q : list ask) => va_asks c s iv = Some q /\ fst iv < c_in c /\ snd iv < c_vcs c /\ NoDup (map fst q) /\
    forall a, In a q -> fst (fst a) = fst iv * c_vcs c + snd iv /\ q_label (snd a) = 0%Z /\ exists o w, snd (fst a) = o * c_vcs c + w /\ o < c_outs c /\ w < c_vcs c /\
      available_for (bs_b (r_next s o)) w = true /\ In (o, w) (channels_of (v_route (r_vc s (fst iv) (snd iv))))).
  destruct (map_opt_ok _ _ (va_asks c s) R (r_va s)) as [qs [E F]].
  { intros [i' v'] Hx. destruct (va_asks_ok _ _ _ _ _ _ _ _ _ _ _ _ H Hx) as [Hi' [Hv' [q [Eq [N A]]]]]. exists q. split; [exact Eq|]. split; [exact Eq|]. split; [exact Hi'|]. split; [exact Hv'|]. auto. }
  destruct (iv_q _ _ _ _ _ _ _ _ _ _ H) as [_ [[N0 Q] _]]. rewrite app_nil_r in N0, Q. rename N0 into Nva.
  assert (SRC : forall vs qq, Forall2 R vs qq -> forall a, In a (concat qq) -> exists iv q, In (iv, q) (combine vs qq) /\ In a q /\ In iv vs /\ R iv q).
  { intros vs qq F0. induction F0 as [|iv q vs0 qq0 Rq F0 IH]; intros a Ha; [destruct Ha|]. cbn [concat] in Ha. apply in_app_iff in Ha. destruct Ha as [Ha|Ha].
    - exists iv, q. cbn. auto.
    - destruct (IH a Ha) as [iv' [q' [A [B [C D']]]]]. exists iv', q'. cbn. auto. }
  assert (Ndc : NoDup (map fst (concat qs))).
  { clear E Q. induction F as [|iv q vs0 qq0 Rq F0 IH]; cbn [concat map]; [constructor|]. inversion Nva as [|? ? N1 N2]; subst. rewrite map_app. apply NoDup_app; [apply Rq|apply IH; auto|].
    intros b Hb Hb'. apply in_map_iff in Hb, Hb'. destruct Hb as [a [Ea Ha]], Hb' as [a' [Ea' Ha']]. destruct (SRC _ _ F0 a' Ha') as [iv' [q' [_ [B [C D']]]]].
    destruct Rq as [_ [R1 [R2 [_ R3]]]]. destruct D' as [_ [D1 [D2 [_ D3]]]]. destruct (R3 a Ha) as [X _], (D3 a' B) as [Y _].
    assert (Z1 : fst iv * c_vcs c + snd iv = fst iv' * c_vcs c + snd iv') by congruence. apply code_inj in Z1; auto. apply N1. destruct iv, iv'. cbn [fst snd] in Z1. destruct Z1 as [-> ->]. auto. }
  assert (Lg : legal_asks (c_in c * c_vcs c) (c_outs c * c_vcs c) (concat qs)).
  { split; auto. apply Forall_forall. intros a Ha. destruct (SRC _ _ F a Ha) as [[i' v'] [q [_ [B [_ [_ [D1 [D2 [_ D3]]]]]]]]]. destruct (D3 a B) as [X [Y [o' [w' [Z1 [Ho [Hw _]]]]]]]. cbn [fst snd] in *.
    rewrite X, Y, Z1. split; [apply code_lt; auto|]. split; [apply code_lt; auto|lia]. }
  assert (Ne : concat qs <> []).
  { assert (Hva : In (i, v) (r_va s)) by (apply Q; auto). destruct (map_opt_in _ _ _ _ _ _ E Hva) as [q [Eq Iq]]. destruct (va_asks_ok _ _ _ _ _ _ _ _ _ _ _ _ H Hva) as [_ [_ _]].
    destruct (valloc_from _ _ _ _ _ _ _ _ _ H Hi Hv St) as [f [_ [_ [_ [[Gr _] _]]]]]. unfold va_asks in Eq. cbn [fst snd] in Eq. destruct (front c VAlloc i v s) as [f1|]; [|discriminate]. destruct (f_head f1); [|discriminate].
    destruct (elem_asks_ok c P (r_next s) (i * c_vcs c + v) _ Gr) as [q' [Eq' [M _]]]. rewrite Eq in Eq'. injection Eq' as <-.
    assert (X : In (i * c_vcs c + v, o * c_vcs c + w) (map fst q)) by (rewrite M; apply in_map_iff; exists (o, w); split; auto; apply filter_In; auto).
    apply in_map_iff in X. destruct X as [a [_ Ha]]. intros Z1. assert (Y : In a (concat qs)) by (apply in_concat; eauto). rewrite Z1 in Y. destruct Y. }
  destruct (Al _ Lg) as [M1 M2]. destruct (Gi _ Lg Ne) as [iv [ow Em]]. unfold va_evaluate in ED. rewrite E, (once_ok _ Ndc) in ED.
  destruct (M2 _ _ Em) as [q' Hq]. destruct (SRC _ _ F _ Hq) as [[i' v'] [q1 [B0 [B [_ [_ [D1 [D2 [_ D3]]]]]]]]]. destruct (D3 _ B) as [X _]. cbn [fst snd] in *.
  destruct (map_opt_in _ _ _ _ _ _ ED B0) as [d [Ed Hd]]. unfold va_read in Ed. destruct q1 as [|a0 q1]; [destruct B|]. rewrite <- X, Em in Ed. destruct (Nat.ltb _ _); [|discriminate]. injection Ed as <-. apply (given_in _ _ _ _ _ Hd).
Qed.

(** Someone asks for an output whose channel has room. *)
Definition blocked (now : Z) (s : router P) (iv : nat * nat) : Prop := exists o w, v_out (r_vc s (fst iv) (snd iv)) = Some (o, w) /\
  (po_full P now (bs_b (r_next s o)) w (bs_p (r_next s o)) = Some true \/ (0 <= c_obuf c <= Z.of_nat (length (r_out s o)))%Z).
Lemma stalled_blocked : forall now s q a a', fold_opt (sa_ask c now s) q a = Some a' -> (forall iv, In iv (snd a) -> blocked now s iv) ->
  (forall iv, In iv (snd a') -> blocked now s iv) /\ ((fst a <> [] \/ exists iv, In iv q /\ ~ blocked now s iv) -> fst a' <> []).
Proof.
  intros now s q. induction q as [|[i v] q IH]; intros a a' E B; cbn [fold_opt] in E; [injection E as <-; split; auto; intros [X|[iv [[] _]]]; auto|].
  destruct (sa_ask c now s (i, v) a) as [a1|] eqn:E1; [|discriminate]. unfold sa_ask in E1. destruct (front c Active i v s) as [f|]; [|discriminate]. destruct (v_out (r_vc s i v)) as [[o w]|] eqn:Eo; [|discriminate].
  destruct (Nat.ltb o (c_outs c) && Nat.ltb w (c_vcs c)); [|discriminate]. destruct (po_full P now (bs_b (r_next s o)) w (bs_p (r_next s o))) as [fl|] eqn:Ef; [|discriminate].
  destruct (fl || _) eqn:Z1; injection E1 as <-.
  - assert (Bl : blocked now s (i, v)).
    { exists o, w. split; auto. apply orb_true_iff in Z1. destruct Z1 as [->|Z1]; auto. right. apply andb_true_iff in Z1. rewrite !Z.leb_le in Z1. lia. }
    destruct (IH _ _ E) as [A1 A2]; [cbn [snd]; intros iv Hv; apply in_app_iff in Hv; destruct Hv as [Hv|[<-|[]]]; auto|]. split; auto. cbn [fst] in A2. intros [X|[iv [[<-|Hx] X]]]; [auto|contradiction|apply A2; right; eauto].
  - assert (Ne : sa_add c (r_rr s) i v o (fst a) <> []).
    { unfold sa_add. destruct (read_req (fst a) i o) as [q0|] eqn:Er; [|destruct (fst a); discriminate]. destruct (supersedes _ _ _ _ _ _); [match goal with |- context [filter ?p ?z] => destruct (filter p z); discriminate end|]. apply read_some in Er. intros Y. rewrite Y in Er. destruct Er. }
    destruct (IH _ _ E) as [A1 A2]; [exact B|]. cbn [fst] in A2. split; auto.
Qed.
Lemma find_nodup : forall (l : list ask) i o q, NoDup (map fst l) -> In (i, o, q) l -> read_req l i o = Some q.
Proof.
  intros l i o q N H. destruct (read_req l i o) as [q'|] eqn:E; [|exfalso; eapply read_none; eauto]. apply read_some in E. f_equal.
  induction l as [|a l IH]; [destruct H|]. cbn [map] in N. inversion N as [|? ? N1 N2]; subst. destruct H as [->|H], E as [E|E]; auto.
  - congruence.
  - exfalso. apply N1. apply in_map_iff. exists (i, o, q'). auto.
  - subst a. exfalso. apply N1. apply in_map_iff. exists (i, o, q). auto.
Qed.
Lemma sa_live : forall xs pr pv px s g x i v o w, Inv c P I xs pr pv [] px s g ->
  (forall l, legal_asks (c_in c) (c_outs c) l -> matching l (i_sa x l)) -> gives (c_in c) (c_outs c) (i_sa x) ->
  i < c_in c -> v < c_vcs c -> v_state (r_vc s i v) = Active -> v_buf (r_vc s i v) <> [] -> v_out (r_vc s i v) = Some (o, w) ->
  po_full P (i_now x) (bs_b (r_next s o)) w (bs_p (r_next s o)) = Some false -> (forall o, o < c_outs c -> r_out s o = []) -> c_obuf c <> 0%Z ->
  forall rr D, sa_evaluate c x s = Some (rr, D) -> (0 < given D)%Z.
Proof.
  intros xs pr pv px s g x i v o w H Al Gi Hi Hv St Nb Eo Fu Ro Hob rr D ED.
  destruct (iv_q _ _ _ _ _ _ _ _ _ _ H) as [_ [_ [N0 Q]]]. rewrite app_nil_r in N0, Q.
  destruct (sa_asks_ok _ _ _ HP _ _ _ _ _ _ _ (i_now x) H (r_sa s) ([], [])) as [[l st] [E [A1 A2]]]; [auto|split; [constructor|intros ? ? ? []]|]. cbn [fst] in A1, A2.
  assert (Lg : legal_asks (c_in c) (c_outs c) l).
  { split; auto. apply Forall_forall. intros [[i' o'] q] Ha. destruct (A2 i' o' q Ha) as [v' [w' [B1 [_ [_ [B2 [B3 _]]]]]]]. cbn [fst snd]. rewrite B1. split; auto. split; auto. lia. }
  destruct (stalled_blocked _ _ _ _ _ E) as [B1 B2]; [intros iv []|]. cbn [fst snd] in B1, B2.
  assert (NB : forall i v o w, v_out (r_vc s i v) = Some (o, w) -> o < c_outs c -> po_full P (i_now x) (bs_b (r_next s o)) w (bs_p (r_next s o)) = Some false -> ~ blocked (i_now x) s (i, v)).
  { intros i' v' o' w' E1 Ho' E2 [o2 [w2 [E3 E4]]]. cbn [fst snd] in E3. rewrite E1 in E3. injection E3 as <- <-. rewrite E2, (Ro _ Ho') in E4. cbn [length] in E4. destruct E4 as [E4|E4]; [discriminate|lia]. }
  destruct (active_from _ _ _ _ _ _ _ _ _ _ _ H Hi Hv St Eo) as [Ho [Hw _]].
  assert (Ne : l <> []). { apply B2. right. exists (i, v). split; [apply Q; split; auto; split; auto; split; auto|]. eapply NB; eauto. }
  destruct (Al _ Lg) as [M1 M2]. destruct (Gi _ Lg Ne) as [i1 [o1 Em]]. destruct (M2 _ _ Em) as [q Hq]. destruct (A2 _ _ _ Hq) as [v1 [w1 [C1 [C2 [C3 [C4 [C5 C6]]]]]]].
  unfold sa_evaluate in ED. rewrite E in ED. pose proof (sa_reads c l (i_sa x l) st (r_sa s) (r_rr s, [])) as SR. injection ED as ED. rewrite ED in SR. cbn [snd app] in SR.
  apply (given_in _ _ (i1, v1) o1). rewrite SR. apply in_map_iff. exists (i1, v1). split; auto. f_equal. unfold sa_dec. cbn [fst snd].
  destruct (existsb _ st) eqn:Ex.
  - exfalso. apply existsb_exists in Ex. destruct Ex as [[i2 v2] [X Y]]. cbn [fst snd] in Y. apply andb_true_iff in Y. rewrite !Nat.eqb_eq in Y. destruct Y as [<- <-]. apply (NB _ _ _ _ C3 C4 C6). auto.
  - rewrite Em, (find_nodup _ _ _ _ A1 Hq), C1, Z.eqb_refl. reflexivity.
Qed.

(** A step as far as the channels are given out. *)
Lemma internal_mid : forall xs x s g, In x xs -> Inv c P I xs [] [] [] [] s g ->
  (forall o, o < c_outs c -> r_out s o = []) ->
  (forall l, legal_asks (c_in c * c_vcs c) (c_outs c * c_vcs c) l -> matching l (i_va x l)) -> (forall l, legal_asks (c_in c) (c_outs c) l -> matching l (i_sa x l)) ->
  (c_rdelay c = true -> forall j v f, j < c_in c -> v < c_vcs c -> In f (g_rx g j v ++ on_vc v (arr j (arrivals c x))) -> f_head f = true -> good_route c (i_rf x j f)) ->
  (forall i f, In (i, f) (arrivals c x) -> i < c_in c /\ f_vc f < c_vcs c /\ (r_occ s i < bc_size (c_b c))%Z /\ well_formed (g_rx g i (f_vc f) ++ [f]) /\ (c_rdelay c = false -> f_head f = true -> good_route c (f_la f))) ->
  exists s5 g5 ps px, mid c P x (arrivals c x) s = Some s5 /\ Inv c P I xs [] [] ps px s5 g5 /\ (forall i v, g_rx g5 i v = g_rx g i v ++ on_vc v (arr i (arrivals c x))).
Proof.
  intros xs x s g Hx H Ro Va Sa Rf Ar.
  destruct (in_queues_ok _ _ _ _ _ _ _ _ (arrivals c x) s g H (arrivals_nodup c x) Ar) as [s1 [g1 [E1 [H1 [O1 [R1 [T1 [C1 CT1]]]]]]]].
  destruct O1 as [Ox [Oo [_ [_ [Oc [Ob _]]]]]].
  assert (H1' : Inv c P I xs [] [] [] [] (set_proc (r_proc s1) s1) g1) by (destruct H1; constructor; auto).
  destruct (proc_credits_ok c P I HP _ _ _ _ _ (i_now x) (r_proc s1) s1 g1 H1') as [s2 [g2 [E2 [H2 [S2 G2]]]]].
  destruct S2 as [_ [_ [_ [_ [Sx [So [Soc [Scb _]]]]]]]]. destruct G2 as [Gr [_ [_ [Gt [Gc Gct]]]]].
  destruct (va_evaluate_ok c P I _ _ _ _ _ _ _ x H2 Va) as [Dv [Ev HDv]]. destruct (sa_evaluate_ok c P I HP Rm HR _ _ _ _ _ _ _ x H2 Sa) as [rr [Ds [Es HDs]]].
  unfold mid. rewrite E1, E2, Ev, Es. set (s3 := set_rr rr (set_xb [] (r_out s2) (set_qs [] [] [] s2))).
  assert (H3 : Inv c P I xs (r_rq s2) (r_va s2) (r_sa s2) (r_xb s2) s3 g2).
  { destruct H2 as [K1 K2 K3 K4 K5 K6 K7 K8]. constructor; subst s3; rs; auto.
    - rewrite !app_nil_r in K2. exact K2.
    - destruct K5 as [B1 B2 B3 B4 B5 B6 B7]. constructor; auto.
      + intros o Ho. rewrite (B1 o Ho). cbn [sel flat_map app]. rewrite app_nil_r. reflexivity.
      + intros o Ho. destruct (B2 o Ho) as [_ Y]. assert (Z1 : r_out s2 o = []) by (rewrite So, Oo; auto). rewrite Z1. cbn [app sel flat_map length]. split; auto. }
  destruct (route_updates_ok c P I Rm xs _ _ _ g2 x Dv Ds (r_rq s2) s3 H3 Hx) as [s4 [E4 [H4 [Dv4 [Ds4 [K4 [X4 [Oc4 Q4]]]]]]]]; [intros R j v f Hj Hv Hf; apply (Rf R j v f Hj Hv); rewrite <- R1, <- Gr; auto|exact HDv|exact HDs|].
  rewrite E4. destruct (va_updates_ok c P I HP Rm HR xs _ _ (i_now x) Ds Dv _ s4 g2 H4 Dv4 Ds4) as [s5 [g5 [E5 [H5 [Ds5 [K5 [X5 [Oc5 [Q5 G5]]]]]]]]].
  exists s5, g5, (r_sa s2), (r_xb s2). split; auto. split; auto. destruct G5 as [U1 _]. intros i v. rewrite U1, Gr. auto.
Qed.
Lemma step_mid : forall hx hy x s g, Rest c P I hx s g -> link c hx hy g -> decent c hx hy x ->
  let s0 := set_act (r_act s || filled (arrivals c x) || filled (credits_in c x)) (set_proc (r_proc s ++ credits_in c x) s) in
  exists s5 g5 ps px, mid c P x (arrivals c x) s0 = Some s5 /\ Inv c P I (hx ++ [x]) [] [] ps px s5 g5 /\ (forall i v, i < c_in c -> v < c_vcs c -> g_rx g5 i v = on_vc v (rx (hx ++ [x]) i)).
Proof.
  intros hx hy x s g R L D s0. pose proof R as [H Ro Rc Roc Ra]. assert (M : forall z, In z hx -> In z (hx ++ [x])) by (intros; apply in_app_iff; auto).
  assert (Hx : In x (hx ++ [x])) by (apply in_app_iff; right; left; auto).
  assert (H1 : Inv c P I (hx ++ [x]) [] [] [] [] s0 (with_cr x g)) by (apply inv_mono with (xs := hx); auto; eapply credits_in_ok; eauto).
  destruct (internal_mid (hx ++ [x]) x s0 (with_cr x g) Hx H1) as [s5 [g5 [ps [px [E [H5 G5]]]]]].
  - exact Ro.
  - apply D.
  - apply D.
  - intros Rd j v f Hj Hv Hf Hd. apply (de_rf _ _ _ _ D Rd j f Hj); auto. rewrite arrivals_arr in Hf by auto. cbn [with_cr g_rx] in Hf. rewrite (ln_rx _ _ _ _ L j v Hj Hv) in Hf. rewrite rx_snoc. unfold on_vc in Hf.
    apply in_app_iff in Hf. apply in_app_iff. destruct Hf as [Hf|Hf]; apply filter_In in Hf; tauto.
  - intros i f Hin. destruct (arrivals_in _ _ _ _ Hin) as [Hi Ef]. destruct (de_flit _ _ _ _ D i f Hi Ef) as [Hv [W [Sz La]]]. split; auto. split; auto. split; [|split; auto].
    + subst s0. rs. pose proof (occ_room _ _ _ _ _ _ _ _ i R L Hi). lia.
    + cbn [with_cr g_rx]. rewrite (ln_rx _ _ _ _ L i _ Hi Hv). rewrite on_vc_app in W. cbn [on_vc filter] in W. rewrite Nat.eqb_refl in W. exact W.
  - exists s5, g5, ps, px. split; auto. split; auto. intros i v Hi Hv. rewrite G5. cbn [with_cr g_rx]. rewrite (ln_rx _ _ _ _ L i v Hi Hv), rx_snoc, on_vc_app, arrivals_arr by auto. reflexivity.
Qed.
End Live.
