(** How the assumptions about each router follow from those about the network. *)
From Coq Require Import ZArith Arith Bool List Lia Permutation.
From Verif Require Import Fupd ArbiterModel AllocModel AllocSpec BufferModel BufferSpec BufferProofs RouteModel ChannelModel IqRouterModel IqRouterSpec IqRouterProofs IqRouterInv IqRouterRun Prop_IqRouter NetModel NetSpec.
Import ListNotations.
Open Scope nat_scope.

(** ** One router *)
Lemma relayed_origin : forall c xs ys waits transit trips outs o g, relayed c xs ys waits transit trips outs -> o < c_outs c -> In g (tx ys o) ->
  exists i f, i < c_in c /\ In f (rx xs i) /\ f_vc f < c_vcs c /\ trip_ok c xs i (f, (o, g)).
Proof.
  intros c xs ys waits transit trips outs o g [R1 R2 R3 R4 R5 R6] Ho Hg.
  assert (A : In g (map snd (outs o))) by (rewrite (proj1 (R3 o Ho)); apply in_app_iff; auto).
  apply in_map_iff in A. destruct A as [[[i v] g'] [E A]]. cbn in E. subst g'. destruct (R4 o _ A) as [Hi Hv]. cbn in Hi, Hv.
  assert (B : In g (from i v (outs o))) by (unfold from; apply in_map_iff; exists (i, v, g); split; auto; apply filter_In; split; auto; cbn; rewrite !Nat.eqb_refl; reflexivity).
  rewrite (R5 i v o Hi Hv Ho) in B. unfold left_for in B. apply in_map_iff in B. destruct B as [[f [o' g']] [B1 B2]]. cbn in B1. subst g'.
  apply filter_In in B2. destruct B2 as [B2 B3]. cbn in B3. apply Nat.eqb_eq in B3. subst o'.
  assert (C : In f (on_vc v (rx xs i))) by (rewrite (R1 i v Hi Hv); apply in_app_iff; left; apply in_map_iff; exists (f, (o, g)); auto).
  apply filter_In in C. destruct C as [C1 C2]. apply Nat.eqb_eq in C2.
  exists i, f. split; auto. split; auto. split; [lia|]. pose proof (proj1 (R2 i v Hi Hv)) as F. rewrite Forall_forall in F. exact (F _ B2).
Qed.
Record facts (c : iqcfg) (xs : list rin) (ys : list rout) : Prop := {
  fa_vc : forall o, o < c_outs c -> Forall (fun f => f_vc f < c_vcs c) (tx ys o);
  fa_wf : forall o v, o < c_outs c -> v < c_vcs c -> well_formed (on_vc v (tx ys o));
  fa_room : forall o, o < c_outs c -> (Z.of_nat (length (tx ys o)) <= Z.of_nat (length (crx xs o)) + bc_size (c_b c))%Z;
  fa_cvc : forall i, i < c_in c -> Forall (fun v => v < c_vcs c) (ctx ys i);
  fa_count : forall i v, i < c_in c -> v < c_vcs c -> count_occ Nat.eq_dec (ctx ys i) v <= length (on_vc v (rx xs i));
  fa_origin : forall o g, o < c_outs c -> In g (tx ys o) -> exists i f, i < c_in c /\ In f (rx xs i) /\ f_vc f < c_vcs c /\ trip_ok c xs i (f, (o, g)) }.
Lemma router_facts : forall c P xs s ys, some_policy (c_b c) P -> decent_run P c xs -> iq_run c xs (router0 P) = Some (s, ys) -> facts c xs ys.
Proof.
  intros c P xs s ys SP D E.
  destruct (C39_router c P xs SP D) as [s1 [ys1 [trips [outs [E1 [R _]]]]]]. rewrite E in E1. injection E1 as <- <-.
  destruct (C40_packets c P xs SP D) as [s1 [ys1 [E1 W]]]. rewrite E in E1. injection E1 as <- <-.
  destruct (C41_room c P xs SP D) as [s1 [ys1 [E1 M]]]. rewrite E in E1. injection E1 as <- <-.
  destruct (C41_credits c P xs SP D) as [s1 [ys1 [E1 C]]]. rewrite E in E1. injection E1 as <- <-.
  assert (O : forall o g, o < c_outs c -> In g (tx ys o) -> exists i f, i < c_in c /\ In f (rx xs i) /\ f_vc f < c_vcs c /\ trip_ok c xs i (f, (o, g))) by (intros; eapply relayed_origin; eauto).
  constructor; auto.
  - intros o Ho. apply Forall_forall. intros g Hg. destruct (O o g Ho Hg) as [i [f [_ [_ [_ T]]]]]. unfold trip_ok in T. tauto.
  - intros i Hi. apply (proj1 (C i Hi)).
  - intros i v Hi Hv. pose proof (proj1 (proj2 (C i Hi)) v Hv). lia.
Qed.
(** Runs grow at the end. *)
Lemma decent_from_snoc : forall P c xs hx hy (s : router P) s1 ys x, decent_from c hx hy xs s -> iq_run c xs s = Some (s1, ys) -> decent c (hx ++ xs) (hy ++ ys) x -> decent_from c hx hy (xs ++ [x]) s.
Proof.
  intros P c xs. induction xs as [|a xs IH]; intros hx hy s s1 ys x D E K; cbn [iq_run app decent_from] in *.
  - injection E as <- <-. rewrite !app_nil_r in K. split; auto.
  - destruct D as [D1 D2]. split; auto. intros s' y E1. rewrite E1 in E. destruct (iq_run c xs s') as [[s2 zs]|] eqn:E2; [|discriminate]. injection E as <- <-.
    eapply IH; eauto. rewrite <- !app_assoc. exact K.
Qed.
Lemma iq_run_snoc : forall P c xs (s : router P) s1 ys x s2 y, iq_run c xs s = Some (s1, ys) -> iq_step c x s1 = Some (s2, y) -> iq_run c (xs ++ [x]) s = Some (s2, ys ++ [y]).
Proof.
  intros P c xs. induction xs as [|a xs IH]; intros s s1 ys x s2 y E K; cbn [iq_run app] in *.
  - injection E as <- <-. rewrite K. reflexivity.
  - destruct (iq_step c a s) as [[s' y']|]; [|discriminate]. destruct (iq_run c xs s') as [[s3 zs]|] eqn:E2; [|discriminate]. injection E as <- <-. rewrite (IH _ _ _ _ _ _ E2 K). reflexivity.
Qed.

(** ** One channel *)
Lemma put_pend : forall A (x : option A) s, x = None \/ ch_in s = None -> pend (put x s) = pend s ++ opt x.
Proof. intros A x s H. unfold put, pend. destruct x as [a|]; [|symmetry; apply app_nil_r]. destruct H as [H|H]; [discriminate|]. cbn [ch_send ch_q ch_in]. rewrite H. cbn [opt]. rewrite app_nil_r. reflexivity. Qed.
Lemma put_out : forall A (x : option A) s, ch_out (put x s) = ch_out s.
Proof. intros A [a|] s; reflexivity. Qed.
Lemma put_in : forall A (x : option A) s, ch_in (put x s) = match x with Some a => Some a | None => ch_in s end.
Proof. intros A [a|] s; reflexivity. Qed.
Lemma read_pend : forall A d t (s : chan A), pend (ch_read d t s) = pend s.
Proof. intros A d t s. unfold ch_read, pend. destruct (ch_in s) as [x|] eqn:E; [|rewrite E; reflexivity]. cbn. rewrite map_app, app_nil_r. reflexivity. Qed.
Lemma read_in : forall A d t (s : chan A), ch_in (ch_read d t s) = None.
Proof. intros A d t s. unfold ch_read. destruct (ch_in s) as [x|] eqn:E; [reflexivity|auto]. Qed.
Lemma write_pend : forall A t (s : chan A), opt (ch_out (ch_write t s)) ++ pend (ch_write t s) = pend s.
Proof. intros A t s. unfold ch_write, pend. destruct (ch_q s) as [|[u x] r] eqn:E; [reflexivity|]. destruct (t <? u)%Z; cbn; rewrite ?E; reflexivity. Qed.
Lemma write_in : forall A t (s : chan A), ch_in (ch_write t s) = ch_in s.
Proof. intros A t s. unfold ch_write. destruct (ch_q s) as [|[u x] r]; [reflexivity|]. destruct (t <? u)%Z; reflexivity. Qed.
Lemma flit_cycle : forall A d t (x y : option A) s, x = None \/ ch_in s = None ->
  let s' := put y (ch_write t (ch_read d t (put x s))) in opt (ch_out s') ++ pend s' = pend s ++ opt x ++ opt y.
Proof.
  intros A d t x y s H s'. subst s'. rewrite put_out, put_pend by (right; rewrite write_in; apply read_in). rewrite app_assoc, write_pend, read_pend, put_pend, app_assoc by auto. reflexivity.
Qed.
Lemma cred_cycle : forall A d t (x y : option A) s, x = None \/ y = None ->
  let s' := put y (ch_write t (put x (ch_read d t s))) in opt (ch_out s') ++ pend s' = pend s ++ opt x ++ opt y.
Proof.
  intros A d t x y s H s'. subst s'. rewrite put_out, put_pend.
  - rewrite app_assoc, write_pend, put_pend, read_pend, app_assoc by (right; apply read_in). reflexivity.
  - destruct H as [-> | ->]; auto. right. rewrite write_in. apply read_in.
Qed.
Lemma concat_opt : forall A (x : option (list A)), concat (opt x) = match x with Some l => l | None => [] end.
Proof. intros A [l|]; cbn; [apply app_nil_r|reflexivity]. Qed.

(** ** Sequences *)
Lemma injected_snoc : forall ts t n, injected (ts ++ [t]) n = injected ts n ++ opt (t_inj t n).
Proof. intros. unfold injected. rewrite flat_map_app. cbn. rewrite app_nil_r. reflexivity. Qed.
Lemma credited_snoc : forall ts t d, credited (ts ++ [t]) d = credited ts d ++ concat (opt (t_cred t d)).
Proof. intros. unfold credited. rewrite flat_map_app. cbn. rewrite app_nil_r. reflexivity. Qed.
Lemma ejected_snoc : forall zs z d, ejected (zs ++ [z]) d = ejected zs d ++ opt (z_flit z d).
Proof. intros. unfold ejected. rewrite flat_map_app. cbn. rewrite app_nil_r. reflexivity. Qed.
Lemma returned_snoc : forall zs z n, returned (zs ++ [z]) n = returned zs n ++ concat (opt (z_cred z n)).
Proof. intros. unfold returned. rewrite flat_map_app. cbn. rewrite app_nil_r. reflexivity. Qed.
Lemma same_refl : forall f, same f f. Proof. unfold same. auto. Qed.
Lemma same_trans : forall f g h, same f g -> same g h -> same f h.
Proof. unfold same. intros f g h [A [B [C D]]] [A' [B' [C' D']]]. repeat split; congruence. Qed.
Lemma lawful_same : forall w ok r f f' es, same f f' -> lawful w ok r f es -> lawful w ok r f' es.
Proof. intros w ok r f f' es S [A B]. split; auto. intros o v g H1 H3 H4. apply (B o v g); auto. eapply same_trans; eauto. Qed.
Lemma map_opt_combine : forall A B (f : nat * A -> option B) n l k, length l = n -> (forall j a, nth_error l j = Some a -> f (k + j, a) <> None) ->
  exists bs, map_opt f (combine (seq k n) l) = Some bs /\ length bs = n /\ forall j a, nth_error l j = Some a -> nth_error bs j = f (k + j, a).
Proof.
  intros A B f n. induction n as [|n IH]; intros l k L H.
  - destruct l; [|discriminate]. exists []. cbn. split; auto. split; auto. intros [|j] a E; discriminate.
  - destruct l as [|a l]; [discriminate|]. injection L as L. destruct (IH l (S k) L) as [bs [E [Lb Hb]]].
    { intros j b E. replace (S k + j) with (k + S j) by lia. apply H. exact E. }
    pose proof (H 0 a eq_refl) as H0. rewrite Nat.add_0_r in H0. destruct (f (k, a)) as [b|] eqn:Ef; [|congruence].
    exists (b :: bs). cbn [combine seq map_opt]. rewrite Ef, E. split; auto. split; [cbn; congruence|].
    intros [|j] b' E'; cbn [nth_error] in *; [injection E' as <-; rewrite Nat.add_0_r; auto|]. rewrite (Hb _ _ E'). f_equal. f_equal. lia.
Qed.

(** ** The network *)
Section Net.
Variables (P : bpolicy) (w : netcfg) (ok : cid -> flit -> Prop).
Hypothesis W : wired w.
Hypothesis SP : some_policy (w_b w) P.

Definition fair (t : tick) : Prop := forall r i f, r < w_n w -> i < c_in (w_cfg w r) -> f_head f = true -> ok (w_in w r i) f -> lawful w ok r f (t_rf t r i f).
Definition from_tick (r : nat) (x : rin) : Prop :=
  exists t, fair t /\ i_rf x = t_rf t r /\ forall o f, i_la x o f = match w_snk w (w_out w r o) with Some (r', i') => Some (t_rf t r' i' f) | None => None end.
Record NI (ts : list tick) (zs : list nout) (s : net P) (xs : nat -> list rin) (ys : nat -> list rout) : Prop := {
  ni_len : length (n_rt s) = w_n w;
  ni_run : forall r, r < w_n w -> decent_run P (w_cfg w r) (xs r) /\ iq_run (w_cfg w r) (xs r) (router0 P) = Some (rt s r, ys r);
  ni_car : carried w ts zs s xs ys;
  ni_in : forall n, ch_in (n_f s (Inj n)) = None;
  ni_nd : forall c, Forall (@NoDup nat) (opt (ch_out (n_c s c)) ++ pend (n_c s c));
  ni_inj : forall n r i, w_snk w (Inj n) = Some (r, i) -> Forall (fun f => f_vc f < bc_vcs (w_b w)) (injected ts n) /\ (forall v, well_formed (on_vc v (injected ts n))) /\
    (Z.of_nat (length (injected ts n)) <= Z.of_nat (length (returned zs n)) + bc_size (w_b w))%Z;
  ni_cre : forall d, Forall (fun v => v < bc_vcs (w_b w)) (credited ts d) /\ forall v, count_occ Nat.eq_dec (credited ts d) v <= length (on_vc v (ejected zs d));
  ni_ok : forall c f, (w_src w c <> None \/ w_snk w c <> None) -> In f (entered w ts ys c) -> f_head f = true -> ok c f /\ (w_rd w = false -> forall r i, w_snk w c = Some (r, i) -> lawful w ok r f (f_la f));
  ni_x : forall r x, r < w_n w -> In x (xs r) -> from_tick r x;
  ni_t : length zs = length ts /\ forall r, Forall2 (reads w r) ts (xs r) }.

Lemma policy_of : forall r, r < w_n w -> some_policy (c_b (w_cfg w r)) P.
Proof. intros r Hr. rewrite (proj1 (wi_b w W r Hr)). exact SP. Qed.
Lemma vcs_of : forall r, r < w_n w -> c_vcs (w_cfg w r) = bc_vcs (w_b w).
Proof. intros r Hr. unfold c_vcs. rewrite (proj1 (wi_b w W r Hr)). reflexivity. Qed.
Lemma facts_of : forall ts zs s xs ys r, NI ts zs s xs ys -> r < w_n w -> facts (w_cfg w r) (xs r) (ys r).
Proof. intros ts zs s xs ys r N Hr. destruct (ni_run _ _ _ _ _ N r Hr) as [D E]. eapply router_facts; eauto. apply policy_of; auto. Qed.

(** Heads are only where they may be. *)
Lemma trip_place : forall xs r i f o g, r < w_n w -> i < c_in (w_cfg w r) -> (forall x, In x xs -> from_tick r x) -> ok (w_in w r i) f -> (w_rd w = false -> lawful w ok r f (f_la f)) ->
  f_head f = true -> trip_ok (w_cfg w r) xs i (f, (o, g)) -> ok (w_out w r o) g /\ (w_rd w = false -> forall r' i', w_snk w (w_out w r o) = Some (r', i') -> lawful w ok r' g (f_la g)).
Proof.
  intros xs r i f o g Hr Hi X O L Hd T.
  unfold trip_ok in T. destruct T as [T1 [T2 [T3 [T4 [T5 [T6 [T7 T8]]]]]]]. assert (S : same f g) by (unfold same; auto).
  specialize (T7 Hd). rewrite Hd in T8. rewrite (proj2 (wi_b w W r Hr)) in T7, T8. cbn [negb orb] in T8. rewrite orb_false_r in T8.
  destruct (w_rd w).
  - split; [|discriminate]. destruct T7 as [x [Hx Hin]]. destruct (X x Hx) as [t [Ft [Er _]]]. rewrite Er in Hin. destruct (Ft r i f Hr Hi Hd O) as [_ B]. eapply B; eauto.
  - destruct (L eq_refl) as [_ B]. split; [eapply B; eauto|]. intros _ r' i' Es. apply (wi_in w W) in Es as Es'. destruct Es' as [Hr' [Hi' Ew]]. destruct T8 as [x [Hx El]]. destruct (X x Hx) as [t [Ft [_ Ela]]]. rewrite Ela, Es in El. rewrite El.
    set (f1 := on_channel (f_vc g) f). assert (S1 : same f f1) by (unfold same; auto). assert (S2 : same f1 g) by (unfold same; cbn; auto).
    apply (lawful_same w ok r' f1 g _ S2). apply Ft; auto. rewrite Ew. apply (B o (f_vc g) f1); auto.
Qed.
Lemma heads_ok : forall (xs : nat -> list rin) (ys : nat -> list rout) r, r < w_n w -> facts (w_cfg w r) (xs r) (ys r) -> (forall x, In x (xs r) -> from_tick r x) ->
  (forall i f, i < c_in (w_cfg w r) -> In f (rx (xs r) i) -> f_head f = true -> ok (w_in w r i) f /\ (w_rd w = false -> lawful w ok r f (f_la f))) ->
  forall o g, o < c_outs (w_cfg w r) -> In g (tx (ys r) o) -> f_head g = true -> ok (w_out w r o) g /\ (w_rd w = false -> forall r' i', w_snk w (w_out w r o) = Some (r', i') -> lawful w ok r' g (f_la g)).
Proof.
  intros xs ys r Hr F X K o g Ho Hg Hh. destruct (fa_origin _ _ _ F o g Ho Hg) as [i [f [Hi [Hf [_ T]]]]].
  assert (Hd : f_head f = true) by (unfold trip_ok in T; destruct T as [_ [_ [T _]]]; congruence). destruct (K i f Hi Hf Hd) as [O L]. eapply trip_place; eauto.
Qed.

(** What the network gives a router is what the router expects. *)
Lemma router_decent : forall ts zs s xs ys t r, NI ts zs s xs ys -> ndecent w ok ts zs t -> r < w_n w -> decent (w_cfg w r) (xs r) (ys r) (net_rin w t s r).
Proof.
  intros ts zs s xs ys t r N D Hr. pose proof (ni_car _ _ _ _ _ N) as C.
  constructor.
  - intros l Hl. apply (nd_va _ _ _ _ _ D r l Hr Hl).
  - intros l Hl. apply (nd_sa _ _ _ _ _ D r l Hr Hl).
  - intros i f Hi Ef. cbn [net_rin i_flit] in Ef. set (c := w_in w r i) in *. assert (Ek : w_snk w c = Some (r, i)) by (apply (wi_in w W); auto).
    pose proof (cr_flit _ _ _ _ _ _ C c r i Ek) as E. rewrite Ef in E. cbn [opt] in E. rewrite app_assoc in E.
    assert (A : Forall (fun f => f_vc f < bc_vcs (w_b w)) (entered w ts ys c) /\ (forall v, v < bc_vcs (w_b w) -> well_formed (on_vc v (entered w ts ys c))) /\
                (Z.of_nat (length (entered w ts ys c)) <= Z.of_nat (length (ctx (ys r) i)) + bc_size (w_b w))%Z).
    { unfold entered. destruct (w_src w c) as [[r1 o]|] eqn:Er.
      - apply (wi_out w W) in Er as Er'. destruct Er' as [Hr1 [Ho _]]. pose proof (facts_of _ _ _ _ _ _ N Hr1) as F. rewrite <- (vcs_of r1 Hr1). split; [apply F; auto|]. split; [intros v Hv; apply F; auto|].
        pose proof (fa_room _ _ _ F o Ho) as M. rewrite (proj1 (wi_b w W r1 Hr1)) in M. pose proof (cr_cred _ _ _ _ _ _ C c r1 o Er) as Ec. unfold gave in Ec. rewrite Ek in Ec. rewrite <- Ec, app_length. lia.
      - destruct c as [n|d|c'] eqn:Ec.
        + destruct (ni_inj _ _ _ _ _ N n r i Ek) as [A1 [A2 A3]]. split; auto. split; auto. pose proof (cr_return _ _ _ _ _ _ C n r i Ek) as E1. unfold gave in E1. rewrite Ek in E1. rewrite <- E1, app_length. lia.
        + rewrite (proj1 (wi_ej w W d)) in Ek. discriminate.
        + exfalso. apply (proj2 (proj2 (wi_ch w W c'))); [|exact Er]. apply (proj1 (proj1 (wi_ch w W c'))). congruence. }
    destruct A as [A1 [A2 A3]]. assert (Hin : In f (entered w ts ys c)) by (rewrite <- E; apply in_app_iff; left; apply in_app_iff; right; left; reflexivity).
    rewrite Forall_forall in A1. rewrite (vcs_of r Hr). split; [auto|]. split.
    { apply parse_pre with (b := on_vc (f_vc f) (pend (n_f s c))). rewrite <- on_vc_app, E. apply A2. auto. }
    split. { rewrite <- E, !app_length in A3. cbn [length] in A3. rewrite (proj1 (wi_b w W r Hr)). lia. }
    intros Rd Hd. rewrite (proj2 (wi_b w W r Hr)) in Rd. apply (ni_ok _ _ _ _ _ N c f ltac:(right; congruence) Hin Hd) with (i := i); auto.
  - intros o vs Ho Ev. cbn [net_rin i_cred] in Ev. set (c := w_out w r o) in *. assert (Er : w_src w c = Some (r, o)) by (apply (wi_out w W); auto).
    pose proof (cr_cred _ _ _ _ _ _ C c r o Er) as E. pose proof (ni_nd _ _ _ _ _ N c) as Nd. rewrite Ev in E, Nd. cbn [opt concat app] in E, Nd. split; [inversion Nd; auto|].
    assert (A : Forall (fun v => v < bc_vcs (w_b w)) (gave w ts ys c) /\ forall v, v < bc_vcs (w_b w) -> count_occ Nat.eq_dec (gave w ts ys c) v <= length (on_vc v (tx (ys r) o))).
    { unfold gave. destruct (w_snk w c) as [[r1 i]|] eqn:Ek.
      - apply (wi_in w W) in Ek as Ek'. destruct Ek' as [Hr1 [Hi _]]. pose proof (facts_of _ _ _ _ _ _ N Hr1) as F. rewrite <- (vcs_of r1 Hr1). split; [apply F; auto|]. intros v Hv.
        pose proof (fa_count _ _ _ F i v Hi Hv) as M. pose proof (cr_flit _ _ _ _ _ _ C c r1 i Ek) as Ef. unfold entered in Ef. rewrite Er in Ef. rewrite <- Ef, on_vc_app, app_length. lia.
      - destruct c as [n|d|c'] eqn:Ec.
        + rewrite (proj1 (wi_inj w W n)) in Er. discriminate.
        + destruct (ni_cre _ _ _ _ _ N d) as [A1 A2]. split; auto. intros v Hv. pose proof (cr_eject _ _ _ _ _ _ C d r o Er) as Ee. unfold entered in Ee. rewrite Er in Ee. rewrite <- Ee, on_vc_app, app_length. specialize (A2 v). lia.
        + exfalso. apply (proj2 (proj1 (wi_ch w W c'))); [|exact Ek]. apply (proj1 (proj2 (wi_ch w W c'))). congruence. }
    destruct A as [A1 A2]. intros v Hv. rewrite Forall_forall in A1. rewrite (vcs_of r Hr).
    assert (Hv' : v < bc_vcs (w_b w)) by (apply A1; rewrite <- E; rewrite !in_app_iff; auto). split; auto.
    specialize (A2 v Hv'). rewrite <- E, !count_occ_app in A2. pose proof (proj1 (count_occ_In Nat.eq_dec vs v) Hv). lia.
  - intros Rd i f Hi Hf Hd. cbn [net_rin i_rf]. apply (nd_rf _ _ _ _ _ D r i f Hr Hi Hd). set (c := w_in w r i) in *. assert (Ek : w_snk w c = Some (r, i)) by (apply (wi_in w W); auto).
    apply (ni_ok _ _ _ _ _ N c f); auto; [right; congruence|]. rewrite <- (cr_flit _ _ _ _ _ _ C c r i Ek). rewrite rx_snoc in Hf. cbn [net_rin i_flit] in Hf. fold c in Hf. fold (opt (ch_out (n_f s c))) in Hf. rewrite !in_app_iff in *. tauto.
Qed.

Lemma rt_nth : forall (s : net P) r, length (n_rt s) = w_n w -> r < w_n w -> nth_error (n_rt s) r = Some (rt s r).
Proof. intros s r L Hr. unfold rt. apply nth_error_nth'. lia. Qed.

Lemma net_step_ok : forall ts zs s xs ys t, NI ts zs s xs ys -> ndecent w ok ts zs t ->
  exists s' z xs' ys', net_step w t s = Some (s', z) /\ NI (ts ++ [t]) (zs ++ [z]) s' xs' ys' /\ forall c r i, w_snk w c = Some (r, i) -> exists q, entered w ts ys c = rx (xs' r) i ++ q.
Proof.
  intros ts zs s xs ys t N D. pose proof (ni_car _ _ _ _ _ N) as C. pose proof (ni_len _ _ _ _ _ N) as L.
  assert (St : forall r, r < w_n w -> exists s' y, iq_step (w_cfg w r) (net_rin w t s r) (rt s r) = Some (s', y) /\ forall i vs, i < c_in (w_cfg w r) -> x_cred y i = Some vs -> NoDup vs).
  { intros r Hr. pose proof (policy_of r Hr) as Sp. destruct (some_policy_ok _ _ Sp) as [I [R0 [HP [HR _]]]]. destruct (ni_run _ _ _ _ _ N r Hr) as [Dr Er].
    destruct (run_all (w_cfg w r) P I HP R0 HR (xs r) Dr) as [s1 [ys1 [g [E1 [R Lk]]]]]. rewrite Er in E1. injection E1 as <- <-.
    destruct (iq_step_ok (w_cfg w r) P I HP R0 HR _ _ (net_rin w t s r) _ _ R Lk (router_decent _ _ _ _ _ _ _ N D Hr)) as [s' [y [g' [E2 [_ [_ Q]]]]]]. exists s', y. auto. }
  destruct (map_opt_combine _ _ (fun a => iq_step (w_cfg w (fst a)) (net_rin w t s (fst a)) (snd a)) (w_n w) (n_rt s) 0 L) as [l [El [Ll Hl]]].
  { intros r a Ea. cbn [fst snd]. assert (Hr : r < w_n w) by (rewrite <- L; apply nth_error_Some; congruence). rewrite (rt_nth s r L Hr) in Ea. injection Ea as <-. destruct (St r Hr) as [s' [y [E _]]]. cbn. congruence. }
  cbn [fst snd Nat.add] in Hl.
  assert (Hl2 : forall r, r < w_n w -> exists s' y, nth_error l r = Some (s', y) /\ iq_step (w_cfg w r) (net_rin w t s r) (rt s r) = Some (s', y) /\ forall i vs, i < c_in (w_cfg w r) -> x_cred y i = Some vs -> NoDup vs).
  { intros r Hr. destruct (St r Hr) as [s' [y [E Q]]]. exists s', y. split; auto. rewrite (Hl r _ (rt_nth s r L Hr)). exact E. }
  unfold net_step. rewrite El.
  set (fx := fun c => match c with Inj n => t_inj t n | _ => None end). set (cx := fun c => match c with Ej d => t_cred t d | _ => None end).
  set (fy := fun c => wrote l x_flit (w_src w c)). set (cy := fun c => wrote l x_cred (w_snk w c)).
  set (f2 := fun c => put (fy c) (ch_write (t_now t) (ch_read (w_fd w c) (t_now t) (put (fx c) (n_f s c))))).
  set (c2 := fun c => put (cy c) (ch_write (t_now t) (put (cx c) (ch_read (w_cd w c) (t_now t) (n_c s c))))).
  set (s' := mkN (map fst l) f2 c2). set (z := {| z_flit := fun d => ch_out (f2 (Ej d)); z_cred := fun n => ch_out (c2 (Inj n)) |}).
  set (xs' := fun r => xs r ++ [net_rin w t s r]). set (ys' := fun r => match nth_error l r with Some (_, y) => ys r ++ [y] | None => ys r end).
  exists s', z, xs', ys'. split; [reflexivity|].
  assert (Hfx : forall c, fx c = None \/ ch_in (n_f s c) = None) by (intros [n|d|c]; auto; right; apply N).
  assert (Hcx : forall c, cx c = None \/ cy c = None) by (intros [n|d|c]; auto; right; unfold cy; rewrite (proj1 (wi_ej w W d)); reflexivity).
  assert (Ff : forall c, opt (ch_out (f2 c)) ++ pend (f2 c) = pend (n_f s c) ++ opt (fx c) ++ opt (fy c)) by (intros c; apply flit_cycle; auto).
  assert (Fc : forall c, opt (ch_out (c2 c)) ++ pend (c2 c) = pend (n_c s c) ++ opt (cx c) ++ opt (cy c)) by (intros c; apply cred_cycle; auto).
  assert (Ent : forall c, entered w (ts ++ [t]) ys' c = entered w ts ys c ++ opt (fx c) ++ opt (fy c)).
  { intros c. unfold entered, fy. destruct (w_src w c) as [[r o]|] eqn:Er.
    - apply (wi_out w W) in Er as Er'. destruct Er' as [Hr _]. destruct (Hl2 r Hr) as [s1 [y [En _]]]. unfold ys', wrote. rewrite En, tx_snoc. f_equal.
      replace (fx c) with (@None flit) by (destruct c as [n|d|c]; auto; rewrite (proj1 (wi_inj w W n)) in Er; discriminate). reflexivity.
    - destruct c as [n|d|c]; cbn [fx wrote opt app]; auto. rewrite injected_snoc, app_nil_r. reflexivity. }
  assert (Gav : forall c, gave w (ts ++ [t]) ys' c = gave w ts ys c ++ concat (opt (cx c) ++ opt (cy c))).
  { intros c. unfold gave, cy. destruct (w_snk w c) as [[r i]|] eqn:Ek.
    - apply (wi_in w W) in Ek as Ek'. destruct Ek' as [Hr _]. destruct (Hl2 r Hr) as [s1 [y [En _]]]. unfold ys', wrote. rewrite En, ctx_snoc. f_equal.
      replace (cx c) with (@None (list nat)) by (destruct c as [n|d|c]; auto; rewrite (proj1 (wi_ej w W d)) in Ek; discriminate). cbn [opt app]. rewrite concat_opt. reflexivity.
    - destruct c as [n|d|c]; cbn [cx wrote opt app concat]; rewrite ?app_nil_r; auto. rewrite credited_snoc. reflexivity. }
  assert (Rx : forall c r i, w_snk w c = Some (r, i) -> rx (xs' r) i = rx (xs r) i ++ opt (ch_out (n_f s c))).
  { intros c r i Ek. apply (wi_in w W) in Ek. destruct Ek as [_ [_ <-]]. unfold xs'. rewrite rx_snoc. reflexivity. }
  assert (Car : carried w (ts ++ [t]) (zs ++ [z]) s' xs' ys').
  { constructor.
    - intros c r i Ek. rewrite (Rx c r i Ek), Ent, <- (cr_flit _ _ _ _ _ _ C c r i Ek), <- !app_assoc. do 2 f_equal. apply Ff.
    - intros d r o Er. rewrite Ent, <- (cr_eject _ _ _ _ _ _ C d r o Er), ejected_snoc, <- !app_assoc. f_equal. apply Ff.
    - intros c r o Er. rewrite Gav, <- (cr_cred _ _ _ _ _ _ C c r o Er). apply (wi_out w W) in Er. destruct Er as [_ [_ Ec]]. unfold xs'. rewrite crx_snoc. cbn [net_rin i_cred]. rewrite Ec, <- concat_opt.
      cbn [n_c s']. rewrite Fc, !concat_app, <- !app_assoc. reflexivity.
    - intros n r i Ek. rewrite Gav, <- (cr_return _ _ _ _ _ _ C n r i Ek), returned_snoc, <- !app_assoc. f_equal. cbn [z_cred z n_c s']. rewrite <- !concat_app, Fc. reflexivity. }
  assert (Run : forall r, r < w_n w -> decent_run P (w_cfg w r) (xs' r) /\ iq_run (w_cfg w r) (xs' r) (router0 P) = Some (rt s' r, ys' r)).
  { intros r Hr. destruct (ni_run _ _ _ _ _ N r Hr) as [Dr Er]. destruct (Hl2 r Hr) as [s1 [y [En [Es _]]]]. split.
    - eapply decent_from_snoc; eauto. apply (router_decent _ _ _ _ _ _ _ N D Hr).
    - unfold xs', ys'. rewrite En. rewrite (iq_run_snoc _ _ _ _ _ _ _ _ _ Er Es). f_equal. f_equal. unfold rt, s'. cbn [n_rt]. rewrite (nth_error_nth (map fst l) r (router0 P) (x := s1)); auto. rewrite nth_error_map, En. reflexivity. }
  assert (Xs : forall r x, r < w_n w -> In x (xs' r) -> from_tick r x).
  { intros r x Hr Hx. unfold xs' in Hx. rewrite in_app_iff in Hx. destruct Hx as [Hx|[<-|[]]]; [apply (ni_x _ _ _ _ _ N r x Hr Hx)|]. exists t. split; [exact (nd_rf _ _ _ _ _ D)|]. split; reflexivity. }
  split; [|intros c r i Ek; exists (pend (n_f s c)); rewrite (Rx c r i Ek), <- app_assoc; symmetry; apply (cr_flit _ _ _ _ _ _ C c r i Ek)].
  constructor; auto.
  - unfold s'. cbn [n_rt]. rewrite map_length. exact Ll.
  - intros n. unfold s', f2, fy. cbn [n_f]. rewrite (proj1 (wi_inj w W n)). cbn [wrote put]. rewrite write_in. apply read_in.
  - intros c. cbn [s' n_c]. rewrite Fc, !Forall_app. pose proof (ni_nd _ _ _ _ _ N c) as Nd. rewrite Forall_app in Nd. split; [apply Nd|]. split.
    + destruct c as [n|d|c]; cbn [cx opt]; auto. destruct (t_cred t d) as [vs|] eqn:Ev; cbn [opt]; auto. constructor; auto. apply (nd_cred _ _ _ _ _ D d vs Ev).
    + unfold cy, wrote. destruct (w_snk w c) as [[r1 i]|] eqn:Ek; [|constructor]. apply (wi_in w W) in Ek. destruct Ek as [Hr1 [Hi _]]. destruct (Hl2 r1 Hr1) as [s1 [y [En [_ Q]]]]. rewrite En.
      destruct (x_cred y i) as [vs|] eqn:Ev; cbn [opt]; auto. constructor; auto. eapply Q; eauto.
  - intros n r i Ek. destruct (ni_inj _ _ _ _ _ N n r i Ek) as [A1 [A2 A3]]. rewrite injected_snoc, returned_snoc. destruct (t_inj t n) as [f|] eqn:Ef.
    + destruct (nd_inj _ _ _ _ _ D n f r i Ef Ek) as [B1 [B2 [B3 _]]]. cbn [opt]. split; [apply Forall_app; auto|]. split; [|rewrite !app_length; cbn [length]; lia].
      intros v. destruct (Nat.eq_dec (f_vc f) v) as [<-|Nv]; auto. rewrite on_vc_app. cbn [on_vc filter]. rewrite (proj2 (Nat.eqb_neq _ _) Nv), app_nil_r. apply A2.
    + cbn [opt]. rewrite app_nil_r. split; auto. split; auto. rewrite app_length. lia.
  - intros d. destruct (ni_cre _ _ _ _ _ N d) as [A1 A2]. rewrite credited_snoc, ejected_snoc. destruct (t_cred t d) as [vs|] eqn:Ev.
    + destruct (nd_cred _ _ _ _ _ D d vs Ev) as [B1 B2]. rewrite concat_opt. split; [apply Forall_app; split; auto; apply Forall_forall; intros v Hv; apply B2; auto|].
      intros v. rewrite count_occ_app, on_vc_app, app_length. destruct (in_dec Nat.eq_dec v vs) as [Hv|Hv].
      * pose proof (proj1 (NoDup_count_occ Nat.eq_dec vs) B1 v). destruct (B2 v Hv) as [_ B3]. lia.
      * rewrite (proj1 (count_occ_not_In Nat.eq_dec vs v) Hv). specialize (A2 v). lia.
    + cbn [opt concat]. rewrite app_nil_r. split; auto. intros v. rewrite on_vc_app, app_length. specialize (A2 v). lia.
  - intros c f Ek Hf Hd. rewrite Ent in Hf. destruct (option_map (fun a => a) (w_src w c)) as [[r0 o]|] eqn:Er0; assert (Er : w_src w c = option_map (fun a => a) (w_src w c)) by (destruct (w_src w c); reflexivity); rewrite Er0 in Er; clear Er0.
    + apply (wi_out w W) in Er as Er'. destruct Er' as [Hr0 [Ho Ec]]. assert (Hf' : In f (tx (ys' r0) o)). { rewrite <- Ent in Hf. unfold entered in Hf. rewrite Er in Hf. exact Hf. }
      destruct (Run r0 Hr0) as [Dr Ern]. rewrite <- Ec. apply (heads_ok xs' ys' r0 Hr0) with (o := o); auto; [eapply router_facts; eauto; apply policy_of; auto|].
      intros j g Hj Hg Hgd. assert (Ej : w_snk w (w_in w r0 j) = Some (r0, j)) by (apply (wi_in w W); auto). assert (Hin : In g (entered w ts ys (w_in w r0 j))) by (rewrite <- (cr_flit _ _ _ _ _ _ C _ _ _ Ej), app_assoc, in_app_iff; left; rewrite <- (Rx _ _ _ Ej); exact Hg).
      destruct (ni_ok _ _ _ _ _ N (w_in w r0 j) g ltac:(right; congruence) Hin Hgd) as [O1 O2]. split; eauto.
    + rewrite in_app_iff in Hf. destruct Hf as [Hf|Hf]; [eapply ni_ok; eauto|]. assert (Efy : fy c = None) by (unfold fy; rewrite Er; reflexivity). rewrite Efy in Hf. cbn [opt] in Hf. rewrite app_nil_r in Hf.
      destruct c as [n|d|c]; cbn [fx opt] in Hf; try contradiction. destruct (t_inj t n) as [f'|] eqn:Ef; cbn [opt] in Hf; [|contradiction]. destruct Hf as [->|[]]. destruct Ek as [Ek|Ek]; [congruence|]. destruct (w_snk w (Inj n)) as [[r i]|] eqn:Es; [|congruence].
      destruct (nd_inj _ _ _ _ _ D n f r i Ef Es) as [_ [_ [_ B]]]. destruct (B Hd) as [B1 B2]. split; auto. intros Rd r' i' E. injection E as <- <-. auto.
  - destruct (ni_t _ _ _ _ _ N) as [A B]. split; [rewrite !app_length; cbn; lia|]. intros r. unfold xs'. apply Forall2_app; auto. constructor; auto. constructor; reflexivity.
Qed.

Lemma ni0 : NI [] [] (net0 P w) (fun _ => []) (fun _ => []).
Proof.
  constructor; cbn [net0 n_rt n_f n_c].
  - apply repeat_length.
  - intros r Hr. split; [exact I|]. cbn. unfold rt. cbn. rewrite nth_repeat. reflexivity.
  - constructor; intros; unfold entered, gave; cbn; repeat destruct (w_src w _) as [[? ?]|]; repeat destruct (w_snk w _) as [[? ?]|]; try destruct c; reflexivity.
  - reflexivity.
  - intros. constructor.
  - intros. cbn. split; auto. split; [intros v; discriminate|]. destruct (some_policy_ok _ _ SP) as [I [R0 [HP [_ HO]]]]. pose proof (st_ok0 _ _ _ HP) as Z0. pose proof (HO _ _ (so_base _ _ _ _ _ Z0) (so_pol _ _ _ _ _ Z0)) as Y. cbn in Y. lia.
  - intros d. cbn. split; auto.
  - intros c f Ek Hf. exfalso. unfold entered in Hf. destruct (w_src w c) as [[? ?]|]; [exact Hf|]. destruct c; exact Hf.
  - intros r x _ [].
  - split; auto.
Qed.
Lemma net_run_ok : forall ts hts hzs s xs ys, NI hts hzs s xs ys -> ndecent_from w ok hts hzs ts s ->
  exists s' zs xs' ys', net_run w ts s = Some (s', zs) /\ NI (hts ++ ts) (hzs ++ zs) s' xs' ys'.
Proof.
  intros ts. induction ts as [|t ts IH]; intros hts hzs s xs ys N D; cbn [net_run ndecent_from] in *.
  - exists s, [], xs, ys. rewrite !app_nil_r. auto.
  - destruct D as [D1 D2]. destruct (net_step_ok _ _ _ _ _ _ N D1) as [s1 [z [xs1 [ys1 [E1 [N1 _]]]]]]. rewrite E1. destruct (IH _ _ _ _ _ N1 (D2 _ _ E1)) as [s2 [zs [xs2 [ys2 [E2 N2]]]]]. rewrite E2.
    exists s2, (z :: zs), xs2, ys2. split; auto. rewrite <- !app_assoc in N2. exact N2.
Qed.
Lemma net_all : forall ts, ndecent_run P w ok ts -> exists s zs xs ys, net_run w ts (net0 P w) = Some (s, zs) /\ NI ts zs s xs ys.
Proof. intros ts D. apply (net_run_ok ts [] [] _ _ _ ni0 D). Qed.
End Net.
