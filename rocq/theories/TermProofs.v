(** How the assumptions about the nodes of a network follow from what the adapters do. *)
From Coq Require Import ZArith Arith Bool List Lia.
From Verif Require Import Fupd ArbiterModel AllocModel AllocSpec BufferModel BufferSpec BufferProofs RouteModel ChannelModel CreditModel IqRouterModel IqRouterSpec IqRouterProofs Prop_IqRouter NetModel NetSpec NetProofs TermModel TermSpec.
Import ListNotations.
Open Scope nat_scope.

(** ** Runs grow at the end *)
Lemma ndecent_from_snoc : forall P w ok ts hts hzs (s : net P) s1 zs t, ndecent_from w ok hts hzs ts s -> net_run w ts s = Some (s1, zs) -> ndecent w ok (hts ++ ts) (hzs ++ zs) t -> ndecent_from w ok hts hzs (ts ++ [t]) s.
Proof.
  intros P w ok ts. induction ts as [|a ts IH]; intros hts hzs s s1 zs t D E K; cbn [net_run app ndecent_from] in *.
  - injection E as <- <-. rewrite !app_nil_r in K. split; auto.
  - destruct D as [D1 D2]. split; auto. intros s' z E1. rewrite E1 in E. destruct (net_run w ts s') as [[s2 zs']|] eqn:E2; [|discriminate]. injection E as <- <-.
    eapply IH; eauto. rewrite <- !app_assoc. exact K.
Qed.
Lemma net_run_snoc : forall P w ts (s : net P) s1 zs t s2 z, net_run w ts s = Some (s1, zs) -> net_step w t s1 = Some (s2, z) -> net_run w (ts ++ [t]) s = Some (s2, zs ++ [z]).
Proof.
  intros P w ts. induction ts as [|a ts IH]; intros s s1 zs t s2 z E K; cbn [net_run app] in *.
  - injection E as <- <-. rewrite K. reflexivity.
  - destruct (net_step w a s) as [[s' y']|]; [|discriminate]. destruct (net_run w ts s') as [[s3 zs']|] eqn:E2; [|discriminate]. injection E as <- <-. rewrite (IH _ _ _ _ _ _ E2 K). reflexivity.
Qed.
Lemma took_app : forall n a b, took n (a ++ b) = took n a ++ took n b. Proof. intros. apply flat_map_app. Qed.
Lemma got_app : forall n a b, got n (a ++ b) = got n a ++ got n b. Proof. intros. apply flat_map_app. Qed.
Lemma freed_app : forall n a b, freed n (a ++ b) = freed n a ++ freed n b. Proof. intros. apply flat_map_app. Qed.
Lemma inj_app : forall n a b, inj_turns n (a ++ b) = inj_turns n a ++ inj_turns n b. Proof. intros. apply flat_map_app. Qed.
Lemma read_app : forall n a b, read_turns n (a ++ b) = read_turns n a ++ read_turns n b. Proof. intros. apply flat_map_app. Qed.
Lemma alternate_pre : forall a b, alternate (a ++ b) -> alternate a.
Proof. intros a b H l1 x y l2 E. apply (H l1 x y (l2 ++ b)). rewrite E, <- app_assoc. reflexivity. Qed.
Lemma alternate_last : forall l a d, alternate (l ++ [a]) -> l <> [] -> last l d = negb a.
Proof.
  intros l a d H N. destruct (exists_last N) as [l' [x ->]]. rewrite last_last. specialize (H l' x a []). rewrite <- app_assoc in H. specialize (H eq_refl). destruct x, a; try reflexivity; congruence.
Qed.
Lemma last_snoc_false : forall l d, last (l ++ [false]) d = false. Proof. intros. apply last_last. Qed.
Lemma in_turn_pre : forall w a b, in_turn w (a ++ b) -> in_turn w a.
Proof. intros w a b H n Hn. destruct (H n Hn) as [A B]. rewrite inj_app in A. rewrite read_app in B. split; eapply alternate_pre; eauto. Qed.
Lemma parse_snoc : forall l f, parse (l ++ [f]) = pstep (parse l) f.
Proof. intros. unfold parse. rewrite fold_left_app. reflexivity. Qed.
Lemma on_vc_same : forall f, on_vc (f_vc f) [f] = [f]. Proof. intros. cbn. rewrite Nat.eqb_refl. reflexivity. Qed.
Lemma on_vc_other : forall v f, f_vc f <> v -> on_vc v [f] = []. Proof. intros v f H. cbn. rewrite (proj2 (Nat.eqb_neq _ _) H). reflexivity. Qed.

(** A policy whose answer does not change when the channel is taken. *)
Definition self_steady (P : bpolicy) : Prop := forall t b p v tag p', po_take P v p = Some p' -> po_full P t (take_b v tag b) v p' = po_full P t b v p.
Lemma private_self : forall z, self_steady (private_policy z). Proof. intros z t b p v tag p' _. reflexivity. Qed.

Section Term.
Variables (P : bpolicy) (w : netcfg) (rf : nat -> nat -> flit -> list oelem) (ok : cid -> flit -> Prop) (I : bst -> po_st P -> Prop).
Hypothesis W : wired w.
Hypothesis SP : some_policy (w_b w) P.
Hypothesis HP : policy_ok (w_b w) P I.
Hypothesis HS : self_steady P.
Hypothesis HO : forall b p, base_ok (w_b w) b -> I b p -> (b_occ b <= bc_size (w_b w))%Z.
Hypothesis RO : routes_ok w rf ok.

Definition reg (s : term P) (n : nat) : list nat := concat (opt (ch_out (n_c (tm_net s) (Inj n)))).
Definition due (n : nat) (es : list tev) (s : term P) : list nat := if last (inj_turns n es) false then [] else reg s n.
Definition kept (s : term P) (n v : nat) : nat := match tm_ej s n with Some u => if Nat.eq_dec u v then 1 else 0 | None => 0 end.

(** [l]: what was sent. *)
Definition tracked (l : list flit) (h : list (Z * bev)) (b : bufs P) : Prop :=
  st_ok (w_b w) P I h b /\ (forall v, sent v h = Z.of_nat (length (on_vc v l))) /\ (forall v, busy v h = true <-> exists p, parse (on_vc v l) = Some (Some p)).
Record TI (es : list tev) (o : list tobs) (s : term P) (ts : list tick) (zs : list nout) (xs : nat -> list rin) (ys : nat -> list rout) (hb : nat -> list (Z * bev)) : Prop := {
  ti_run : net_run w ts (net0 P w) = Some (tm_net s, zs);
  ti_dec : ndecent_run P w ok ts;
  ti_ni : NI P w ok ts zs (tm_net s) xs ys;
  ti_start : forall n, inj_turns n es = [] \/ read_turns n es = [] -> ts = [];
  ti_took : forall n, took n o = injected ts n ++ opt (tm_inj s n);
  ti_turn : forall n, tm_inj s n <> None -> last (inj_turns n es) false = true;
  ti_wf : forall n, Forall (fun f => f_vc f < bc_vcs (w_b w) /\ (f_head f = true -> ok (Inj n) f /\ (w_rd w = false -> forall r i, w_snk w (Inj n) = Some (r, i) -> lawful w ok r f (f_la f)))) (took n o) /\ forall v, well_formed (on_vc v (took n o));
  ti_buf : forall n, tracked (took n o) (hb n) (tm_buf s n);
  ti_cred : forall n v, n < w_nodes w -> (BufferSpec.credited v (hb n) + Z.of_nat (count_occ Nat.eq_dec (due n es s) v) = Z.of_nat (count_occ Nat.eq_dec (returned zs n) v))%Z;
  ti_got : forall n, n < w_nodes w -> got n o ++ unread n es s = ejected zs n;
  ti_free : forall n v, count_occ Nat.eq_dec (NetSpec.credited ts n) v + kept s n v <= count_occ Nat.eq_dec (freed n es) v <= length (on_vc v (got n o)) }.

Lemma ti0 : TI [] [] (term0 P w) [] [] (fun _ => []) (fun _ => []) (fun _ => []).
Proof.
  constructor; cbn; auto; try discriminate; try congruence.
  - apply (ni0 P w ok SP).
  - intros n. split; auto. intros v. discriminate.
  - intros n. split; [apply st_ok0; exact HP|]. split; intros v; [reflexivity|]. split; [discriminate|]. intros [p X]. discriminate.
Qed.

(** Credits that come back are for flits sent. *)
Lemma returned_le : forall ts zs s xs ys n v, NI P w ok ts zs s xs ys -> n < w_nodes w -> (In v (returned zs n) -> v < bc_vcs (w_b w)) /\ count_occ Nat.eq_dec (returned zs n) v <= length (on_vc v (injected ts n)).
Proof.
  intros ts zs s xs ys n v N Hn. apply (proj2 (wi_inj w W n)) in Hn. destruct (w_snk w (Inj n)) as [[r i]|] eqn:Ek; [|congruence]. clear Hn.
  apply (wi_in w W) in Ek as Ek'. destruct Ek' as [Hr [Hi _]]. pose proof (facts_of P w ok W SP _ _ _ _ _ _ N Hr) as F. pose proof (ni_car _ _ _ _ _ _ _ _ N) as C.
  pose proof (cr_return _ _ _ _ _ _ C n r i Ek) as E. unfold gave in E. rewrite Ek in E. pose proof (cr_flit _ _ _ _ _ _ C _ r i Ek) as E2. unfold entered in E2. rewrite (proj1 (wi_inj w W n)) in E2.
  assert (A : In v (returned zs n) -> v < bc_vcs (w_b w)).
  { intros H. rewrite <- (vcs_of w W r Hr). pose proof (fa_cvc _ _ _ F i Hi) as X. rewrite Forall_forall in X. apply X. rewrite <- E. apply in_app_iff. auto. }
  split; auto. destruct (in_dec Nat.eq_dec v (returned zs n)) as [H|H]; [|rewrite (proj1 (count_occ_not_In Nat.eq_dec _ v) H); lia].
  pose proof (fa_count _ _ _ F i v Hi ltac:(rewrite (vcs_of w W r Hr); auto)) as M. rewrite <- E, count_occ_app in M. rewrite <- E2, on_vc_app, app_length. lia.
Qed.
Lemma count_total : forall l n, (forall v, In v l -> v < n) -> total (fun v => Z.of_nat (count_occ Nat.eq_dec l v)) n = Z.of_nat (length l).
Proof.
  intros l n F. induction l as [|a l IH]; [cbn; apply total_zero|].
  rewrite (total_ext _ (fun v => (Z.of_nat (count_occ Nat.eq_dec l v) + (if Nat.eqb a v then 1 else 0))%Z)).
  - rewrite total_add, IH, total_one by (intros; apply F; cbn; auto). cbn [length]. lia.
  - intros v Hv. cbn [count_occ]. destruct (Nat.eq_dec a v) as [->|Ne]; [rewrite Nat.eqb_refl|rewrite (proj2 (Nat.eqb_neq _ _) Ne)]; lia.
Qed.

(** *** The credit tracker of a node *)
Lemma on_vc_snoc_len : forall v l g, Z.of_nat (length (on_vc v (l ++ [g]))) = (Z.of_nat (length (on_vc v l)) + (if Nat.eqb (f_vc g) v then 1 else 0))%Z.
Proof. intros. rewrite on_vc_app, app_length. cbn [on_vc filter]. destruct (f_vc g =? v); cbn [length]; lia. Qed.
Lemma send_tracked : forall l h b now f, tracked l h b -> f_vc f < bc_vcs (w_b w) -> well_formed (on_vc (f_vc f) (l ++ [f])) -> po_full P now (bs_b b) (f_vc f) (bs_p b) = Some false ->
  negb (f_head f) || negb (bc_wait (w_b w)) || available_for (bs_b b) (f_vc f) = true ->
  exists b1 b2 h', (if f_head f then bs_take (w_b w) P (f_vc f) 0 b else Some b) = Some b1 /\ bs_send (w_b w) P now (f_vc f) (f_tail f) b1 = Some b2 /\ tracked (l ++ [f]) h' b2 /\ forall v, BufferSpec.credited v h' = BufferSpec.credited v h.
Proof.
  intros l h b now f [S [Ts Tb]] Hv Wf Hf Hav. set (v := f_vc f) in *.
  assert (Ew : on_vc v (l ++ [f]) = on_vc v l ++ [f]) by (rewrite on_vc_app; unfold v; rewrite on_vc_same; reflexivity).
  assert (X : exists b1 h1, (if f_head f then bs_take (w_b w) P v 0 b else Some b) = Some b1 /\ st_ok (w_b w) P I h1 b1 /\ (forall u, sent u h1 = sent u h) /\ (forall u, BufferSpec.credited u h1 = BufferSpec.credited u h) /\
     (forall u, u <> v -> busy u h1 = busy u h) /\ busy v h1 = true /\ po_full P now (bs_b b1) v (bs_p b1) = Some false).
  { unfold well_formed in Wf. rewrite Ew, parse_snoc in Wf. destruct (f_head f) eqn:Hh.
    - assert (Np : busy v h = false). { destruct (busy v h) eqn:B; auto. exfalso. apply Tb in B. destruct B as [p B]. rewrite B in Wf. cbn in Wf. rewrite Hh in Wf. apply Wf. reflexivity. }
      assert (Av : available_for (bs_b b) v = true).
      { destruct (bc_wait (w_b w)) eqn:Wt; [exact Hav|]. unfold available_for. apply Z.ltb_lt. destruct (Z.lt_ge_cases (b_use (bs_b b) v) 0) as [|G]; auto. exfalso.
        pose proof (bo_nowait _ _ (so_base _ _ _ _ _ S) Wt v Hv G) as X. assert (busy v h = true) by (apply (so_busy _ _ _ _ _ S v Hv); split; auto). congruence. }
      destruct (step_ok (w_b w) P I HP h (now, ETake v 0) b S) as [b1 [E1 S1]]; [cbn; auto with zarith|]. cbn [bs_step] in E1. exists b1, (h ++ [(now, ETake v 0%Z)]). split; auto. split; auto.
      split; [intros u; rewrite sent_app; cbn; lia|]. split; [intros u; rewrite credited_app; cbn; lia|]. split; [intros u Hu; rewrite busy_snoc; cbn; destruct (Nat.eqb_spec v u); congruence|]. split; [rewrite busy_snoc; cbn; rewrite Nat.eqb_refl; auto|].
      unfold bs_take in E1. rewrite (proj2 (Nat.ltb_lt _ _) Hv) in E1. cbn [negb] in E1. destruct (0 <=? b_use (bs_b b) v)%Z; [discriminate|]. destruct (po_take P v (bs_p b)) as [p'|] eqn:Et; [|discriminate]. injection E1 as <-. cbn [bs_b bs_p].
      fold (take_b v 0 (bs_b b)). rewrite (HS now _ _ _ _ _ Et). exact Hf.
    - exists b, h. split; auto. split; auto. do 3 (split; auto). split; auto. apply Tb. destruct (parse (on_vc v l)) as [[p|]|] eqn:Ep; [eauto| |]; exfalso; apply Wf; cbn; rewrite ?Hh; reflexivity. }
  destruct X as [b1 [h1 [E1 [S1 [A1 [A2 [A3 [A4 A5]]]]]]]].
  destruct (step_ok (w_b w) P I HP h1 (now, ESend v (f_tail f)) b1 S1) as [b2 [E2 S2]]; [cbn; auto|]. cbn [bs_step] in E2.
  exists b1, b2, (h1 ++ [(now, ESend v (f_tail f))]). split; auto. split; auto. split; [|intros u; rewrite credited_app; cbn; rewrite A2; lia]. split; auto. split.
  - intros u. rewrite sent_app, A1, Ts, on_vc_snoc_len. cbn [sent]. fold v. lia.
  - intros u. rewrite busy_snoc. cbn [busy_step]. destruct (Nat.eqb_spec v u) as [<-|Nu].
    + rewrite Ew, parse_snoc. unfold well_formed in Wf. rewrite Ew, parse_snoc in Wf. destruct (parse (on_vc v l)) as [[p|]|]; cbn in *.
      * destruct (negb (f_head f) && (f_pid f =? p)%Z); [|congruence]. destruct (f_tail f); cbn; split; try discriminate; eauto. intros [q X]. discriminate.
      * destruct (f_head f); [|congruence]. destruct (f_tail f); cbn; split; try discriminate; eauto. intros [q X]. discriminate.
      * congruence.
    + rewrite (A3 u) by auto. rewrite on_vc_app, on_vc_other, app_nil_r by (fold v; auto). apply Tb.
Qed.
Lemma credit_tracked : forall l h b now vs, tracked l h b -> NoDup vs -> (forall v, In v vs -> v < bc_vcs (w_b w) /\ (BufferSpec.credited v h < Z.of_nat (length (on_vc v l)))%Z) ->
  exists b' h', bs_credit (w_b w) P now vs b = Some b' /\ tracked l h' b' /\ forall v, BufferSpec.credited v h' = (BufferSpec.credited v h + Z.of_nat (count_occ Nat.eq_dec vs v))%Z.
Proof.
  intros l h b now vs [S [Ts Tb]] Nd H. destruct (step_ok (w_b w) P I HP h (now, ECredit vs) b S) as [b' [E S']].
  { cbn. split; auto. apply Forall_forall. intros v Hv. destruct (H v Hv). rewrite Ts. auto. }
  cbn [bs_step] in E. exists b', (h ++ [(now, ECredit vs)]). split; auto. split.
  - split; auto. split; intros v; [rewrite sent_app; cbn; rewrite Ts; lia|]. rewrite busy_snoc. cbn. apply Tb.
  - intros v. rewrite credited_app. cbn. lia.
Qed.

(** *** One event *)
Definition head_fine (n : nat) (f : flit) : Prop := f_vc f < bc_vcs (w_b w) /\ (f_head f = true -> ok (Inj n) f /\ (w_rd w = false -> forall r i, w_snk w (Inj n) = Some (r, i) -> lawful w ok r f (f_la f))).
Lemma first_route_ok : forall n f, n < w_nodes w -> f_vc f < bc_vcs (w_b w) -> (f_head f = true -> ok (Inj n) f) ->
  exists g, first_route w rf n f = Some g /\ same f g /\ f_vc g = f_vc f /\ head_fine n g.
Proof.
  intros n f Hn Hv Hh. unfold first_route, head_fine. destruct (w_rd w) eqn:Rd.
  - exists f. split; auto. split; [apply same_refl|]. split; auto. split; auto. intros H. split; auto. discriminate.
  - apply (proj2 (wi_inj w W n)) in Hn. destruct (w_snk w (Inj n)) as [[r i]|] eqn:Ek; [|congruence]. set (g := {| f_id := f_id f; f_pid := f_pid f; f_head := f_head f; f_tail := f_tail f; f_vc := f_vc f; f_la := rf r i f |}).
    assert (S : same f g) by (unfold same; cbn; auto). exists g. split; auto. split; auto. split; auto. split; [exact Hv|]. intros H. cbn in H. specialize (Hh H). split; [apply (proj2 RO _ f g S eq_refl Hh)|].
    intros _ r' i' E. injection E as <- <-. apply (lawful_same w ok r f g _ S). cbn [f_la g]. apply (wi_in w W) in Ek. destruct Ek as [Hr [Hi Ek]]. apply (proj1 RO r i f Hr Hi H). rewrite Ek. exact Hh.
Qed.
Lemma wf_same : forall l f g, same f g -> f_vc g = f_vc f -> well_formed (on_vc (f_vc f) (l ++ [f])) -> well_formed (on_vc (f_vc g) (l ++ [g])).
Proof.
  intros l f g [_ [A [B C]]] E H. unfold well_formed in *. rewrite E, !on_vc_app in *. rewrite on_vc_same in H. rewrite <- E, on_vc_same, E. rewrite parse_snoc in *. unfold pstep in *. rewrite A, B, C. exact H.
Qed.
Lemma offer_ok : forall es o s ts zs xs ys hb n now f, TI es o s ts zs xs ys hb -> n < w_nodes w -> tm_inj s n = None ->
  f_vc f < bc_vcs (w_b w) -> well_formed (on_vc (f_vc f) (took n o ++ [f])) -> (f_head f = true -> ok (Inj n) f) ->
  exists s1 o1 h1, offer w rf n now f s = Some (s1, o1) /\ (tm_net s1 = tm_net s /\ tm_ej s1 = tm_ej s /\ forall m, m <> n -> tm_buf s1 m = tm_buf s m /\ tm_inj s1 m = tm_inj s m) /\ tracked (took n (o ++ o1)) h1 (tm_buf s1 n) /\ (forall v, BufferSpec.credited v h1 = BufferSpec.credited v (hb n)) /\
    (forall m, m <> n -> took m o1 = []) /\ (forall m, got m o1 = []) /\ took n o1 = opt (tm_inj s1 n) /\ Forall (head_fine n) (took n o1) /\ (forall v, well_formed (on_vc v (took n (o ++ o1)))).
Proof.
  intros es o s ts zs xs ys hb n now f T Hn Hi Hv Hw Hh. unfold offer. pose proof (ti_buf _ _ _ _ _ _ _ _ T n) as [S [Ts Tb]].
  destruct (pk_full _ _ _ HP now _ _ _ (so_base _ _ _ _ _ S) (so_pol _ _ _ _ _ S) Hv) as [full Ef]. rewrite Ef.
  destruct (negb full && _) eqn:G.
  - apply andb_prop in G. destruct G as [G1 G2]. destruct full; [discriminate|]. destruct (first_route_ok n f Hn Hv Hh) as [g [Eg [Sg [Vg Fg]]]]. rewrite Eg.
    pose proof (wf_same _ _ _ Sg Vg Hw) as Wg. pose proof Sg as Sg'. destruct Sg' as [_ [_ [Hg Tg]]]. rewrite <- Vg in Ef, Hv, G2. rewrite <- Hg in G2.
    destruct (send_tracked _ _ _ now g (conj S (conj Ts Tb)) Hv Wg Ef G2) as [b1 [b2 [h' [E1 [E2 [T' C']]]]]]. rewrite <- Vg, <- Hg, <- Tg, E1, E2.
    assert (Et : took n [Took n g] = [g]) by (cbn; rewrite Nat.eqb_refl; reflexivity).
    eexists _, [Took n g], h'. split; [reflexivity|]. cbn [tm_net tm_ej tm_buf tm_inj]. rewrite !fupd_same. split; [split; auto; split; auto; intros m Hm; rewrite !fupd_other by auto; auto|]. rewrite took_app, Et. split; auto. split; auto. split; [intros m Hm; cbn; destruct (Nat.eqb_spec n m); [congruence|reflexivity]|]. split; [reflexivity|]. split; auto. split; [constructor; auto|].
    intros v. destruct (Nat.eq_dec (f_vc g) v) as [<-|Nv]; auto. rewrite on_vc_app, on_vc_other, app_nil_r by auto. apply (ti_wf _ _ _ _ _ _ _ _ T n).
  - exists s, [], (hb n). split; auto. split; auto.
    rewrite app_nil_r. split; [exact (conj S (conj Ts Tb))|]. split; auto. split; auto. split; auto. rewrite Hi. split; auto. split; [constructor|]. apply (ti_wf _ _ _ _ _ _ _ _ T n).
Qed.
Lemma credited_nonneg : forall v h, (0 <= BufferSpec.credited v h)%Z.
Proof. intros v h. induction h as [|[t e] h IH]; cbn [BufferSpec.credited]; [lia|]. destruct e; lia. Qed.
Lemma credit_ok : forall es o s ts zs xs ys hb n now l h b, TI es o s ts zs xs ys hb -> n < w_nodes w -> last (inj_turns n es) false = false ->
  tracked l h b -> (forall v, BufferSpec.credited v h = BufferSpec.credited v (hb n)) -> (forall v, length (on_vc v (took n o)) <= length (on_vc v l)) ->
  exists b' h', match ch_out (n_c (tm_net s) (Inj n)) with Some vs => bs_credit (w_b w) P now vs b | None => Some b end = Some b' /\ tracked l h' b' /\
    forall v, BufferSpec.credited v h' = Z.of_nat (count_occ Nat.eq_dec (returned zs n) v).
Proof.
  intros es o s ts zs xs ys hb n now l h b T Hn La Tr Cr Le.
  assert (C : forall v, (BufferSpec.credited v h + Z.of_nat (count_occ Nat.eq_dec (reg s n) v) = Z.of_nat (count_occ Nat.eq_dec (returned zs n) v))%Z).
  { intros v. pose proof (ti_cred _ _ _ _ _ _ _ _ T n v Hn) as X. unfold due in X. rewrite La in X. rewrite Cr. exact X. }
  unfold reg in C. destruct (ch_out (n_c (tm_net s) (Inj n))) as [vs|] eqn:Ev.
  - rewrite concat_opt in C. pose proof (ni_nd _ _ _ _ _ _ _ _ (ti_ni _ _ _ _ _ _ _ _ T) (Inj n)) as Nd. rewrite Ev in Nd. cbn [opt app] in Nd. inversion Nd; subst.
    destruct (credit_tracked l h b now vs Tr ltac:(auto)) as [b' [h' [E [T' C']]]].
    { intros v Hv. pose proof (proj1 (count_occ_In Nat.eq_dec vs v) Hv) as Hc. specialize (C v). pose proof (credited_nonneg v h). destruct (returned_le _ _ _ _ _ n v (ti_ni _ _ _ _ _ _ _ _ T) Hn) as [R1 R2]. split; [apply R1, (count_occ_In Nat.eq_dec); lia|].
      specialize (Le v). rewrite (ti_took _ _ _ _ _ _ _ _ T n), on_vc_app, app_length in Le. lia. }
    exists b', h'. split; auto. split; auto. intros v. rewrite C'. apply C.
  - exists b, h. split; auto. split; auto. intros v. specialize (C v). cbn in C. lia.
Qed.
Lemma last_snoc : forall A (l : list A) a d, last (l ++ [a]) d = a. Proof. intros. apply last_last. Qed.

Lemma inj_step : forall es o s ts zs xs ys hb n now f, TI es o s ts zs xs ys hb -> in_turn w (es ++ [VInj n now f]) -> tdecent w ok es o (VInj n now f) ->
  exists s' o' hb', term_step w rf (VInj n now f) s = Some (s', o') /\ TI (es ++ [VInj n now f]) (o ++ o') s' ts zs xs ys hb'.
Proof.
  intros es o s ts zs xs ys hb n now f T Al D. cbn [tdecent] in D. destruct D as [Hn D].
  assert (Et : inj_turns n (es ++ [VInj n now f]) = inj_turns n es ++ [true]) by (rewrite inj_app; cbn; rewrite Nat.eqb_refl; reflexivity).
  assert (Em : forall m, m <> n -> inj_turns m (es ++ [VInj n now f]) = inj_turns m es) by (intros m Hm; rewrite inj_app; cbn; destruct (Nat.eqb_spec n m); [congruence|apply app_nil_r]).
  assert (Er : forall m, read_turns m (es ++ [VInj n now f]) = read_turns m es) by (intros m; rewrite read_app; cbn; apply app_nil_r).
  assert (Ef : forall m, freed m (es ++ [VInj n now f]) = freed m es) by (intros m; rewrite freed_app; cbn; apply app_nil_r).
  assert (La : last (inj_turns n es) false = false).
  { destruct (Al n Hn) as [A _]. rewrite Et in A. destruct (inj_turns n es) as [|a l]; auto. rewrite (alternate_last (a :: l) true false A); [reflexivity|discriminate]. }
  assert (Hi : tm_inj s n = None). { destruct (tm_inj s n) eqn:E; auto. rewrite (ti_turn _ _ _ _ _ _ _ _ T n) in La; congruence. }
  assert (X : exists s1 o1 h1, match f with Some g => offer w rf n now g s | None => Some (s, []) end = Some (s1, o1) /\ (tm_net s1 = tm_net s /\ tm_ej s1 = tm_ej s /\ forall m, m <> n -> tm_buf s1 m = tm_buf s m /\ tm_inj s1 m = tm_inj s m) /\
    tracked (took n (o ++ o1)) h1 (tm_buf s1 n) /\ (forall v, BufferSpec.credited v h1 = BufferSpec.credited v (hb n)) /\
    (forall m, m <> n -> took m o1 = []) /\ (forall m, got m o1 = []) /\ took n o1 = opt (tm_inj s1 n) /\ Forall (head_fine n) (took n o1) /\ (forall v, well_formed (on_vc v (took n (o ++ o1))))).
  { destruct f as [g|]; [|].
    - destruct (D g eq_refl) as [D1 [D2 D3]]. eapply offer_ok; eauto.
    - exists s, [], (hb n). rewrite app_nil_r, Hi. split; auto. split; auto. split; [apply T|]. do 4 (split; auto). split; [constructor|]. apply (ti_wf _ _ _ _ _ _ _ _ T n). }
  destruct X as [s1 [o1 [h1 [E1 [[N1 [J1 K1]] [T1 [C1 [P1 [P2 [P3 [P4 P5]]]]]]]]]]].
  destruct (credit_ok _ _ _ _ _ _ _ _ n now (took n (o ++ o1)) h1 (tm_buf s1 n) T Hn La T1 C1) as [b' [h' [E2 [T2 C2]]]].
  { intros v. rewrite took_app, on_vc_app, app_length. lia. }
  assert (Y : exists s', take_credit w n now s1 = Some s' /\ tm_net s' = tm_net s /\ tm_ej s' = tm_ej s /\ tm_buf s' n = b' /\ (forall m, tm_inj s' m = tm_inj s1 m) /\ forall m, m <> n -> tm_buf s' m = tm_buf s m).
  { unfold take_credit. rewrite N1. destruct (ch_out (n_c (tm_net s) (Inj n))) as [vs|].
    - rewrite E2. eexists. split; [reflexivity|]. cbn. rewrite fupd_same. do 4 (split; auto). intros m Hm. rewrite fupd_other by auto. apply K1; auto.
    - exists s1. injection E2 as ->. do 5 (split; auto). intros m Hm. apply K1; auto. }
  destruct Y as [s' [E3 [N' [J' [B' [I' K']]]]]].
  exists s', o1, (fupd hb n h'). split.
  { cbn [term_step]. rewrite (proj2 (Nat.ltb_lt _ _) Hn). cbn [negb]. rewrite E1, E3. reflexivity. }
  destruct T as [Q1 Q2 Q3 Q4 Q5 Q6 Q7 Q8 Q9 Q10 Q11]. constructor.
  - rewrite N'. auto.
  - auto.
  - rewrite N'. auto.
  - intros m [H|H].
    + destruct (Nat.eq_dec m n) as [->|Hm]; [rewrite Et in H; destruct (inj_turns n es); discriminate|]. rewrite (Em m Hm) in H. apply (Q4 m). auto.
    + rewrite Er in H. apply (Q4 m). auto.
  - intros m. rewrite took_app, (Q5 m), I'. destruct (Nat.eq_dec m n) as [->|Ne]; [rewrite P3, Hi; cbn [opt]; rewrite app_nil_r; auto|]. rewrite (P1 m Ne), app_nil_r. rewrite (proj2 (proj2 (proj2 (conj N1 (conj J1 K1))) m Ne)). reflexivity.
  - intros m H. rewrite I' in H. destruct (Nat.eq_dec m n) as [->|Ne]; [rewrite Et; apply last_snoc|]. rewrite (proj2 (K1 m Ne)) in H. rewrite (Em m Ne). auto.
  - intros m. destruct (Nat.eq_dec m n) as [->|Ne]; [|rewrite took_app, (P1 m Ne), app_nil_r; apply Q7]. split; auto. rewrite took_app. apply Forall_app. split; [apply Q7|]. exact P4.
  - intros m. unfold fupd. destruct (Nat.eqb_spec m n) as [->|Ne]; [rewrite B'; auto|]. rewrite took_app, (P1 m Ne), app_nil_r, (K' m Ne). apply Q8.
  - intros m v Hm. unfold due, reg. rewrite N'. unfold fupd. destruct (Nat.eqb_spec m n) as [->|Ne]; [rewrite Et, last_snoc, C2; cbn; lia|]. rewrite (Em m Ne). apply (Q9 m v Hm).
  - intros m Hm. rewrite got_app, P2, app_nil_r. unfold unread. rewrite Er, N'. apply (Q10 m Hm).
  - intros m v. rewrite Ef, got_app, P2, app_nil_r. unfold kept. rewrite J'. apply (Q11 m v).
Qed.

Lemma read_step : forall es o s ts zs xs ys hb n, TI es o s ts zs xs ys hb -> in_turn w (es ++ [VRead n]) -> n < w_nodes w ->
  exists o', term_step w rf (VRead n) s = Some (s, o') /\ TI (es ++ [VRead n]) (o ++ o') s ts zs xs ys hb /\ got n o' = opt (ch_out (n_f (tm_net s) (Ej n))) /\ forall m, m <> n -> got m o' = [].
Proof.
  intros es o s ts zs xs ys hb n T Al Hn.
  assert (Ei : forall m, inj_turns m (es ++ [VRead n]) = inj_turns m es) by (intros m; rewrite inj_app; cbn; apply app_nil_r).
  assert (Et : read_turns n (es ++ [VRead n]) = read_turns n es ++ [true]) by (rewrite read_app; cbn; rewrite Nat.eqb_refl; reflexivity).
  assert (Em : forall m, m <> n -> read_turns m (es ++ [VRead n]) = read_turns m es) by (intros m Hm; rewrite read_app; cbn; destruct (Nat.eqb_spec n m); [congruence|apply app_nil_r]).
  assert (Ef : forall m, freed m (es ++ [VRead n]) = freed m es) by (intros m; rewrite freed_app; cbn; apply app_nil_r).
  assert (La : last (read_turns n es) false = false).
  { destruct (Al n Hn) as [_ A]. rewrite Et in A. destruct (read_turns n es) as [|a l]; auto. rewrite (alternate_last (a :: l) true false A); [reflexivity|discriminate]. }
  set (o' := match ch_out (n_f (tm_net s) (Ej n)) with Some f => [Got n f] | None => [] end).
  assert (O1 : forall m, took m o' = []) by (intros m; unfold o'; destruct (ch_out _); reflexivity).
  assert (O2 : got n o' = opt (ch_out (n_f (tm_net s) (Ej n)))) by (unfold o'; destruct (ch_out _); cbn; rewrite ?Nat.eqb_refl; reflexivity).
  assert (O3 : forall m, m <> n -> got m o' = []) by (intros m Hm; unfold o'; destruct (ch_out _); cbn; auto; destruct (Nat.eqb_spec n m); [congruence|reflexivity]).
  exists o'. split; [cbn [term_step]; rewrite (proj2 (Nat.ltb_lt _ _) Hn); reflexivity|]. split; [|auto].
  destruct T as [Q1 Q2 Q3 Q4 Q5 Q6 Q7 Q8 Q9 Q10 Q11]. constructor; auto.
  - intros m [H|H].
    + rewrite Ei in H. apply (Q4 m). auto.
    + destruct (Nat.eq_dec m n) as [->|Hm]; [rewrite Et in H; destruct (read_turns n es); discriminate|]. rewrite (Em m Hm) in H. apply (Q4 m). auto.
  - intros m. rewrite took_app, O1, app_nil_r. auto.
  - intros m H. rewrite Ei. auto.
  - intros m. rewrite took_app, O1, app_nil_r. auto.
  - intros m. rewrite took_app, O1, app_nil_r. auto.
  - intros m v Hm. unfold due. rewrite Ei. apply (Q9 m v Hm).
  - intros m Hm. rewrite got_app. unfold unread. specialize (Q10 m Hm). unfold unread in Q10. destruct (Nat.eq_dec m n) as [->|Ne].
    + rewrite Et, last_snoc, O2, app_nil_r. rewrite La in Q10. exact Q10.
    + rewrite (Em m Ne), (O3 m Ne), app_nil_r. exact Q10.
  - intros m v. rewrite Ef, got_app, on_vc_app, app_length. specialize (Q11 m v). lia.
Qed.

Lemma free_step : forall es o s ts zs xs ys hb n v, TI es o s ts zs xs ys hb -> tdecent w ok es o (VFree n v) ->
  exists s', term_step w rf (VFree n v) s = Some (s', []) /\ TI (es ++ [VFree n v]) o s' ts zs xs ys hb.
Proof.
  intros es o s ts zs xs ys hb n v T [Hn D]. eexists. split; [reflexivity|].
  assert (Ei : forall m, inj_turns m (es ++ [VFree n v]) = inj_turns m es) by (intros m; rewrite inj_app; cbn; apply app_nil_r).
  assert (Er : forall m, read_turns m (es ++ [VFree n v]) = read_turns m es) by (intros m; rewrite read_app; cbn; apply app_nil_r).
  destruct T as [Q1 Q2 Q3 Q4 Q5 Q6 Q7 Q8 Q9 Q10 Q11]. constructor; cbn [tm_net tm_buf tm_inj tm_ej]; auto.
  - intros m. rewrite Ei, Er. apply (Q4 m).
  - intros m H. rewrite Ei. auto.
  - intros m u Hm. unfold due. rewrite Ei. apply (Q9 m u Hm).
  - intros m Hm. unfold unread. rewrite Er. apply (Q10 m Hm).
  - intros m u. rewrite freed_app, count_occ_app. cbn [freed flat_map]. rewrite app_nil_r. specialize (Q11 m u). unfold kept in *. cbn [tm_ej]. destruct (Nat.eqb_spec n m) as [<-|Ne].
    + cbn [count_occ]. unfold ej_insert. destruct (tm_ej s n) as [x|] eqn:Ex; [rewrite Ex|rewrite fupd_same]; destruct (Nat.eq_dec v u) as [->|Nu]; try lia.
    + cbn [count_occ]. unfold ej_insert. destruct (tm_ej s n); [|rewrite fupd_other by auto]; lia.
Qed.

Lemma room_left : forall es o s ts zs xs ys hb n, TI es o s ts zs xs ys hb -> n < w_nodes w -> (Z.of_nat (length (took n o)) - Z.of_nat (length (returned zs n)) <= bc_size (w_b w))%Z.
Proof.
  intros es o s ts zs xs ys hb n T Hn. destruct (ti_buf _ _ _ _ _ _ _ _ T n) as [S [Ts Tb]]. pose proof (HO _ _ (so_base _ _ _ _ _ S) (so_pol _ _ _ _ _ S)) as B. rewrite (bo_sum _ _ (so_base _ _ _ _ _ S)) in B.
  pose proof (proj1 (ti_wf _ _ _ _ _ _ _ _ T n)) as F. rewrite <- (total_on_vc_all (took n o) (bc_vcs (w_b w))).
  2: { eapply Forall_impl; [|exact F]. cbn. intros a [H _]. exact H. }
  rewrite <- (count_total (returned zs n) (bc_vcs (w_b w))). 2: { intros v Hv. apply (returned_le _ _ _ _ _ n v (ti_ni _ _ _ _ _ _ _ _ T) Hn). auto. }
  assert (X : (total (fun v => Z.of_nat (length (on_vc v (took n o)))) (bc_vcs (w_b w)) <= total (fun v => b_vocc (bs_b (tm_buf s n)) v + Z.of_nat (count_occ Nat.eq_dec (returned zs n) v)) (bc_vcs (w_b w)))%Z).
  { apply total_le. intros v Hv. rewrite (so_occ _ _ _ _ _ S v Hv), Ts. pose proof (ti_cred _ _ _ _ _ _ _ _ T n v Hn). lia. }
  rewrite total_add in X. lia.
Qed.
Lemma on_vc_in : forall v l, 0 < length (on_vc v l) -> exists f, In f l /\ f_vc f = v.
Proof. intros v l H. destruct (on_vc v l) as [|f r] eqn:E; [cbn in H; lia|]. assert (X : In f (on_vc v l)) by (rewrite E; left; auto). apply filter_In in X. destruct X as [X Y]. apply Nat.eqb_eq in Y. eauto. Qed.
Lemma ejected_vcs : forall ts zs s xs ys n f, NI P w ok ts zs s xs ys -> n < w_nodes w -> In f (ejected zs n) -> f_vc f < bc_vcs (w_b w).
Proof.
  intros ts zs s xs ys n f N Hn Hf. apply (proj2 (wi_ej w W n)) in Hn. destruct (w_src w (Ej n)) as [[r o]|] eqn:Ek; [|congruence].
  apply (wi_out w W) in Ek as Ek'. destruct Ek' as [Hr [Ho _]]. pose proof (facts_of P w ok W SP _ _ _ _ _ _ N Hr) as F. pose proof (cr_eject _ _ _ _ _ _ (ni_car _ _ _ _ _ _ _ _ N) n r o Ek) as E.
  unfold entered in E. rewrite Ek in E. rewrite <- (vcs_of w W r Hr). pose proof (fa_vc _ _ _ F o Ho) as X. rewrite Forall_forall in X. apply X. rewrite <- E. apply in_app_iff. auto.
Qed.
Lemma freed_vcs : forall es o s ts zs xs ys hb n v, TI es o s ts zs xs ys hb -> n < w_nodes w -> 0 < length (on_vc v (got n o)) -> v < bc_vcs (w_b w).
Proof.
  intros es o s ts zs xs ys hb n v T Hn H. apply on_vc_in in H. destruct H as [f [Hf <-]]. apply (ejected_vcs _ _ _ _ _ n f (ti_ni _ _ _ _ _ _ _ _ T) Hn). rewrite <- (ti_got _ _ _ _ _ _ _ _ T n Hn). apply in_app_iff. auto.
Qed.
Lemma tick_decent : forall es o s ts zs xs ys hb k, TI es o s ts zs xs ys hb -> tdecent w ok es o (VTick k) -> ndecent w ok ts zs (tick_of w rf k s).
Proof.
  intros es o s ts zs xs ys hb k T [D1 D2]. constructor; cbn [tick_of t_now t_inj t_cred t_va t_sa t_rf]; auto.
  - apply RO.
  - intros n f r i Ef Ek. assert (Hn : n < w_nodes w) by (apply (wi_inj w W n); congruence). pose proof (room_left _ _ _ _ _ _ _ _ n T Hn) as R. pose proof (ti_took _ _ _ _ _ _ _ _ T n) as Et. rewrite Ef in Et. cbn [opt] in Et.
    destruct (ti_wf _ _ _ _ _ _ _ _ T n) as [F Wf]. rewrite Et in F, R. apply Forall_app in F. destruct F as [_ F]. inversion F as [|? ? [F1 F2] _]; subst. split; auto. split; [rewrite <- Et; apply Wf|].
    rewrite app_length in R. cbn [length] in R. split; [lia|]. intros H. destruct (F2 H) as [A B]. split; auto. intros Rd. apply (B Rd r i Ek).
  - intros d vs E. destruct (Nat.ltb_spec d (w_nodes w)) as [Hd|]; [|discriminate]. destruct (tm_ej s d) as [v|] eqn:Ev; [|discriminate]. injection E as <-. split; [constructor; [intros []|constructor]|].
    intros u [<-|[]]. pose proof (ti_free _ _ _ _ _ _ _ _ T d v) as X. unfold kept in X. rewrite Ev in X. destruct (Nat.eq_dec v v); [|congruence]. split; [apply (freed_vcs _ _ _ _ _ _ _ _ d v T Hd); lia|].
    rewrite <- (ti_got _ _ _ _ _ _ _ _ T d Hd), on_vc_app, app_length. lia.
Qed.
Lemma tick_step : forall es o s ts zs xs ys hb k, TI es o s ts zs xs ys hb -> in_turn w (es ++ [VTick k]) -> tdecent w ok es o (VTick k) ->
  exists s' z xs' ys', term_step w rf (VTick k) s = Some (s', []) /\ TI (es ++ [VTick k]) o s' (ts ++ [tick_of w rf k s]) (zs ++ [z]) xs' ys' hb.
Proof.
  intros es o s ts zs xs ys hb k T Al D. pose proof (tick_decent _ _ _ _ _ _ _ _ _ T D) as Nd.
  destruct (net_step_ok P w ok W SP _ _ _ _ _ _ (ti_ni _ _ _ _ _ _ _ _ T) Nd) as [net [z [xs' [ys' [E [N' _]]]]]].
  eexists (mkT net (tm_buf s) (fun _ => None) (fun _ => None)), z, xs', ys'. split; [cbn [term_step]; rewrite E; reflexivity|].
  assert (Ei : forall m, inj_turns m (es ++ [VTick k]) = inj_turns m es ++ [false]) by (intros m; rewrite inj_app; reflexivity).
  assert (Er : forall m, read_turns m (es ++ [VTick k]) = read_turns m es ++ [false]) by (intros m; rewrite read_app; reflexivity).
  assert (Ef : forall m, freed m (es ++ [VTick k]) = freed m es) by (intros m; rewrite freed_app; cbn; apply app_nil_r).
  assert (Du : forall m, m < w_nodes w -> due m es s = []).
  { intros m Hm. unfold due. destruct (Al m Hm) as [A _]. rewrite Ei in A. destruct (inj_turns m es) as [|a l] eqn:El.
    - pose proof (ti_start _ _ _ _ _ _ _ _ T m (or_introl El)) as ->. pose proof (ti_run _ _ _ _ _ _ _ _ T) as X. cbn in X. injection X as X _. unfold reg. rewrite <- X. reflexivity.
    - rewrite (alternate_last (a :: l) false false A); [reflexivity|discriminate]. }
  assert (Un : forall m, m < w_nodes w -> unread m es s = []).
  { intros m Hm. unfold unread. destruct (Al m Hm) as [_ A]. rewrite Er in A. destruct (read_turns m es) as [|a l] eqn:El.
    - pose proof (ti_start _ _ _ _ _ _ _ _ T m (or_intror El)) as ->. pose proof (ti_run _ _ _ _ _ _ _ _ T) as X. cbn in X. injection X as X _. rewrite <- X. reflexivity.
    - rewrite (alternate_last (a :: l) false false A); [reflexivity|discriminate]. }
  assert (Zf : forall d, z_flit z d = ch_out (n_f net (Ej d))). { unfold net_step in E. destruct (map_opt _ _); [|discriminate]. injection E as <- <-. reflexivity. }
  assert (Zc : forall d, z_cred z d = ch_out (n_c net (Inj d))). { unfold net_step in E. destruct (map_opt _ _); [|discriminate]. injection E as <- <-. reflexivity. }
  pose proof T as [Q1 Q2 Q3 Q4 Q5 Q6 Q7 Q8 Q9 Q10 Q11]. constructor; cbn [tm_net tm_buf tm_inj tm_ej]; auto.
  - apply (net_run_snoc _ _ _ _ _ _ _ _ _ Q1 E).
  - apply (ndecent_from_snoc _ _ _ _ _ _ _ _ _ _ Q2 Q1 Nd).
  - intros m [H|H]; [rewrite Ei in H; destruct (inj_turns m es)|rewrite Er in H; destruct (read_turns m es)]; discriminate.
  - intros m. rewrite injected_snoc, (Q5 m). cbn [tick_of t_inj opt]. rewrite app_nil_r. reflexivity.
  - intros m v Hm. rewrite returned_snoc, count_occ_app, Zc. unfold due, reg. cbn [tm_net]. rewrite Ei, last_snoc. pose proof (Q9 m v Hm) as X. rewrite (Du m Hm) in X. cbn [count_occ] in X. lia.
  - intros m Hm. rewrite ejected_snoc, Zf. unfold unread. cbn [tm_net]. rewrite Er, last_snoc. pose proof (Q10 m Hm) as X. rewrite (Un m Hm), app_nil_r in X. rewrite X. reflexivity.
  - intros m v. rewrite Ef, credited_snoc, count_occ_app. unfold kept. cbn [tm_ej tick_of t_cred]. specialize (Q11 m v). unfold kept in Q11. destruct (m <? w_nodes w); [|cbn; lia]. destruct (tm_ej s m) as [u|]; cbn [option_map opt concat count_occ app]; [|lia]. destruct (Nat.eq_dec u v); cbn; lia.
Qed.

Lemma term_step_ok : forall es o s ts zs xs ys hb e, TI es o s ts zs xs ys hb -> in_turn w (es ++ [e]) -> tdecent w ok es o e ->
  exists s' o' ts' zs' xs' ys' hb', term_step w rf e s = Some (s', o') /\ TI (es ++ [e]) (o ++ o') s' ts' zs' xs' ys' hb'.
Proof.
  intros es o s ts zs xs ys hb e T Al D. destruct e as [n now f|n|n v|k].
  - destruct (inj_step _ _ _ _ _ _ _ _ _ _ _ T Al D) as [s' [o' [hb' [E T']]]]. exists s', o', ts, zs, xs, ys, hb'. auto.
  - destruct (read_step _ _ _ _ _ _ _ _ _ T Al D) as [o' [E [T' _]]]. exists s, o', ts, zs, xs, ys, hb. auto.
  - destruct (free_step _ _ _ _ _ _ _ _ _ _ T D) as [s' [E T']]. exists s', [], ts, zs, xs, ys, hb. rewrite app_nil_r. auto.
  - destruct (tick_step _ _ _ _ _ _ _ _ _ T Al D) as [s' [z [xs' [ys' [E T']]]]]. exists s', [], (ts ++ [tick_of w rf k s]), (zs ++ [z]), xs', ys', hb. rewrite app_nil_r. auto.
Qed.
Lemma term_run_ok : forall es h o s ts zs xs ys hb, TI h o s ts zs xs ys hb -> in_turn w (h ++ es) -> tdecent_from w rf ok h o es s ->
  exists s' o' ts' zs' xs' ys' hb', term_run w rf es s = Some (s', o') /\ TI (h ++ es) (o ++ o') s' ts' zs' xs' ys' hb'.
Proof.
  intros es. induction es as [|e es IH]; intros h o s ts zs xs ys hb T Al D; cbn [term_run tdecent_from] in *.
  - exists s, [], ts, zs, xs, ys, hb. rewrite !app_nil_r. auto.
  - destruct D as [D1 D2]. replace (h ++ e :: es) with ((h ++ [e]) ++ es) in * by (rewrite <- app_assoc; reflexivity).
    destruct (term_step_ok _ _ _ _ _ _ _ _ _ T (in_turn_pre _ _ _ Al) D1) as [s1 [o1 [ts1 [zs1 [xs1 [ys1 [hb1 [E1 T1]]]]]]]]. rewrite E1.
    destruct (IH _ _ _ _ _ _ _ _ T1 Al (D2 _ _ E1)) as [s2 [o2 [ts2 [zs2 [xs2 [ys2 [hb2 [E2 T2]]]]]]]]. rewrite E2. exists s2, (o1 ++ o2), ts2, zs2, xs2, ys2, hb2. split; auto. rewrite app_assoc. exact T2.
Qed.
End Term.
