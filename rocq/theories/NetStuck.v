(** A network in which nothing moves is empty. *)
From Coq Require Import ZArith Arith Bool List Lia Permutation.
From Verif Require Import Fupd ArbiterModel AllocModel AllocSpec BufferModel BufferSpec BufferProofs RouteModel ChannelModel IqRouterModel IqRouterSpec IqRouterProofs IqRouterInv IqRouterRun Prop_IqRouter IqPotential NetModel NetSpec NetProgressSpec IqProgress NetProofs NetSum NetPotential.
Import ListNotations.
Open Scope nat_scope.

Lemma own_some : forall b P z, own_buffers b P z -> some_policy b P.
Proof.
  intros b P z [bs [vbs [H1 [H2 [E _]]]]]. apply po_private with (buf_size := bs) (vc_buf_size := vbs); auto.
Qed.
Lemma own_pos : forall b P z, own_buffers b P z -> (0 < z)%Z.
Proof.
  intros b P z [bs [vbs [H1 [H2 [E ->]]]]]. unfold new_private in E. destruct (0 <? (if bs <=? 0 then vbs else bs / Z.of_nat (bc_vcs b)))%Z eqn:Z1; [|discriminate]. apply Z.ltb_lt in Z1.
  destruct (Z.leb_spec bs 0), (Z.ltb_spec bs 0); auto; lia.
Qed.
Lemma own_room : forall b P z, own_buffers b P z -> forall t b0 v p, (b_vocc b0 v < z)%Z -> po_full P t b0 v p = Some false.
Proof.
  intros b P z [bs [vbs [H1 [H2 [E ->]]]]] t b0 v p H0. unfold new_private in E. destruct (0 <? (if bs <=? 0 then vbs else bs / Z.of_nat (bc_vcs b)))%Z eqn:Z1; [|discriminate]. injection E as _ <-.
  cbn [private_policy po_full]. f_equal. apply Z.leb_gt. destruct (Z.leb_spec bs 0), (Z.ltb_spec bs 0); auto; lia.
Qed.
Lemma no_stir : forall A (c : chan A), stirs A c = false -> ch_out c = None /\ pend c = [].
Proof. intros A [i q o] H. unfold stirs in H. cbn in H. destruct i, q, o; try discriminate. split; reflexivity. Qed.
Lemma count_on_vc : forall v l, length (on_vc v l) = count_occ Nat.eq_dec (map f_vc l) v.
Proof. intros v l. induction l as [|f l IH]; [reflexivity|]. cbn [on_vc filter map count_occ]. destruct (Nat.eqb_spec (f_vc f) v) as [Ev|Ev]; destruct (Nat.eq_dec (f_vc f) v); try contradiction; cbn [length]; unfold on_vc in IH; lia. Qed.

Lemma two_in : forall A B (R : A -> B -> Prop) l m, Forall2 R l m -> forall b, In b m -> exists a, In a l /\ R a b.
Proof. intros A B R l m F. induction F as [|a b l m Hab F IH]; intros x Hx; [destruct Hx|]. destruct Hx as [<-|Hx]; [exists a; split; auto; left; auto|]. destruct (IH x Hx) as [a' [X Y]]. exists a'. split; auto. right. auto. Qed.

Section Net.
Variables (P : bpolicy) (w : netcfg) (ok : cid -> flit -> Prop) (dist : cid -> nat -> nat) (z : Z).
Hypothesis W : wired w.
Hypothesis HB : own_buffers (w_b w) P z.
Hypothesis HD : descends w ok dist.
Hypothesis HO : forall r, r < w_n w -> c_obuf (w_cfg w r) <> 0%Z.
Let SP := own_some _ _ _ HB.
Let ZP := own_pos _ _ _ HB.

Variables (ts : list tick) (zs : list nout) (s : net P) (xs : nat -> list rin) (ys : nat -> list rout) (t : tick).
Hypothesis N : NI P w ok ts zs s xs ys.
Hypothesis D : ndecent w ok ts zs t.
Hypothesis Gi : giving w t.
Hypothesis Le : forall t, In t ts -> leads w ok t /\ set_out w t.
Hypothesis SF : forall c, used w c -> stirs _ (n_f s c) = false.
Hypothesis SC : forall c, used w c -> stirs _ (n_c s c) = false.
Hypothesis SR : forall r, r < w_n w -> r_xb (rt s r) = [] /\ r_proc (rt s r) = [] /\ r_rq (rt s r) = [].

Lemma rest_of : forall r, r < w_n w -> exists I Rm g, policy_ok (c_b (w_cfg w r)) P I /\ room_ok (c_b (w_cfg w r)) P I Rm /\ Rest (w_cfg w r) P I (xs r) (rt s r) g /\ link (w_cfg w r) (xs r) (ys r) g.
Proof.
  intros r Hr. destruct (some_policy_ok _ _ (policy_of P w W SP r Hr)) as [I [R0 [HP [HR _]]]]. destruct (ni_run _ _ _ _ _ _ _ _ N r Hr) as [Dr Er].
  destruct (run_all (w_cfg w r) P I HP R0 HR (xs r) Dr) as [s1 [ys1 [g [E1 [R Lk]]]]]. rewrite Er in E1. injection E1 as <- <-. exists I, R0, g. auto.
Qed.
Definition bufof (r i v : nat) : list flit := v_buf (r_vc (rt s r) i v).
Definition vocc (r o v : nat) : Z := b_vocc (bs_b (r_next (rt s r) o)) v.
Lemma rx_entered : forall r i, r < w_n w -> i < c_in (w_cfg w r) -> rx (xs r) i = entered w ts ys (w_in w r i).
Proof.
  intros r i Hr Hi. assert (Ek : w_snk w (w_in w r i) = Some (r, i)) by (apply (wi_in w W); auto). rewrite <- (cr_flit _ _ _ _ _ _ (ni_car _ _ _ _ _ _ _ _ N) _ _ _ Ek).
  destruct (no_stir _ _ (SF _ (used_in w W r i Hr Hi))) as [-> ->]. cbn. rewrite app_nil_r. reflexivity.
Qed.
(** What a router thinks of the buffers behind an output is right. *)
Lemma vocc_down : forall r o v, r < w_n w -> o < c_outs (w_cfg w r) -> v < bc_vcs (w_b w) ->
  vocc r o v = match w_snk w (w_out w r o) with Some (r', i') => Z.of_nat (length (bufof r' i' v)) | None => match w_out w r o with Ej d => Z.of_nat (hoard ts zs d v) | _ => 0%Z end end.
Proof.
  intros r o v Hr Ho Hv. pose proof (ni_car _ _ _ _ _ _ _ _ N) as C. destruct (rest_of r Hr) as [I [Rm [g [HP [HR [R L]]]]]]. pose proof (rt_inv _ _ _ _ _ _ R) as H.
  assert (Es : w_src w (w_out w r o) = Some (r, o)) by (apply (wi_out w W); auto).
  assert (Vc : v < bc_vcs (c_b (w_cfg w r))) by (rewrite (proj1 (wi_b w W r Hr)); auto).
  destruct (SR r Hr) as [X1 [X2 _]].
  assert (A1 : vocc r o v = (sent v (g_h g o) - BufferSpec.credited v (g_h g o))%Z) by (apply (so_occ _ _ _ _ _ (iv_next _ _ _ _ _ _ _ _ _ _ H o Ho) v Vc)).
  pose proof (io_sent _ _ _ _ _ _ _ _ (iv_out _ _ _ _ _ _ _ _ _ _ H) o v Ho) as A2. rewrite (io_out _ _ _ _ _ _ _ _ (iv_out _ _ _ _ _ _ _ _ _ _ H) o Ho), (rt_out _ _ _ _ _ _ R o Ho), X1 in A2. cbn [sel flat_map app] in A2. rewrite app_nil_r in A2.
  pose proof (ic_sum _ _ _ _ _ (iv_cr _ _ _ _ _ _ _ _ _ _ H) o v Ho) as A3. rewrite X2 in A3. cbn [held] in A3.
  rewrite (ln_tx _ _ _ _ L o Ho) in A2. rewrite (ln_cr _ _ _ _ L o Ho) in A3.
  pose proof (cr_cred _ _ _ _ _ _ C _ _ _ Es) as A4. destruct (no_stir _ _ (SC _ (used_out w W r o Hr Ho))) as [Y1 Y2]. rewrite Y1, Y2 in A4. cbn [opt app concat] in A4. rewrite app_nil_r in A4. rewrite A4 in A3.
  assert (A5 : tx (ys r) o = entered w ts ys (w_out w r o)) by (unfold entered; rewrite Es; reflexivity). rewrite A5 in A2.
  destruct (w_snk w (w_out w r o)) as [[r' i']|] eqn:Ek.
  - apply (wi_in w W) in Ek as Ek'. destruct Ek' as [Hr' [Hi' Ew]]. destruct (rest_of r' Hr') as [I' [Rm' [g' [_ [_ [R' L']]]]]]. pose proof (rt_inv _ _ _ _ _ _ R') as H'.
    assert (Vc' : v < c_vcs (w_cfg w r')) by (rewrite (vcs_of w W r' Hr'); auto).
    unfold gave in A3. rewrite Ek in A3. pose proof (proj2 (proj2 (iv_ct _ _ _ _ _ _ _ _ _ _ H' i' Hi')) v Vc') as B1. rewrite (rt_cb _ _ _ _ _ _ R' i' Hi'), (rt_oc _ _ _ _ _ _ R' i') in B1. cbn [concat app] in B1. rewrite app_nil_r, (ln_ct _ _ _ _ L' i' Hi') in B1.
    rewrite <- Ew, <- (rx_entered r' i' Hr' Hi') in A2. rewrite <- (ln_rx _ _ _ _ L' i' v Hi' Vc'), (vk_rx _ _ _ _ _ _ _ (iv_vc _ _ _ _ _ _ _ _ _ _ H' i' v Hi' Vc')), app_length, map_length in A2. unfold bufof. lia.
  - destruct (w_out w r o) as [n|d|k] eqn:Eo.
    + rewrite (proj1 (wi_inj w W n)) in Es. discriminate.
    + assert (Hd : d < w_nodes w) by (apply (proj2 (wi_ej w W d)); congruence). unfold gave in A3. rewrite Ek in A3. pose proof (proj2 (ni_cre _ _ _ _ _ _ _ _ N d) v) as A6.
      pose proof (cr_eject _ _ _ _ _ _ C d r o Es) as B1. destruct (no_stir _ _ (SF (Ej d) Hd)) as [_ Y3]. rewrite Y3, app_nil_r in B1. rewrite <- B1 in A2. unfold hoard. lia.
    + exfalso. assert (Hk : k < w_chans w) by (apply (proj2 (wi_ch w W k)); congruence). apply (proj1 (wi_ch w W k)) in Hk. congruence.
Qed.
(** Nothing arrives. *)
Lemma calm : forall r, r < w_n w -> arrivals (w_cfg w r) (net_rin w t s r) = [] /\ credits_in (w_cfg w r) (net_rin w t s r) = [].
Proof.
  intros r Hr. split.
  - unfold arrivals. rewrite (flat_ext _ _ _ (fun _ => [])); [apply flat_nil|]. intros i Hi. apply in_seq in Hi. cbn [net_rin i_flit]. rewrite (proj1 (no_stir _ _ (SF _ (used_in w W r i Hr ltac:(lia))))). reflexivity.
  - unfold credits_in. rewrite (flat_ext _ _ _ (fun _ => [])); [apply flat_nil|]. intros o Hi. apply in_seq in Hi. cbn [net_rin i_cred]. rewrite (proj1 (no_stir _ _ (SC _ (used_out w W r o Hr ltac:(lia))))). reflexivity.
Qed.
Definition granting (r : nat) : Prop := r < w_n w /\ grants (w_cfg w r) (net_rin w t s r) (rt s r).
Lemma grants_if : forall r, r < w_n w -> r_act (rt s r) = true ->
  (forall va rr sa, let s2 := set_proc [] (set_act true (set_proc [] (rt s r))) in va_evaluate (w_cfg w r) (net_rin w t s r) s2 = Some va -> sa_evaluate (w_cfg w r) (net_rin w t s r) s2 = Some (rr, sa) -> (0 < given va + given sa)%Z) -> granting r.
Proof.
  intros r Hr A H. split; auto. destruct (calm r Hr) as [C1 C2]. destruct (SR r Hr) as [_ [X2 _]]. unfold grants, roused. rewrite C1, C2, X2, A. cbn [filled orb app]. split; [reflexivity|].
  intros s1 s2 va rr sa E1 E2 E3 E4. cbn [fold_opt] in E1. injection E1 as <-. cbn [set_act set_proc r_proc proc_credits] in E2. injection E2 as <-. eapply H; eauto.
Qed.
Lemma inv_same : forall r I g, r < w_n w -> Inv (w_cfg w r) P I (xs r) [] [] [] [] (rt s r) g -> Inv (w_cfg w r) P I (xs r) [] [] [] [] (set_proc [] (set_act true (set_proc [] (rt s r)))) g.
Proof. intros r I g Hr [K1 K2 K3 K4 K5 K6 K7 K8]. destruct (SR r Hr) as [_ [X2 _]]. rewrite X2 in K6. constructor; rs; auto. Qed.
Lemma live_sa : forall r i v o u, r < w_n w -> i < c_in (w_cfg w r) -> v < bc_vcs (w_b w) -> v_state (r_vc (rt s r) i v) = Active -> v_out (r_vc (rt s r) i v) = Some (o, u) -> bufof r i v <> [] -> (vocc r o u < z)%Z -> granting r.
Proof.
  intros r i v o u Hr Hi Hv St Eo Nb V0. destruct (rest_of r Hr) as [I [Rm [g [HP [HR [R L]]]]]]. pose proof (rt_inv _ _ _ _ _ _ R) as H. assert (Hv' : v < c_vcs (w_cfg w r)) by (rewrite (vcs_of w W r Hr); auto).
  apply grants_if; auto.
  - destruct (r_act (rt s r)) eqn:A; auto. destruct (rt_act _ _ _ _ _ _ R A) as [_ [_ [_ [Q _]]]]. destruct (iv_q _ _ _ _ _ _ _ _ _ _ H) as [_ [_ [_ B]]]. rewrite Q in B. exfalso. apply (proj2 (B i v)). split; auto. split; auto. split; auto.
  - intros va rr sa s2 E1 E2. pose proof (given_nonneg _ _ va). enough (0 < given sa)%Z by lia.
    eapply (sa_live (w_cfg w r) P I HP (xs r) [] [] [] s2 g (net_rin w t s r) i v o u); eauto.
    + apply inv_same; auto.
    + intros l Hl. apply (nd_sa _ _ _ _ _ D r l Hr Hl).
    + apply (Gi r Hr).
    + apply (own_room _ _ _ HB). exact V0.
    + exact (rt_out _ _ _ _ _ _ R).
Qed.
Lemma live_va : forall r i v o u, r < w_n w -> i < c_in (w_cfg w r) -> v < bc_vcs (w_b w) -> v_state (r_vc (rt s r) i v) = VAlloc -> In (o, u) (channels_of (v_route (r_vc (rt s r) i v))) -> available_for (bs_b (r_next (rt s r) o)) u = true -> granting r.
Proof.
  intros r i v o u Hr Hi Hv St Eo Av. destruct (rest_of r Hr) as [I [Rm [g [HP [HR [R L]]]]]]. pose proof (rt_inv _ _ _ _ _ _ R) as H. assert (Hv' : v < c_vcs (w_cfg w r)) by (rewrite (vcs_of w W r Hr); auto).
  apply grants_if; auto.
  - destruct (r_act (rt s r)) eqn:A; auto. destruct (rt_act _ _ _ _ _ _ R A) as [_ [_ [Q _]]]. destruct (iv_q _ _ _ _ _ _ _ _ _ _ H) as [_ [[_ B] _]]. rewrite Q in B. exfalso. apply (proj2 (B i v)). split; auto.
  - intros va rr sa s2 E1 E2. pose proof (given_nonneg _ _ sa). enough (0 < given va)%Z by lia.
    eapply (va_live (w_cfg w r) P I (xs r) [] [] [] s2 g (net_rin w t s r) i v o u); eauto.
    + apply inv_same; auto.
    + intros l Hl. apply (nd_va _ _ _ _ _ D r l Hr Hl).
    + apply (Gi r Hr).
Qed.
(** The ranks of a channel and the one that its packet got. *)
Lemma active_down : forall r i v o u, r < w_n w -> i < c_in (w_cfg w r) -> v < bc_vcs (w_b w) -> v_state (r_vc (rt s r) i v) = Active -> v_out (r_vc (rt s r) i v) = Some (o, u) ->
  o < c_outs (w_cfg w r) /\ u < bc_vcs (w_b w) /\ dist (w_out w r o) u < dist (w_in w r i) v.
Proof.
  intros r i v o u Hr Hi Hv St Eo. destruct (rest_of r Hr) as [I [Rm [g [HP [HR [R L]]]]]]. pose proof (rt_inv _ _ _ _ _ _ R) as H. assert (Hv' : v < c_vcs (w_cfg w r)) by (rewrite (vcs_of w W r Hr); auto).
  destruct (active_from _ _ _ _ _ _ _ _ _ _ _ _ _ _ H Hi Hv' St Eo) as [Ho1 [Hw1 [f [F1 [F2 [F3 F4]]]]]]. split; auto. split; [rewrite <- (vcs_of w W r Hr); auto|]. rewrite (ln_rx _ _ _ _ L i v Hi Hv') in F1.
  apply (chosen_down P w ok dist W HD ts zs s xs ys t r i v f o u N D Hr Hi); auto.
  - rewrite rx_snoc, on_vc_app. apply in_app_iff. auto.
  - unfold chosen in *. destruct (c_rdelay (w_cfg w r)); auto. destruct F4 as [x [X1 X2]]. exists x. split; auto. apply in_app_iff. auto.
Qed.
(** What a node sent and the network does not hold has been credited. *)
Lemma all_back : forall r i n v, r < w_n w -> i < c_in (w_cfg w r) -> v < bc_vcs (w_b w) -> w_in w r i = Inj n -> bufof r i v = [] -> count_occ Nat.eq_dec (returned zs n) v = length (on_vc v (injected ts n)).
Proof.
  intros r i n v Hr Hi Hv Ew Hb. pose proof (ni_car _ _ _ _ _ _ _ _ N) as C. assert (Ek : w_snk w (Inj n) = Some (r, i)) by (apply (wi_in w W); auto).
  assert (Hn : n < w_nodes w) by (apply (proj2 (wi_inj w W n)); congruence).
  pose proof (cr_return _ _ _ _ _ _ C n r i Ek) as A. destruct (no_stir _ _ (SC (Inj n) Hn)) as [_ Y]. rewrite Y in A. cbn [concat] in A. rewrite app_nil_r in A. unfold gave in A. rewrite Ek in A.
  destruct (rest_of r Hr) as [I' [Rm' [g' [_ [_ [R' L']]]]]]. pose proof (rt_inv _ _ _ _ _ _ R') as H'. assert (Vc' : v < c_vcs (w_cfg w r)) by (rewrite (vcs_of w W r Hr); auto).
  pose proof (proj2 (proj2 (iv_ct _ _ _ _ _ _ _ _ _ _ H' i Hi)) v Vc') as B1. rewrite (rt_cb _ _ _ _ _ _ R' i Hi), (rt_oc _ _ _ _ _ _ R' i) in B1. cbn [concat app] in B1. rewrite app_nil_r, (ln_ct _ _ _ _ L' i Hi) in B1.
  pose proof (rx_entered r i Hr Hi) as A2. rewrite Ew in A2. unfold entered in A2. rewrite (proj1 (wi_inj w W n)) in A2. rewrite <- A2, <- (ln_rx _ _ _ _ L' i v Hi Vc'), (vk_rx _ _ _ _ _ _ _ (iv_vc _ _ _ _ _ _ _ _ _ _ H' i v Hi Vc')).
  unfold bufof in Hb. rewrite Hb, app_nil_r, map_length. rewrite A. lia.
Qed.
(** Something moves, or a node has to do something first. *)
Definition free_to_go : Prop := (exists r, granting r) \/ clogged w z ts zs \/ starved w ts zs.
(** A packet of which a part is missing: the rest is further up. *)
Variable Dm : nat.
Hypothesis HDm : forall c v, used w c -> v < bc_vcs (w_b w) -> dist c v <= Dm.
Lemma part_missing : forall k r i v q, r < w_n w -> i < c_in (w_cfg w r) -> v < bc_vcs (w_b w) -> Dm - dist (w_in w r i) v < k -> bufof r i v = [] -> parse (on_vc v (rx (xs r) i)) = Some (Some q) -> free_to_go.
Proof.
  intros k. induction k as [|k IH]; intros r i v q Hr Hi Hv Hk Hb Hp; [lia|]. rewrite (rx_entered r i Hr Hi) in Hp. assert (Ek : w_snk w (w_in w r i) = Some (r, i)) by (apply (wi_in w W); auto).
  unfold entered in Hp. destruct (w_src w (w_in w r i)) as [[r0 o0]|] eqn:Es.
  - apply (wi_out w W) in Es as Es'. destruct Es' as [Hr0 [Ho0 Ew]]. destruct (rest_of r0 Hr0) as [I [Rm [g [HP [HR [R L]]]]]]. pose proof (rt_inv _ _ _ _ _ _ R) as H. assert (Hv' : v < c_vcs (w_cfg w r0)) by (rewrite (vcs_of w W r0 Hr0); auto).
    destruct (SR r0 Hr0) as [X1 _].
    pose proof (io_out _ _ _ _ _ _ _ _ (iv_out _ _ _ _ _ _ _ _ _ _ H) o0 Ho0) as A2. rewrite (rt_out _ _ _ _ _ _ R o0 Ho0), X1 in A2. cbn [sel flat_map app] in A2. rewrite app_nil_r, (ln_tx _ _ _ _ L o0 Ho0) in A2. rewrite <- A2, <- on_lab_fst in Hp.
    destruct (iv_own _ _ _ _ _ _ _ _ _ _ H) as [O1 [_ O3]]. destruct (O3 o0 v Ho0 Hv') as [[i1 [v1 Ow]]|[G _]]; [|apply gparse_fst in G; cbn [option_map] in G; congruence].
    pose proof Ow as [Hi1 [Hv1 [S1 V1]]]. assert (Hv1' : v1 < bc_vcs (w_b w)) by (rewrite <- (vcs_of w W r0 Hr0); auto). destruct (active_down r0 i1 v1 o0 v Hr0 Hi1 Hv1' S1 V1) as [_ [_ Dn]]. rewrite Ew in Dn.
    assert (V0 : (vocc r0 o0 v < z)%Z) by (rewrite (vocc_down r0 o0 v Hr0 Ho0 Hv), Ew, Ek, Hb; exact ZP).
    destruct (bufof r0 i1 v1) as [|f0 l0] eqn:Eb; [|left; exists r0; apply (live_sa r0 i1 v1 o0 v); auto; congruence].
    pose proof (iv_vc _ _ _ _ _ _ _ _ _ _ H i1 v1 Hi1 Hv1) as Kv. destruct (vk_st _ _ _ _ _ _ _ Kv) as [gs [G St]]. unfold stok in St. rewrite S1 in St. destruct St as [o' [u' [_ [_ [_ St]]]]]. unfold bufof in Eb. destruct gs as [[q1 ow]|]; [|destruct St as [f [r1 [Ef _]]]; congruence].
    apply gparse_fst in G. cbn [option_map fst] in G.
    assert (Er : on_vc v1 (rx (xs r0) i1) = map fst (g_gone g i1 v1)) by (rewrite <- (ln_rx _ _ _ _ L i1 v1 Hi1 Hv1), (vk_rx _ _ _ _ _ _ _ Kv), Eb, app_nil_r; reflexivity).
    apply (IH r0 i1 v1 q1); auto; [|rewrite Er; exact G]. pose proof (HDm (w_in w r0 i1) v1 (used_in w W r0 i1 Hr0 Hi1) Hv1'). lia.
  - destruct (w_in w r i) as [n|d|c] eqn:Ew.
    + assert (Hn : n < w_nodes w) by (apply (proj2 (wi_inj w W n)); congruence). right. right. exists n, v, q. split; auto. split; auto. split; auto. apply (all_back r i n v); auto.
    + discriminate.
    + discriminate.
Qed.
(** Heads have somewhere to go. *)
Lemma rx_tick : forall r x, In x (xs r) -> exists t0, In t0 ts /\ reads w r t0 x.
Proof. intros r x Hx. exact (two_in _ _ _ _ _ (proj2 (ni_t _ _ _ _ _ _ _ _ N) r) x Hx). Qed.
Lemma head_ok : forall r i f, r < w_n w -> i < c_in (w_cfg w r) -> In f (rx (xs r) i) -> f_head f = true -> ok (w_in w r i) f /\ (w_rd w = false -> lawful w ok r f (f_la f)).
Proof.
  intros r i f Hr Hi Hf Hd. assert (Ek : w_snk w (w_in w r i) = Some (r, i)) by (apply (wi_in w W); auto). rewrite (rx_entered r i Hr Hi) in Hf.
  destruct (ni_ok _ _ _ _ _ _ _ _ N (w_in w r i) f ltac:(right; congruence) Hf Hd) as [A B]. split; auto. intros Rd. exact (B Rd r i Ek).
Qed.
Lemma la_some : forall r i f, r < w_n w -> i < c_in (w_cfg w r) -> In f (rx (xs r) i) -> f_head f = true -> w_rd w = false -> f_la f <> [].
Proof.
  intros r i f Hr Hi Hf Hd Rd. pose proof Hf as Hf'. assert (Ek : w_snk w (w_in w r i) = Some (r, i)) by (apply (wi_in w W); auto). rewrite (rx_entered r i Hr Hi) in Hf. unfold entered in Hf. destruct (w_src w (w_in w r i)) as [[r0 o0]|] eqn:Es.
  - apply (wi_out w W) in Es as Es'. destruct Es' as [Hr0 [Ho0 Ew]]. destruct (fa_origin _ _ _ (facts_of P w ok W SP _ _ _ _ _ r0 N Hr0) o0 f Ho0 Hf) as [j [f0 [Hj [Hf0 [_ T]]]]].
    unfold trip_ok in T. destruct T as [T1 [T2 [T3 [T4 [T5 [T6 [T7 T8]]]]]]]. rewrite <- T3, Hd in T7, T8. rewrite (proj2 (wi_b w W r0 Hr0)), Rd in T7, T8. cbn [negb orb] in T8. specialize (T7 eq_refl).
    destruct T8 as [x [Hx El]]. destruct (rx_tick r0 x Hx) as [t0 [Ht Rx]]. rewrite (rd_la _ _ _ _ Rx), Ew, Ek in El. rewrite El.
    assert (Hd0 : f_head f0 = true) by congruence. destruct (head_ok r0 j f0 Hr0 Hj Hf0 Hd0) as [_ B]. destruct (B Rd) as [_ B2].
    apply (proj1 (Le t0 Ht) r i (on_channel (f_vc f) f0) Hr Hi); [exact Hd0|]. rewrite <- Ew. apply (B2 o0 (f_vc f)); auto. unfold same. auto.
  - destruct (w_in w r i) as [n|d|c] eqn:Ew; try contradiction. assert (Hn : n < w_nodes w) by (apply (proj2 (wi_inj w W n)); congruence). unfold injected in Hf. apply in_flat_map in Hf. destruct Hf as [t0 [Ht Hf]]. destruct (t_inj t0 n) as [f1|] eqn:E1; [|destruct Hf]. destruct Hf as [->|[]].
    apply (proj2 (Le t0 Ht) n f Hn E1 Hd Rd).
Qed.
Lemma route_some : forall r i v, r < w_n w -> i < c_in (w_cfg w r) -> v < bc_vcs (w_b w) -> v_state (r_vc (rt s r) i v) = VAlloc ->
  exists o u, In (o, u) (channels_of (v_route (r_vc (rt s r) i v))) /\ o < c_outs (w_cfg w r) /\ u < bc_vcs (w_b w) /\ dist (w_out w r o) u < dist (w_in w r i) v.
Proof.
  intros r i v Hr Hi Hv St. destruct (rest_of r Hr) as [I [Rm [g [HP [HR [R L]]]]]]. pose proof (rt_inv _ _ _ _ _ _ R) as H. assert (Hv' : v < c_vcs (w_cfg w r)) by (rewrite (vcs_of w W r Hr); auto).
  destruct (valloc_from _ _ _ _ _ _ _ _ _ _ _ _ H Hi Hv' St) as [f [F1 [F2 [F3 [F4 F5]]]]]. rewrite (ln_rx _ _ _ _ L i v Hi Hv') in F1.
  assert (F1' : In f (rx (xs r) i)) by (unfold on_vc in F1; apply filter_In in F1; tauto).
  assert (Ne : v_route (r_vc (rt s r) i v) <> []).
  { pose proof F5 as F5'. unfold offered in F5'. rewrite (proj2 (wi_b w W r Hr)) in F5'. destruct (w_rd w) eqn:Rd.
    - destruct F5' as [x [Hx ->]]. destruct (rx_tick r x Hx) as [t0 [Ht Rx]]. rewrite (rd_rf _ _ _ _ Rx). apply (proj1 (Le t0 Ht) r i f Hr Hi F3). apply (head_ok r i f Hr Hi F1' F3).
    - rewrite F5'. apply (la_some r i f); auto. }
  destruct (v_route (r_vc (rt s r) i v)) as [|e es] eqn:Er; [congruence|]. destruct F4 as [G1 _]. inversion G1 as [|? ? G2 _]; subst.
  exists (Z.to_nat (o_port e)), (Z.to_nat (o_lo e)).
  assert (Hin : In (Z.to_nat (o_port e), Z.to_nat (o_lo e)) (channels_of (e :: es))) by (unfold channels_of; cbn [flat_map]; apply in_app_iff; left; unfold elem_pairs; apply in_map_iff; exists (Z.to_nat (o_lo e)); split; auto; apply in_seq; lia).
  assert (Ho : Z.to_nat (o_port e) < c_outs (w_cfg w r)) by lia. assert (Hu : Z.to_nat (o_lo e) < bc_vcs (w_b w)) by (rewrite <- (vcs_of w W r Hr); lia).
  split; auto. split; auto. split; auto.
  apply (chosen_down P w ok dist W HD ts zs s xs ys t r i (f_vc f) f (Z.to_nat (o_port e)) (Z.to_nat (o_lo e)) N D Hr Hi); auto.
  - rewrite rx_snoc, on_vc_app. apply in_app_iff. auto.
  - eapply offered_chosen; eauto. unfold offered in *. destruct (c_rdelay (w_cfg w r)); auto. destruct F5 as [x [X1 X2]]. exists x. split; auto. apply in_app_iff. auto.
Qed.
(** A flit in a buffer: something moves. *)
Lemma buffer_moves : forall k r i v, r < w_n w -> i < c_in (w_cfg w r) -> v < bc_vcs (w_b w) -> dist (w_in w r i) v < k -> bufof r i v <> [] -> free_to_go.
Proof.
  intros k. induction k as [|k IH]; intros r i v Hr Hi Hv Hk Nb; [lia|]. destruct (rest_of r Hr) as [I [Rm [g [HP [HR [R L]]]]]]. pose proof (rt_inv _ _ _ _ _ _ R) as H. assert (Hv' : v < c_vcs (w_cfg w r)) by (rewrite (vcs_of w W r Hr); auto).
  assert (Down : forall o u, o < c_outs (w_cfg w r) -> u < bc_vcs (w_b w) -> dist (w_out w r o) u < dist (w_in w r i) v -> (z <= vocc r o u)%Z -> free_to_go).
  { intros o u Ho Hu Hd V. rewrite (vocc_down r o u Hr Ho Hu) in V. destruct (w_snk w (w_out w r o)) as [[r' i']|] eqn:Ek.
    - apply (wi_in w W) in Ek. destruct Ek as [Hr' [Hi' Ew]]. apply (IH r' i' u); auto; [rewrite Ew; lia|]. intros X. rewrite X in V. cbn in V. lia.
    - destruct (w_out w r o) as [n|d|c] eqn:Eo; try lia. right. left. exists d, u. split; [|auto]. apply (proj2 (wi_ej w W d)). rewrite (proj2 (wi_out w W _ r o) (conj Hr (conj Ho Eo))). discriminate. }
  pose proof (iv_vc _ _ _ _ _ _ _ _ _ _ H i v Hi Hv') as Kv. destruct (vk_st _ _ _ _ _ _ _ Kv) as [gs [G St]]. unfold stok in St. destruct (v_state (r_vc (rt s r) i v)) eqn:Sv.
  - exfalso. apply Nb. apply (proj1 St).
  - exfalso. destruct (SR r Hr) as [_ [_ X]]. destruct (iv_q _ _ _ _ _ _ _ _ _ _ H) as [[_ B] _]. rewrite X in B. apply (proj2 (B i v)). split; auto.
  - destruct (route_some r i v Hr Hi Hv Sv) as [o [u [Hin [Ho [Hu Hd]]]]]. destruct (available_for (bs_b (r_next (rt s r) o)) u) eqn:Av; [left; exists r; apply (live_va r i v o u); auto|].
    destruct (Z.le_gt_cases z (vocc r o u)) as [V|V]; [apply (Down o u); auto|].
    unfold available_for in Av. apply Z.ltb_ge in Av. assert (Hu' : u < bc_vcs (c_b (w_cfg w r))) by (rewrite (proj1 (wi_b w W r Hr)); auto).
    pose proof (iv_next _ _ _ _ _ _ _ _ _ _ H o Ho) as Sk. destruct (iv_own _ _ _ _ _ _ _ _ _ _ H) as [O1 [_ O3]].
    destruct (b_tail (bs_b (r_next (rt s r) o)) u) eqn:Bt.
    + (* the last packet has left, but not all its credits came back *)
      destruct (bc_wait (c_b (w_cfg w r))) eqn:Wt; [|pose proof (bo_nowait _ _ (so_base _ _ _ _ _ Sk) Wt u Hu' Av); congruence].
      pose proof (proj2 (bo_wait _ _ (so_base _ _ _ _ _ Sk) Wt u Hu') Av Bt) as Vp. fold (vocc r o u) in Vp. pose proof (vocc_down r o u Hr Ho Hu) as Vd.
      destruct (w_snk w (w_out w r o)) as [[r' i']|] eqn:Ek.
      * apply (wi_in w W) in Ek. destruct Ek as [Hr' [Hi' Ew]]. apply (IH r' i' u); auto; [rewrite Ew; lia|]. intros X. rewrite X in Vd. cbn in Vd. lia.
      * destruct (w_out w r o) as [n|d|c] eqn:Eo; try lia. assert (Es : w_src w (Ej d) = Some (r, o)) by (apply (wi_out w W); auto). assert (Hdn : d < w_nodes w) by (apply (proj2 (wi_ej w W d)); congruence).
        right. left. exists d, u. split; auto. split; auto. right. split; [rewrite <- (proj1 (wi_b w W r Hr)); exact Wt|]. split; [lia|].
        assert (Bz : busy u (g_h g o) = false) by (destruct (busy u (g_h g o)) eqn:B0; auto; apply (so_busy _ _ _ _ _ Sk u Hu') in B0; destruct B0; congruence).
        destruct (O3 o u Ho ltac:(rewrite (vcs_of w W r Hr); auto)) as [[i1 [v1 Ow]]|[G1 _]]; [exfalso; destruct (O1 i1 v1 o u Ow) as [OO _]; congruence|].
        apply gparse_fst in G1. cbn [option_map] in G1. rewrite on_lab_fst in G1.
        pose proof (io_out _ _ _ _ _ _ _ _ (iv_out _ _ _ _ _ _ _ _ _ _ H) o Ho) as A2. rewrite (rt_out _ _ _ _ _ _ R o Ho), (proj1 (SR r Hr)) in A2. cbn [sel flat_map app] in A2. rewrite app_nil_r, (ln_tx _ _ _ _ L o Ho) in A2. rewrite A2 in G1.
        pose proof (cr_eject _ _ _ _ _ _ (ni_car _ _ _ _ _ _ _ _ N) d r o Es) as B1. destruct (no_stir _ _ (SF (Ej d) Hdn)) as [_ Y3]. rewrite Y3, app_nil_r in B1. unfold entered in B1. rewrite Es in B1. rewrite B1. exact G1.
    + assert (Bz : busy u (g_h g o) = true) by (apply (so_busy _ _ _ _ _ Sk u Hu'); split; auto).
      destruct (O3 o u Ho ltac:(rewrite (vcs_of w W r Hr); auto)) as [[i1 [v1 Ow]]|[_ G1]]; [|congruence].
      pose proof Ow as [Hi1 [Hv1 [S1 V1]]]. assert (Hv1' : v1 < bc_vcs (w_b w)) by (rewrite <- (vcs_of w W r Hr); auto).
      destruct (bufof r i1 v1) as [|f0 l0] eqn:Eb; [|left; exists r; apply (live_sa r i1 v1 o u); auto; congruence].
      pose proof (iv_vc _ _ _ _ _ _ _ _ _ _ H i1 v1 Hi1 Hv1) as Kv1. destruct (vk_st _ _ _ _ _ _ _ Kv1) as [gs1 [G1 St1]]. unfold stok in St1. rewrite S1 in St1. destruct St1 as [o' [u' [_ [_ [_ St1]]]]]. pose proof Eb as Eb'. unfold bufof in Eb'. destruct gs1 as [[q1 ow]|]; [|destruct St1 as [f [r1 [Ef _]]]; congruence].
      apply gparse_fst in G1. cbn [option_map fst] in G1.
      assert (Er : on_vc v1 (rx (xs r) i1) = map fst (g_gone g i1 v1)) by (rewrite <- (ln_rx _ _ _ _ L i1 v1 Hi1 Hv1), (vk_rx _ _ _ _ _ _ _ Kv1), Eb', app_nil_r; reflexivity).
      apply (part_missing (S Dm) r i1 v1 q1); auto; [lia|rewrite Er; exact G1].
  - destruct St as [o [u [Eo _]]]. destruct (active_down r i v o u Hr Hi Hv Sv Eo) as [Ho [Hu Hd]]. destruct (Z.le_gt_cases z (vocc r o u)) as [V|V]; [apply (Down o u); auto|left; exists r; apply (live_sa r i v o u); auto].
Qed.
Lemma stuck_empty : inside w s <> [] -> free_to_go.
Proof.
  intros Hi. assert (E : forall c, used w c -> opt (ch_out (n_f s c)) ++ pend (n_f s c) = []) by (intros c Hc; destruct (no_stir _ _ (SF c Hc)) as [-> ->]; reflexivity).
  assert (Q : flat_map (fun r => stock (w_cfg w r) (rt s r)) (seq 0 (w_n w)) <> []).
  { intros X. apply Hi. unfold inside. rewrite X, app_nil_r. rewrite (flat_ext _ _ (fun n => opt (ch_out (n_f s (Inj n))) ++ pend (n_f s (Inj n))) (fun _ => [])) by (intros n Hn; apply in_seq in Hn; apply (E (Inj n)); cbn; lia).
    rewrite (flat_ext _ _ (fun c => opt (ch_out (n_f s (Ch c))) ++ pend (n_f s (Ch c))) (fun _ => [])) by (intros n Hn; apply in_seq in Hn; apply (E (Ch n)); cbn; lia).
    rewrite (flat_ext _ _ (fun d => pend (n_f s (Ej d))) (fun _ => [])) by (intros n Hn; apply in_seq in Hn; destruct (no_stir _ _ (SF (Ej n) ltac:(cbn; lia))) as [_ Y]; exact Y). rewrite !flat_nil. reflexivity. }
  destruct (flat_map (fun r => stock (w_cfg w r) (rt s r)) (seq 0 (w_n w))) as [|f l] eqn:Ef; [congruence|]. assert (Hin : In f (flat_map (fun r => stock (w_cfg w r) (rt s r)) (seq 0 (w_n w)))) by (rewrite Ef; left; auto).
  apply in_flat_map in Hin. destruct Hin as [r [Hr Hin]]. apply in_seq in Hr. assert (Hr' : r < w_n w) by lia. unfold stock in Hin. rewrite (proj1 (SR r Hr')) in Hin. apply in_app_iff in Hin. destruct Hin as [Hin|Hin].
  - apply in_flat_map in Hin. destruct Hin as [i [Hi' Hin]]. apply in_flat_map in Hin. destruct Hin as [v [Hv Hin]]. apply in_seq in Hi', Hv. apply (buffer_moves (S (dist (w_in w r i) v)) r i v); auto; try lia.
    + rewrite <- (vcs_of w W r Hr'). lia.
    + unfold bufof. intros X. rewrite X in Hin. destruct Hin.
  - exfalso. cbn [flat_map] in Hin. rewrite flat_nil in Hin. destruct Hin.
Qed.
End Net.
