(** The network with its terminals: the cycles the network goes through, what happens when nothing moves. *)
From Coq Require Import ZArith Arith Bool List Lia Permutation.
From Verif Require Import Fupd ArbiterModel AllocModel AllocSpec BufferModel BufferSpec BufferProofs RouteModel ChannelModel CreditModel IqRouterModel IqRouterSpec IqRouterProofs IqPotential NetModel NetSpec NetProgressSpec NetProofs NetSum NetPotential NetStuck NetProgress
  TermModel TermSpec TermProofs SysBridge.
Import ListNotations.
Open Scope nat_scope.

(** The freed slots of a node and the cycles. *)
Definition free_turns (n : nat) (es : list tev) : list bool := flat_map (fun e => match e with VFree m _ => if Nat.eqb m n then [true] else [] | VTick _ => [false] | _ => [] end) es.
Definition slow (es : list tev) : Prop := forall n l1 l2, free_turns n es <> l1 ++ true :: true :: l2.
Lemma free_app : forall n a b, free_turns n (a ++ b) = free_turns n a ++ free_turns n b. Proof. intros. apply flat_map_app. Qed.
Lemma slow_pre : forall a b, slow (a ++ b) -> slow a.
Proof. intros a b H n l1 l2 E. apply (H n l1 (l2 ++ free_turns n b)). rewrite free_app, E, <- app_assoc. reflexivity. Qed.
Lemma slow_last : forall es n v, slow (es ++ [VFree n v]) -> last (free_turns n es) false = false.
Proof.
  intros es n v H. destruct (free_turns n es) as [|a l] eqn:E using rev_ind; [reflexivity|]. clear IHl. rewrite last_last. destruct a; auto. exfalso. apply (H n l []). rewrite free_app, E. cbn. rewrite Nat.eqb_refl, <- app_assoc. reflexivity.
Qed.
Lemma lastt_app : forall a b o, lastt o (a ++ b) = lastt (lastt o a) b.
Proof. intros a. induction a as [|x a IH]; intros; [reflexivity|apply IH]. Qed.
Lemma tdecent_snoc : forall P w rf ok es h o (s : term P) s1 o1 e, tdecent_from w rf ok h o (es ++ [e]) s -> term_run w rf es s = Some (s1, o1) -> tdecent_from w rf ok h o es s /\ tdecent w ok (h ++ es) (o ++ o1) e.
Proof.
  intros P w rf ok es. induction es as [|a es IH]; intros h o s s1 o1 e D E; cbn [term_run app tdecent_from] in *.
  - injection E as <- <-. rewrite !app_nil_r. split; [exact Logic.I|apply D].
  - destruct D as [D1 D2]. destruct (term_step w rf a s) as [[s2 o2]|] eqn:E2; [|discriminate]. destruct (term_run w rf es s2) as [[s3 o3]|] eqn:E3; [|discriminate]. injection E as <- <-.
    destruct (IH _ _ _ _ _ _ (D2 _ _ eq_refl) E3) as [X Y]. rewrite <- !app_assoc in Y. split; [|exact Y]. split; auto. intros s' o' Q. injection Q as <- <-. exact X.
Qed.

Section Term.
Variables (P : bpolicy) (w : netcfg) (rf : nat -> nat -> flit -> list oelem) (ok : cid -> flit -> Prop) (I : bst -> po_st P -> Prop) (dist : cid -> nat -> nat) (slots : Z).
Hypothesis W : wired w.
Hypothesis HB : own_buffers (w_b w) P slots.
Hypothesis HP : policy_ok (w_b w) P I.
Hypothesis HS : self_steady P.
Hypothesis HC : forall b p, base_ok (w_b w) b -> I b p -> (b_occ b <= bc_size (w_b w))%Z.
Hypothesis RO : routes_ok w rf ok.
Hypothesis HD : descends w ok dist.
Hypothesis HO : forall r, r < w_n w -> c_obuf (w_cfg w r) <> 0%Z.
Hypothesis LE : forall t, t_rf t = rf -> leads w ok t.
Let SP := own_some _ _ _ HB.

(** ** The cycles *)
Fixpoint ticks (es : list tev) (s : term P) : list tick :=
  match es with
  | [] => []
  | e :: r => match e with VTick k => [tick_of w rf k s] | _ => [] end ++ match term_step w rf e s with Some (s', _) => ticks r s' | None => [] end
  end.
Definition tk (es : list tev) : list tick := ticks es (term0 P w).
Definition outs (es : list tev) : list nout := match net_run w (tk es) (net0 P w) with Some (_, zs) => zs | None => [] end.
Lemma ticks_snoc : forall es s s1 o1 e, term_run w rf es s = Some (s1, o1) -> ticks (es ++ [e]) s = ticks es s ++ match e with VTick k => [tick_of w rf k s1] | _ => [] end.
Proof.
  intros es. induction es as [|a es IH]; intros s s1 o1 e E; cbn [term_run app ticks] in *.
  - injection E as <- _. destruct (term_step w rf e s) as [[s' o']|]; apply app_nil_r.
  - destruct (term_step w rf a s) as [[s2 o2]|]; [|discriminate]. destruct (term_run w rf es s2) as [[s3 o3]|] eqn:E3; [|discriminate]. injection E as <- _. rewrite (IH _ _ _ _ E3), app_assoc. reflexivity.
Qed.

Record TX (es : list tev) (o : list tobs) (s : term P) (xs : nat -> list rin) (ys : nat -> list rout) (hb : nat -> list (Z * bev)) : Prop := {
  tx_run : term_run w rf es (term0 P w) = Some (s, o);
  tx_ti : TI P w ok I es o s (tk es) (outs es) xs ys hb;
  tx_reg : forall z0 z n, outs es = z0 ++ [z] -> concat (opt (z_cred z n)) = reg P s n;
  tx_la : forall n f, n < w_nodes w -> In f (took n o) -> f_head f = true -> w_rd w = false -> f_la f <> [];
  tx_out : forall u, In u (tk es) -> leads w ok u /\ set_out w u /\ honest w u;
  tx_free : forall n v, n < w_nodes w -> count_occ Nat.eq_dec (NetSpec.credited (tk es) n) v + kept P s n v = count_occ Nat.eq_dec (freed n es) v;
  tx_ej : forall n, tm_ej s n <> None -> last (free_turns n es) false = true }.

Lemma tx0 : TX [] [] (term0 P w) (fun _ => []) (fun _ => []) (fun _ => []).
Proof.
  constructor; cbn; auto; try contradiction; try congruence.
  - apply ti0; auto.
  - intros [|z0 l]; discriminate.
Qed.
Lemma outs_run : forall es net zs, net_run w (tk es) (net0 P w) = Some (net, zs) -> outs es = zs.
Proof. intros es net zs E. unfold outs. rewrite E. reflexivity. Qed.
Lemma tk_same : forall es o s xs ys hb e, TX es o s xs ys hb -> match e with VTick _ => False | _ => True end -> tk (es ++ [e]) = tk es /\ outs (es ++ [e]) = outs es.
Proof. intros es o s xs ys hb e T N. assert (E : tk (es ++ [e]) = tk es) by (unfold tk; rewrite (ticks_snoc _ _ _ _ _ (tx_run _ _ _ _ _ _ T)); destruct e; try contradiction; apply app_nil_r). split; auto. unfold outs. rewrite E. reflexivity. Qed.
Lemma inj_obs : forall n now f (t t' : term P) o', term_step w rf (VInj n now f) t = Some (t', o') ->
  (o' = [] \/ exists h h', f = Some h /\ o' = [Took n h'] /\ first_route w rf n h = Some h') /\ tm_net t' = tm_net t /\ tm_ej t' = tm_ej t.
Proof.
  intros n now f t t' o' H. cbn [term_step] in H. destruct (negb (n <? w_nodes w)); [discriminate|].
  assert (C : forall a b : term P, take_credit w n now a = Some b -> tm_net b = tm_net a /\ tm_ej b = tm_ej a).
  { intros a b0 E. unfold take_credit in E. destruct (ch_out _); [|injection E as <-; auto]. destruct (bs_credit _ _ _ _ _); [|discriminate]. injection E as <-. auto. }
  destruct f as [h|].
  - destruct (offer w rf n now h t) as [[t1 o1]|] eqn:E; [|discriminate]. destruct (take_credit w n now t1) eqn:Et; [|discriminate]. injection H as <- <-. destruct (C _ _ Et) as [-> ->]. unfold offer in E.
    destruct (po_full P now _ _ _) as [full|]; [|discriminate]. destruct (negb full && _); [|injection E as <- <-; auto]. destruct (first_route w rf n h) as [h'|] eqn:F; [|discriminate].
    destruct (if f_head h then _ else _) as [b1|]; [|discriminate]. destruct (bs_send _ _ _ _ _ _) as [b2|]; [|discriminate]. injection E as <- <-. split; auto. right. exists h, h'. auto.
  - destruct (take_credit w n now t) eqn:Et; [|discriminate]. injection H as <- <-. split; auto.
Qed.
Lemma tick_facts : forall es o s xs ys hb k, TX es o s xs ys hb -> set_out w (tick_of w rf k s) /\ honest w (tick_of w rf k s).
Proof.
  intros es o s xs ys hb k T. split.
  - intros n f Hn Hf Hh Rd. cbn [tick_of t_inj] in Hf. apply (tx_la _ _ _ _ _ _ T n f Hn); auto. rewrite (ti_took _ _ _ _ _ _ _ _ _ _ _ _ (tx_ti _ _ _ _ _ _ T) n), Hf. apply in_app_iff. right. left. auto.
  - intros d Hd. cbn [tick_of t_cred]. destruct (d <? w_nodes w); [|discriminate]. destruct (tm_ej s d); discriminate.
Qed.
Lemma TX_step : forall es o s xs ys hb e, TX es o s xs ys hb -> in_turn w (es ++ [e]) -> tdecent w ok es o e -> slow (es ++ [e]) ->
  exists s' o' xs' ys' hb', term_step w rf e s = Some (s', o') /\ TX (es ++ [e]) (o ++ o') s' xs' ys' hb' /\
    match e with
    | VTick k => tk (es ++ [e]) = tk es ++ [tick_of w rf k s] /\ exists z, outs (es ++ [e]) = outs es ++ [z] /\ net_step w (tick_of w rf k s) (tm_net s) = Some (tm_net s', z)
    | _ => tk (es ++ [e]) = tk es /\ outs (es ++ [e]) = outs es /\ tm_net s' = tm_net s
    end.
Proof.
  intros es o s xs ys hb e T Al D Sl. pose proof (tx_ti _ _ _ _ _ _ T) as Ti. pose proof (tx_run _ _ _ _ _ _ T) as Rn.
  assert (RR : forall s' o', term_step w rf e s = Some (s', o') -> term_run w rf (es ++ [e]) (term0 P w) = Some (s', o ++ o')) by (intros s' o' E; rewrite term_run_snoc, Rn, E; reflexivity).
  destruct T as [_ _ T3 T4 T5 T6 T7]. assert (TT : TX es o s xs ys hb) by (constructor; auto).
  destruct e as [n now f|n|n v|k].
  - destruct (tk_same es o s xs ys hb (VInj n now f) TT Logic.I) as [Ek Eo]. destruct (inj_step P w rf ok I W SP HP HS RO _ _ _ _ _ _ _ _ _ _ _ Ti Al D) as [s' [o' [hb' [E T']]]]. exists s', o', xs, ys, hb'. split; auto.
    destruct (inj_obs _ _ _ _ _ _ E) as [Ob [En Ej]]. rewrite Ek, Eo. split; auto. constructor; rewrite ?Ek, ?Eo; auto.
    + intros z0 z m Z. unfold reg. rewrite En. apply (T3 z0 z m Z).
    + intros m g Hm Hg Hh Rd. rewrite took_app in Hg. apply in_app_iff in Hg. destruct Hg as [Hg|Hg]; [apply (T4 m g); auto|]. destruct Ob as [->|[h [h' [Ef [-> Fr]]]]]; [destruct Hg|]. cbn [took flat_map] in Hg. rewrite app_nil_r in Hg.
      destruct (Nat.eqb_spec n m) as [<-|]; [|destruct Hg]. destruct Hg as [<-|[]]. unfold first_route in Fr. rewrite Rd in Fr. destruct (w_snk w (Inj n)) as [[r i]|] eqn:Es; [|discriminate]. injection Fr as <-. cbn [f_la f_head] in *.
      destruct D as [_ D]. destruct (D h Ef) as [_ [_ D3]]. specialize (D3 Hh). apply (wi_in w W) in Es as Es'. destruct Es' as [Hr [Hi Ei]]. set (tt0 := {| t_now := 0%Z; t_inj := fun _ => None; t_cred := fun _ => None; t_va := fun _ _ => no_match; t_sa := fun _ _ => no_match; t_rf := rf |}).
      apply (LE tt0 eq_refl r i h Hr Hi Hh). rewrite Ei. exact D3.
    + intros m v Hm. rewrite freed_app. cbn [freed flat_map]. rewrite app_nil_r. unfold kept. rewrite Ej. apply (T6 m v Hm).
    + intros m H. rewrite Ej in H. rewrite free_app. cbn [free_turns flat_map]. rewrite app_nil_r. apply (T7 m H).
  - destruct (tk_same es o s xs ys hb (VRead n) TT Logic.I) as [Ek Eo]. destruct (read_step P w rf ok I _ _ _ _ _ _ _ _ _ Ti Al D) as [o' [E [T' [G1 G2]]]]. exists s, o', xs, ys, hb. split; auto. rewrite Ek, Eo. split; auto. constructor; rewrite ?Ek, ?Eo; auto.
    + intros m g Hm Hg. apply (T4 m g Hm). rewrite took_app in Hg. apply in_app_iff in Hg. destruct Hg as [Hg|Hg]; auto. exfalso. cbn [term_step] in E. destruct (n <? w_nodes w); [|discriminate]. injection E as <-. destruct (ch_out _); destruct Hg.
    + intros m v Hm. rewrite freed_app. cbn [freed flat_map]. rewrite app_nil_r. apply (T6 m v Hm).
    + intros m H. rewrite free_app. cbn [free_turns flat_map]. rewrite app_nil_r. apply (T7 m H).
  - destruct (tk_same es o s xs ys hb (VFree n v) TT Logic.I) as [Ek Eo]. destruct (free_step P w rf ok I _ _ _ _ _ _ _ _ _ _ Ti D) as [s' [E T']]. pose proof E as E'. cbn [term_step] in E'. injection E' as Es'. exists s', [], xs, ys, hb. rewrite app_nil_r. split; auto.
    assert (En : tm_net s' = tm_net s) by (rewrite <- Es'; reflexivity). assert (Ej : tm_ej s' = ej_insert (tm_ej s) n v) by (rewrite <- Es'; reflexivity). rewrite Ek, Eo. split; auto.
    pose proof (slow_last _ _ _ Sl) as La. assert (No : tm_ej s n = None) by (destruct (tm_ej s n) eqn:X; auto; rewrite (T7 n) in La; congruence). specialize (RR _ _ E). rewrite app_nil_r in RR. constructor; rewrite ?Ek, ?Eo; auto.
    + intros z0 z m Z. unfold reg. rewrite En. apply (T3 z0 z m Z).
    + intros m u Hm. rewrite freed_app, count_occ_app. cbn [freed flat_map]. rewrite app_nil_r. specialize (T6 m u Hm). unfold kept in *. rewrite Ej. unfold ej_insert. rewrite No. unfold fupd. destruct (Nat.eqb_spec m n) as [->|Nm].
      * rewrite Nat.eqb_refl. rewrite No in T6. cbn [count_occ]. destruct (Nat.eq_dec v u); lia.
      * destruct (Nat.eqb_spec n m); [congruence|]. cbn [count_occ]. lia.
    + intros m H. rewrite free_app. cbn [free_turns flat_map]. rewrite app_nil_r. rewrite Ej in H. unfold ej_insert in H. rewrite No in H. unfold fupd in H. destruct (Nat.eqb_spec m n) as [Em|Nm]; [subst m|].
      * rewrite Nat.eqb_refl. apply last_last.
      * destruct (Nat.eqb_spec n m); [congruence|]. rewrite app_nil_r. apply (T7 m H).
  - destruct (tick_step P w rf ok I W SP HC RO _ _ _ _ _ _ _ _ _ Ti Al D) as [s' [z [xs' [ys' [E T']]]]]. pose proof (tick_facts _ _ _ _ _ _ k TT) as [F1 F2].
    assert (Ek : tk (es ++ [VTick k]) = tk es ++ [tick_of w rf k s]) by (unfold tk; apply (ticks_snoc _ _ _ _ (VTick k) Rn)).
    assert (Eo : outs (es ++ [VTick k]) = outs es ++ [z]) by (apply (outs_run _ (tm_net s')); rewrite Ek; apply (ti_run _ _ _ _ _ _ _ _ _ _ _ _ T')).
    pose proof E as E'. cbn [term_step] in E'. destruct (net_step w (tick_of w rf k s) (tm_net s)) as [[net z']|] eqn:En; [|discriminate]. injection E' as Es'.
    assert (Zz : z' = z). { pose proof (ti_run _ _ _ _ _ _ _ _ _ _ _ _ T') as X. rewrite (net_run_snoc _ _ _ _ _ _ _ _ _ (ti_run _ _ _ _ _ _ _ _ _ _ _ _ Ti) En) in X. injection X as _ X. apply app_inj_tail in X. tauto. } subst z'.
    assert (Nn : tm_net s' = net) by (rewrite <- Es'; reflexivity). assert (Ej : tm_ej s' = fun _ => None) by (rewrite <- Es'; reflexivity).
    exists s', [], xs', ys', hb. rewrite app_nil_r. split; auto. split; [|split; auto; exists z; rewrite Nn; auto].
    specialize (RR _ _ E). rewrite app_nil_r in RR. constructor; auto.
    + rewrite Ek, Eo. exact T'.
    + intros z0 y m Z. rewrite Eo in Z. apply app_inj_tail in Z. destruct Z as [_ <-]. unfold reg. rewrite Nn. unfold net_step in En. destruct (map_opt _ _); [|discriminate]. injection En as <- <-. reflexivity.
    + intros u Hu. rewrite Ek in Hu. apply in_app_iff in Hu. destruct Hu as [Hu|[<-|[]]]; auto.
    + intros m v Hm. rewrite freed_app. cbn [freed flat_map]. rewrite app_nil_r, Ek, credited_snoc, count_occ_app. specialize (T6 m v Hm). unfold kept in *. rewrite Ej. cbn [tick_of t_cred]. rewrite (proj2 (Nat.ltb_lt _ _) Hm).
      destruct (tm_ej s m) as [u|]; cbn [option_map opt concat count_occ app]; [|lia]. destruct (Nat.eq_dec u v); cbn; lia.
    + intros m H. rewrite Ej in H. congruence.
Qed.
Lemma TX_all : forall es s o, term_run w rf es (term0 P w) = Some (s, o) -> tdecent_run P w rf ok es -> in_turn w es -> slow es -> exists xs ys hb, TX es o s xs ys hb.
Proof.
  intros es. induction es as [|e es IH] using rev_ind; intros s o E D Al Sl.
  - cbn in E. injection E as <- <-. eexists _, _, _. apply tx0.
  - rewrite term_run_snoc in E. destruct (term_run w rf es (term0 P w)) as [[s1 o1]|] eqn:E1; [|discriminate]. destruct (tdecent_snoc _ _ _ _ _ _ _ _ _ _ _ D E1) as [D1 D2]. cbn [app] in D2.
    destruct (IH _ _ eq_refl D1 (in_turn_pre _ _ _ Al) (slow_pre _ _ Sl)) as [xs [ys [hb T]]]. destruct (TX_step _ _ _ _ _ _ e T Al D2 Sl) as [s' [o' [xs' [ys' [hb' [E2 [T' _]]]]]]]. rewrite E2 in E. injection E as <- <-. eauto.
Qed.

(** ** What the network is worth *)
Definition worth (o0 : Z) (es : list tev) (s : term P) : Z := npot P w dist (tk es) (outs es) (lastt o0 (tk es)) (tm_net s).
Definition put (es : list tev) : Z := Z.of_nat (amount w (tk es)).
Lemma worth_pos : forall o0 es o s xs ys hb, TX es o s xs ys hb -> (0 <= worth o0 es s)%Z.
Proof. intros o0 es o s xs ys hb T. apply (npot_nonneg P w ok dist _ _ _ _ xs ys). apply (ti_ni _ _ _ _ _ _ _ _ _ _ _ _ (tx_ti _ _ _ _ _ _ T)). Qed.
Lemma tick_gain : forall o0 es o s xs ys hb k s' o', TX es o s xs ys hb -> in_turn w (es ++ [VTick k]) -> tdecent w ok es o (VTick k) -> slow (es ++ [VTick k]) -> (lastt o0 (tk es) < k_now k)%Z ->
  term_step w rf (VTick k) s = Some (s', o') ->
  exists G, (0 <= G)%Z /\ (worth o0 (es ++ [VTick k]) s' + G <= worth o0 es s + per_flit w dist * (put (es ++ [VTick k]) - put es))%Z /\ (lively P w (tick_of w rf k s) (tm_net s) -> (0 < G)%Z).
Proof.
  intros o0 es o s xs ys hb k s' o' T Al D Sl Lt E. destruct (TX_step _ _ _ _ _ _ _ T Al D Sl) as [s1 [o1 [xs' [ys' [hb' [E1 [T' [Ek [z [Ez En]]]]]]]]]]. rewrite E in E1. injection E1 as <- <-.
  pose proof (tx_ti _ _ _ _ _ _ T) as Ti. pose proof (tick_decent P w rf ok I W SP HC RO _ _ _ _ _ _ _ _ _ Ti D) as Nd.
  destruct (tick_pot P w ok dist W SP HD (lastt o0 (tk es)) _ _ _ _ _ _ _ _ (ti_ni _ _ _ _ _ _ _ _ _ _ _ _ Ti) Nd Lt (proj2 (tick_facts _ _ _ _ _ _ k T)) En) as [G [G1 [G2 G3]]].
  exists G. split; auto. split; auto. unfold worth, put. rewrite Ek, Ez, lastt_app. cbn [lastt tick_of t_now] in *. pose proof (per_flit_ok w ok dist W _ _ _ Nd). lia.
Qed.
Lemma still_worth : forall o0 es o s xs ys hb e s' o', TX es o s xs ys hb -> in_turn w (es ++ [e]) -> tdecent w ok es o e -> slow (es ++ [e]) -> term_step w rf e s = Some (s', o') -> match e with VTick _ => False | _ => True end ->
  worth o0 (es ++ [e]) s' = worth o0 es s /\ put (es ++ [e]) = put es /\ tk (es ++ [e]) = tk es /\ outs (es ++ [e]) = outs es.
Proof.
  intros o0 es o s xs ys hb e s' o' T Al D Sl E N. destruct (TX_step _ _ _ _ _ _ _ T Al D Sl) as [s1 [o1 [xs' [ys' [hb' [E1 [T' X]]]]]]]. rewrite E in E1. injection E1 as <- <-.
  destruct e; try contradiction; destruct X as [X1 [X2 X3]]; unfold worth, put; rewrite X1, X2, X3; auto.
Qed.
Lemma worth_start : forall o0 es o s xs ys hb, TX es o s xs ys hb -> chain o0 (tk es) -> (worth o0 es s <= start P w dist + per_flit w dist * put es)%Z.
Proof.
  intros o0 es o s xs ys hb T Ch. pose proof (tx_ti _ _ _ _ _ _ T) as Ti. pose proof (ti_dec _ _ _ _ _ _ _ _ _ _ _ _ Ti) as Dc.
  destruct (run_from P w ok dist slots W HB HD (tk es) [] [] _ _ _ o0 (ni0 P w ok SP) Dc Ch ltac:(intros t Ht; apply (tx_out _ _ _ _ _ _ T t Ht))) as [s' [zs [xs' [ys' [G [E [_ [G0 [Q _]]]]]]]]].
  cbn [app] in Q. rewrite start_any in Q. rewrite (ti_run _ _ _ _ _ _ _ _ _ _ _ _ Ti) in E. injection E as <- <-. unfold worth, put. assert (Z0 : amount w [] = 0) by (unfold amount, injected; cbn [flat_map]; rewrite flat_nil; reflexivity). rewrite Z0 in Q. lia.
Qed.
Lemma put_took : forall es o s xs ys hb, TX es o s xs ys hb -> (put es + total (fun n => Z.of_nat (length (opt (tm_inj s n)))) (w_nodes w) = total (fun n => Z.of_nat (length (took n o))) (w_nodes w))%Z.
Proof.
  intros es o s xs ys hb T. unfold put. rewrite amount_total, <- total_add. apply total_ext. intros n _. rewrite (ti_took _ _ _ _ _ _ _ _ _ _ _ _ (tx_ti _ _ _ _ _ _ T) n), app_length. lia.
Qed.

(** ** A network that does not move *)
Lemma inside_buf : forall s r i v, inside w s = [] -> r < w_n w -> i < c_in (w_cfg w r) -> v < bc_vcs (w_b w) -> bufof P s r i v = [].
Proof.
  intros s r i v E Hr Hi Hv. unfold inside in E. apply app_eq_nil in E. destruct E as [_ E]. apply app_eq_nil in E. destruct E as [_ E]. apply app_eq_nil in E. destruct E as [_ E].
  assert (X : forall A (f : nat -> list A) l, flat_map f l = [] -> forall x, In x l -> f x = []).
  { intros A f l. induction l as [|a l IH]; intros Q x Hx; [destruct Hx|]. cbn [flat_map] in Q. apply app_eq_nil in Q. destruct Hx as [<-|Hx]; [apply Q|apply IH; [apply Q|exact Hx]]. }
  pose proof (X _ _ _ E r ltac:(apply in_seq; lia)) as S. unfold stock in S. apply app_eq_nil in S. destruct S as [S _]. pose proof (X _ _ _ S i ltac:(apply in_seq; lia)) as S2. apply (X _ _ _ S2 v). apply in_seq. rewrite (vcs_of w W r Hr). lia.
Qed.
(** All credits are back, apart from those of the last cycle. *)
Definition full (es : list tev) (o : list tobs) (n v : nat) : Prop := length (on_vc v (took n o)) <= count_occ Nat.eq_dec (returned (outs es) n) v.
Definition backed (es : list tev) (o : list tobs) (n v : nat) : Prop := exists z0 z1, outs es = z0 ++ z1 /\ z1 <> [] /\ length (on_vc v (took n o)) <= count_occ Nat.eq_dec (returned z0 n) v.
Lemma rests_term : forall es o s xs ys hb k, TX es o s xs ys hb -> tdecent w ok es o (VTick k) -> giving w (tick_of w rf k s) -> ~ lively P w (tick_of w rf k s) (tm_net s) -> (forall n, n < w_nodes w -> tm_inj s n = None) ->
  (inside w (tm_net s) = [] /\ forall n v, n < w_nodes w -> v < bc_vcs (w_b w) -> full es o n v) \/ clogged w slots (tk es) (outs es) \/
  (exists n v q, n < w_nodes w /\ v < bc_vcs (w_b w) /\ parse (on_vc v (took n o)) = Some (Some q) /\ full es o n v).
Proof.
  intros es o s xs ys hb k T D Gi Nl Ni. pose proof (tx_ti _ _ _ _ _ _ T) as Ti. pose proof (tick_decent P w rf ok I W SP HC RO _ _ _ _ _ _ _ _ _ Ti D) as Nd. pose proof (ti_ni _ _ _ _ _ _ _ _ _ _ _ _ Ti) as N.
  assert (Tk : forall n, n < w_nodes w -> took n o = injected (tk es) n) by (intros n Hn; rewrite (ti_took _ _ _ _ _ _ _ _ _ _ _ _ Ti n), (Ni n Hn); apply app_nil_r).
  destruct (rests P w ok dist slots W HB HD HO _ _ _ _ _ _ N Nd) as [X|[X|X]]; auto.
  - intros u Hu. destruct (tx_out _ _ _ _ _ _ T u Hu) as [A [B _]]. auto.
  - left. split; auto. intros n v Hn Hv. unfold full. rewrite (Tk n Hn). assert (Hn' : w_snk w (Inj n) <> None) by (apply (wi_inj w W n); auto). destruct (w_snk w (Inj n)) as [[r i]|] eqn:Es; [|congruence]. apply (wi_in w W) in Es. destruct Es as [Hr [Hi Ei]].
    rewrite (all_back P w ok slots W HB _ _ _ _ _ N) with (r := r) (i := i); auto.
    + intros c Hc. destruct (stirs _ (n_f (tm_net s) c)) eqn:Es; auto. exfalso. apply Nl. left. exists c. auto.
    + intros c Hc. destruct (stirs _ (n_c (tm_net s) c)) eqn:Es; auto. exfalso. apply Nl. left. exists c. auto.
    + apply inside_buf; auto.
  - right. right. destruct X as [n [v [q [Hn [Hv [Pa Co]]]]]]. exists n, v, q. rewrite (Tk n Hn). split; auto. split; auto. split; auto. unfold full. rewrite (Tk n Hn), Co. lia.
Qed.
(** A node that got its credits back may send. *)
Lemma vocc_zero : forall es o s xs ys hb n v, TX es o s xs ys hb -> n < w_nodes w -> v < bc_vcs (w_b w) -> backed es o n v -> b_vocc (bs_b (tm_buf s n)) v = 0%Z.
Proof.
  intros es o s xs ys hb n v T Hn Hv [z0 [z1 [Ez [N1 Lb]]]]. pose proof (tx_ti _ _ _ _ _ _ T) as Ti. destruct (exists_last N1) as [z2 [z ->]]. rewrite app_assoc in Ez.
  pose proof (tx_reg _ _ _ _ _ _ T _ _ n Ez) as Rg. pose proof (proj2 (returned_le P w ok W SP _ _ _ _ _ n v (ti_ni _ _ _ _ _ _ _ _ _ _ _ _ Ti) Hn)) as Le.
  pose proof (ti_took _ _ _ _ _ _ _ _ _ _ _ _ Ti n) as Tk. assert (Le2 : length (on_vc v (injected (tk es) n)) <= length (on_vc v (took n o))) by (rewrite Tk, on_vc_app, app_length; lia).
  rewrite Ez, returned_snoc, count_occ_app, Rg in Le. assert (Ra : forall a b, returned (a ++ b) n = returned a n ++ returned b n) by (intros; unfold returned; apply flat_map_app). rewrite Ra, count_occ_app in Le.
  destruct (ti_buf _ _ _ _ _ _ _ _ _ _ _ _ Ti n) as [S [Ts _]]. rewrite (so_occ _ _ _ _ _ S v Hv), Ts. pose proof (ti_cred _ _ _ _ _ _ _ _ _ _ _ _ Ti n v Hn) as C. rewrite Ez, returned_snoc, count_occ_app, Rg, Ra, count_occ_app in C.
  assert (Du : count_occ Nat.eq_dec (due P n es s) v = 0) by (unfold due; destruct (last _ false); [reflexivity|lia]). rewrite Du in C. lia.
Qed.
Lemma sends : forall es o s xs ys hb n now f s' o', TX es o s xs ys hb -> tdecent w ok es o (VInj n now (Some f)) -> backed es o n (f_vc f) -> term_step w rf (VInj n now (Some f)) s = Some (s', o') -> o' <> [].
Proof.
  intros es o s xs ys hb n now f s' o' T [Hn D] Bk E. destruct (D f eq_refl) as [Hv [Wf _]]. pose proof (vocc_zero _ _ _ _ _ _ _ _ T Hn Hv Bk) as V0. cbn [term_step] in E. rewrite (proj2 (Nat.ltb_lt _ _) Hn) in E. cbn [negb] in E.
  destruct (offer w rf n now f s) as [[s1 o1]|] eqn:Eo; [|discriminate]. destruct (take_credit w n now s1); [|discriminate]. injection E as _ <-. unfold offer in Eo. rewrite (own_room _ _ _ HB) in Eo by (rewrite V0; apply (own_pos _ _ _ HB)).
  assert (Av : negb (f_head f) || negb (bc_wait (w_b w)) || available_for (bs_b (tm_buf s n)) (f_vc f) = true).
  { destruct (f_head f) eqn:Hh; [|reflexivity]. destruct (bc_wait (w_b w)) eqn:Wt; [|reflexivity]. cbn [negb orb]. unfold available_for. apply Z.ltb_lt. destruct (Z.lt_ge_cases (b_use (bs_b (tm_buf s n)) (f_vc f)) 0) as [|G]; auto. exfalso.
    destruct (ti_buf _ _ _ _ _ _ _ _ _ _ _ _ (tx_ti _ _ _ _ _ _ T) n) as [S [_ Tb]]. pose proof (proj2 (bo_wait _ _ (so_base _ _ _ _ _ S) Wt _ Hv) G) as X. destruct (b_tail (bs_b (tm_buf s n)) (f_vc f)) eqn:Bt; [specialize (X eq_refl); lia|].
    assert (Bu : busy (f_vc f) (hb n) = true) by (apply (so_busy _ _ _ _ _ S _ Hv); split; auto). apply Tb in Bu. destruct Bu as [p Bu]. unfold well_formed in Wf. rewrite on_vc_app, on_vc_same, parse_snoc, Bu in Wf. apply Wf. cbn. rewrite Hh. reflexivity. }
  rewrite Av in Eo. cbn [negb andb] in Eo. destruct (first_route w rf n f) as [g|]; [|discriminate]. destruct (if f_head f then _ else _) as [b1|]; [|discriminate]. destruct (bs_send _ _ _ _ _ _) as [b2|]; [|discriminate]. injection Eo as _ <-. discriminate.
Qed.
End Term.
