(** Credits that a node gives while another one waits are lost. *)
From Coq Require Import ZArith Arith Bool List Lia.
From Verif Require Import Fupd ArbiterModel AllocModel AllocSpec BufferModel BufferSpec BufferProofs RouteModel RouteSpec ChannelModel CreditModel IqRouterModel IqRouterSpec IqRouterProofs NetModel NetSpec NetProgressSpec NetProofs
  NetMeshModel NetMeshSpec StreamSpec TermModel TermSpec TermProofs TermFlow TermProgress AxisFormatModel AxisSlaveModel AxisSlaveSpec AxisMasterModel AxisMasterSpec EndToEndSpec FlitCode SysModel SysSpec SysBridge SysProofs TermLostSpec.
Import ListNotations.
Open Scope nat_scope.

(** Whether a node has given a credit since the last cycle. *)
Definition given (n : nat) (full : bool) (es : list tev) : bool := fold_left (fun b e => match e with VTick _ => false | VFree m _ => if Nat.eqb m n then true else b | _ => b end) es full.
Lemma lost_app : forall n v a b full, lost n v full (a ++ b) = lost n v full a + lost n v (given n full a) b.
Proof.
  intros n v a b. induction a as [|e a IH]; intros full; [reflexivity|]. cbn [app lost]. unfold given in *. cbn [fold_left]. destruct e as [m t f|m|m u|k]; try apply IH. destruct (Nat.eqb m n); rewrite IH; lia.
Qed.
Lemma given_snoc : forall n full es e, given n full (es ++ [e]) = match e with VTick _ => false | VFree m _ => if Nat.eqb m n then true else given n full es | _ => given n full es end.
Proof. intros n full es e. unfold given. rewrite fold_left_app. reflexivity. Qed.

Section Lost.
Variables (P : bpolicy) (w : netcfg) (rf : nat -> nat -> flit -> list oelem) (ok : cid -> flit -> Prop) (bz vz : Z).
Hypothesis W : wired w.
Hypothesis Hb : bz <> 0%Z.
Hypothesis Hv : 0 < bc_vcs (w_b w).
Hypothesis EP : new_private (bc_vcs (w_b w)) bz vz (bc_wait (w_b w)) = Some (w_b w, P).
Hypothesis RO : routes_ok w rf ok.

(** Every slot freed was reported, waits to be reported, or is lost. *)
Section Inv.
Variable I : bst -> po_st P -> Prop.
Hypothesis HP : policy_ok (w_b w) P I.
Hypothesis HS : self_steady P.
Hypothesis HC : forall b p, base_ok (w_b w) b -> I b p -> (b_occ b <= bc_size (w_b w))%Z.
Let SP := private_sp P w bz vz Hb Hv EP.
Lemma lost_inv : forall es s o, term_run w rf es (term0 P w) = Some (s, o) -> tdecent_run P w rf ok es -> in_turn w es -> exists ts zs xs ys hb, TI P w ok I es o s ts zs xs ys hb /\
  (forall n v, n < w_nodes w -> count_occ Nat.eq_dec (NetSpec.credited ts n) v + kept P s n v + lost n v false es = count_occ Nat.eq_dec (freed n es) v) /\
  (forall n, given n false es = true <-> tm_ej s n <> None).
Proof.
  intros es. induction es as [|e es IH] using rev_ind; intros s o E D Al.
  - cbn in E. injection E as <- <-. eexists _, _, _, _, _. split; [apply ti0; auto|]. split; [reflexivity|]. intros n. cbn. split; congruence.
  - rewrite term_run_snoc in E. destruct (term_run w rf es (term0 P w)) as [[s1 o1]|] eqn:E1; [|discriminate]. destruct (tdecent_snoc _ _ _ _ _ _ _ _ _ _ _ D E1) as [D1 D2]. cbn [app] in D2.
    destruct (IH _ _ eq_refl D1 (in_turn_pre _ _ _ Al)) as (ts & zs & xs & ys & hb & T & L & G). destruct (term_step w rf e s1) as [[s2 o2]|] eqn:E2; [|discriminate]. injection E as <- <-.
    destruct e as [n now f|n|n v|kk].
    + destruct (inj_step P w rf ok I W SP HP HS RO _ _ _ _ _ _ _ _ _ _ _ T Al D2) as [s' [o' [hb' [E T']]]]. rewrite E in E2. injection E2 as <- <-. destruct (inj_obs _ _ _ _ _ _ _ _ _ E) as [_ [_ Ej]]. exists ts, zs, xs, ys, hb'. split; auto.
      split; [|intros m; rewrite given_snoc, Ej; apply G]. intros m u Hm. rewrite freed_app, lost_app. cbn [freed flat_map lost]. rewrite app_nil_r, Nat.add_0_r. unfold kept. rewrite Ej. apply (L m u Hm).
    + destruct (read_step P w rf ok I _ _ _ _ _ _ _ _ _ T Al D2) as [o' [E [T' _]]]. rewrite E in E2. injection E2 as <- <-. exists ts, zs, xs, ys, hb. split; auto.
      split; [|intros m; rewrite given_snoc; apply G]. intros m u Hm. rewrite freed_app, lost_app. cbn [freed flat_map lost]. rewrite app_nil_r, Nat.add_0_r. apply (L m u Hm).
    + destruct (free_step P w rf ok I _ _ _ _ _ _ _ _ _ _ T D2) as [s' [E T']]. rewrite E in E2. injection E2 as <- <-. cbn [term_step] in E. injection E as Es. assert (Ej : tm_ej s' = ej_insert (tm_ej s1) n v) by (rewrite <- Es; reflexivity). rewrite app_nil_r in *. exists ts, zs, xs, ys, hb. split; auto. split.
      * intros m u Hm. rewrite freed_app, lost_app, count_occ_app. cbn [freed flat_map lost]. rewrite app_nil_r. specialize (L m u Hm). specialize (G m). unfold kept in *. rewrite Ej. unfold ej_insert. destruct (Nat.eqb_spec n m) as [Em|Nm].
        { subst m. cbn [count_occ]. destruct (tm_ej s1 n) as [q|] eqn:Q.
          - rewrite Q. rewrite (proj2 G) by congruence. cbn [andb]. destruct (Nat.eqb_spec v u), (Nat.eq_dec v u); try congruence; destruct (Nat.eq_dec q u); lia.
          - assert (Gf : given n false es = false) by (destruct (given n false es); auto; exfalso; apply (proj1 G); auto). rewrite Gf. unfold fupd. rewrite Nat.eqb_refl. cbn [andb]. destruct (Nat.eq_dec v u); lia. }
        { cbn [count_occ]. destruct (tm_ej s1 n); [lia|]. unfold fupd. destruct (Nat.eqb_spec m n); [congruence|]. lia. }
      * intros m. rewrite given_snoc, Ej. unfold ej_insert. destruct (Nat.eqb_spec n m) as [Em|Nm].
        { subst m. split; auto. intros _. destruct (tm_ej s1 n) eqn:Q; [congruence|]. unfold fupd. rewrite Nat.eqb_refl. discriminate. }
        { rewrite (G m). destruct (tm_ej s1 n); [tauto|]. unfold fupd. destruct (Nat.eqb_spec m n); [congruence|]. tauto. }
    + destruct (tick_step P w rf ok I W SP HC RO _ _ _ _ _ _ _ _ _ T Al D2) as [s' [z [xs' [ys' [E T']]]]]. rewrite E in E2. injection E2 as <- <-. cbn [term_step] in E. destruct (net_step w (tick_of w rf kk s1) (tm_net s1)) as [[net z']|] eqn:En; [|discriminate]. injection E as Es.
      assert (Ej : tm_ej s' = fun _ => None) by (rewrite <- Es; reflexivity). rewrite app_nil_r. exists (ts ++ [tick_of w rf kk s1]), (zs ++ [z]), xs', ys', hb. split; auto. split.
      * intros m u Hm. rewrite freed_app, lost_app, credited_snoc, count_occ_app. cbn [freed flat_map lost]. rewrite app_nil_r. specialize (L m u Hm). unfold kept in *. rewrite Ej. cbn [tick_of t_cred]. rewrite (proj2 (Nat.ltb_lt _ _) Hm).
        destruct (tm_ej s1 m) as [q|]; cbn [option_map opt concat count_occ app]; [|lia]. destruct (Nat.eq_dec q u); cbn; lia.
      * intros m. rewrite given_snoc, Ej. split; congruence.
Qed.
End Inv.
Lemma room_lost : forall es s o n v, term_run w rf es (term0 P w) = Some (s, o) -> tdecent_run P w rf ok es -> in_turn w es -> n < w_nodes w -> v < bc_vcs (w_b w) ->
  (Z.of_nat (length (IqRouterSpec.on_vc v (got n o ++ unread n es s))) + Z.of_nat (lost n v false es) <= Z.of_nat (count_occ Nat.eq_dec (freed n es) v) + vc_size w bz vz)%Z /\
  count_occ Nat.eq_dec (freed n es) v <= length (IqRouterSpec.on_vc v (got n o)).
Proof.
  intros es s o n v E D Al Hn Hv'. destruct (private_inv P w bz vz Hb Hv EP) as [I [HP [HS HC]]]. destruct (lost_inv I HP HS HC es s o E D Al) as (ts & zs & xs & ys & hb & T & L & _).
  pose proof (eject_room P w ok bz vz W Hb Hv EP ts zs _ xs ys n v (ti_ni _ _ _ _ _ _ _ _ _ _ _ _ T) Hn Hv') as R. rewrite (ti_got _ _ _ _ _ _ _ _ _ _ _ _ T n Hn). specialize (L n v Hn). pose proof (ti_free _ _ _ _ _ _ _ _ _ _ _ _ T n v). lia.
Qed.
(** Once all slots are lost, nothing comes any more. *)
Lemma no_more : forall a b s1 o1 s o n v, term_run w rf a (term0 P w) = Some (s1, o1) -> term_run w rf (a ++ b) (term0 P w) = Some (s, o) -> tdecent_run P w rf ok (a ++ b) -> in_turn w (a ++ b) -> n < w_nodes w -> v < bc_vcs (w_b w) ->
  (vc_size w bz vz <= Z.of_nat (lost n v false a))%Z -> IqRouterSpec.on_vc v (got n o) = IqRouterSpec.on_vc v (got n o1).
Proof.
  intros a b. induction b as [|e b IH] using rev_ind; intros s1 o1 s o n v E1 E D Al Hn Hv' L.
  - rewrite app_nil_r in E. rewrite E in E1. injection E1 as _ <-. reflexivity.
  - rewrite app_assoc in E, D, Al. pose proof E as Ef. rewrite term_run_snoc in E. destruct (term_run w rf (a ++ b) (term0 P w)) as [[s2 o2]|] eqn:E2; [|discriminate]. destruct (tdecent_snoc _ _ _ _ _ _ _ _ _ _ _ D E2) as [D1 _].
    destruct (term_step w rf e s2) as [[s3 o3]|] eqn:E3; [|discriminate]. injection E as <- <-. rewrite <- (IH s1 o1 s2 o2 n v E1 eq_refl D1 (in_turn_pre _ _ _ Al) Hn Hv' L).
    pose proof (room_lost _ _ _ n v Ef D Al Hn Hv') as [R1 R2]. pose proof (room_lost _ _ _ n v E2 D1 (in_turn_pre _ _ _ Al) Hn Hv') as [_ R3].
    rewrite !got_app, !on_vc_app, !app_length in *. rewrite !lost_app in R1. destruct (IqRouterSpec.on_vc v (got n o3)) as [|f l] eqn:Q; [apply app_nil_r|]. exfalso. cbn [length] in *.
    assert (Fe : freed n [e] = []). { destruct e as [m t g|m|m u|kk]; auto. cbn [term_step] in E3. injection E3 as _ <-. discriminate. } rewrite freed_app, Fe, app_nil_r in R1. lia.
Qed.
End Lost.
