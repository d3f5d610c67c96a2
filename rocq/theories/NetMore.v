(** A network can go on from any state it reaches: nodes that give credits for the flits they got and inject nothing. *)
From Coq Require Import ZArith Arith Bool List Lia Permutation.
From Verif Require Import Fupd AllocModel AllocSpec BufferModel BufferSpec RouteModel ChannelModel IqRouterModel IqRouterSpec IqRouterProofs NetModel NetSpec NetProofs NetSum NetOrder NetProgressSpec NetProgress.
Import ListNotations.
Open Scope nat_scope.

Lemma decent_append : forall P w ok a b hts hzs (s : net P), ndecent_from w ok hts hzs a s -> (forall s1 z1, net_run w a s = Some (s1, z1) -> ndecent_from w ok (hts ++ a) (hzs ++ z1) b s1) ->
  ndecent_from w ok hts hzs (a ++ b) s.
Proof.
  intros P w ok a. induction a as [|t a IH]; intros b hts hzs s Da Db; cbn [app ndecent_from net_run] in *.
  - specialize (Db s [] eq_refl). rewrite !app_nil_r in Db. exact Db.
  - destruct Da as [D1 D2]. split; auto. intros s' z E. apply IH; auto. intros s1 z1 E1. rewrite E, E1 in Db. specialize (Db _ _ eq_refl). rewrite <- !app_assoc. exact Db.
Qed.
Lemma chain_append : forall a b old, chain old a -> chain (lastt old a) b -> chain old (a ++ b).
Proof. intros a. induction a as [|t a IH]; intros b old Ha Hb; cbn [app chain lastt] in *; auto. destruct Ha. split; auto. Qed.
Lemma chain_rising : forall ts old, chain old ts -> rising ts.
Proof.
  intros ts. induction ts as [|t ts IH]; intros old Ch l1 a b l2 E; [destruct l1; discriminate|]. cbn [chain] in Ch. destruct Ch as [_ Ch]. destruct l1 as [|x l1]; cbn [app] in E.
  - injection E as -> ->. cbn [chain] in Ch. apply Ch.
  - injection E as _ ->. apply (IH _ Ch l1 a b l2). reflexivity.
Qed.
Lemma net_run_split : forall P w a b (s s1 s2 : net P) z1 z2, net_run w a s = Some (s1, z1) -> net_run w (a ++ b) s = Some (s2, z2) -> exists z3, z2 = z1 ++ z3 /\ net_run w b s1 = Some (s2, z3).
Proof.
  intros P w a. induction a as [|t a IH]; intros b s s1 s2 z1 z2 E1 E2; cbn [net_run app] in *; [injection E1 as <- <-; exists z2; auto|].
  destruct (net_step w t s) as [[s' z]|]; [|discriminate]. destruct (net_run w a s') as [[s3 z3]|] eqn:E3; [|discriminate]. injection E1 as <- <-.
  destruct (net_run w (a ++ b) s') as [[s4 z4]|] eqn:E4; [|discriminate]. injection E2 as <- <-. destruct (IH _ _ _ _ _ _ E3 E4) as [z5 [-> E5]]. exists z5. auto.
Qed.

Section More.
Variables (P : bpolicy) (w : netcfg) (ok : cid -> flit -> Prop) (t0 : tick).
Hypothesis W : wired w.
Hypothesis SP : some_policy (w_b w) P.
Hypothesis VA : forall r l, r < w_n w -> legal_asks (c_in (w_cfg w r) * c_vcs (w_cfg w r)) (c_outs (w_cfg w r) * c_vcs (w_cfg w r)) l -> matching l (t_va t0 r l).
Hypothesis SA : forall r l, r < w_n w -> legal_asks (c_in (w_cfg w r)) (c_outs (w_cfg w r)) l -> matching l (t_sa t0 r l).
Hypothesis RF : forall r i f, r < w_n w -> i < c_in (w_cfg w r) -> f_head f = true -> ok (w_in w r i) f -> lawful w ok r f (t_rf t0 r i f).

Definition due (ts : list tick) (zs : list nout) (d : nat) : option nat :=
  find (fun v => Nat.ltb (count_occ Nat.eq_dec (NetSpec.credited ts d) v) (length (on_vc v (ejected zs d)))) (seq 0 (bc_vcs (w_b w))).
Definition reply (now : Z) (ts : list tick) (zs : list nout) : tick :=
  {| t_now := now; t_inj := fun _ => None; t_cred := fun d => option_map (fun v => [v]) (due ts zs d); t_va := t_va t0; t_sa := t_sa t0; t_rf := t_rf t0 |}.
Fixpoint replies (n : nat) (now : Z) (ts : list tick) (zs : list nout) (s : net P) : list tick :=
  match n with
  | O => []
  | S n => let t := reply now ts zs in t :: match net_step w t s with Some (s', z) => replies n (now + 1)%Z (ts ++ [t]) (zs ++ [z]) s' | None => [] end
  end.
Lemma due_some : forall ts zs d v, due ts zs d = Some v -> v < bc_vcs (w_b w) /\ count_occ Nat.eq_dec (NetSpec.credited ts d) v < length (on_vc v (ejected zs d)).
Proof. intros ts zs d v E. apply find_some in E. destruct E as [E1 E2]. apply in_seq in E1. apply Nat.ltb_lt in E2. split; auto. lia. Qed.
Lemma reply_decent : forall now ts zs, ndecent w ok ts zs (reply now ts zs).
Proof.
  intros now ts zs. constructor; cbn [reply t_va t_sa t_rf t_inj t_cred]; auto; [discriminate|]. intros d vs E. destruct (due ts zs d) as [v|] eqn:Ed; [|discriminate]. cbn in E. injection E as <-.
  split; [repeat constructor; intros []|]. intros u [<-|[]]. apply due_some. exact Ed.
Qed.
Lemma reply_eager : forall now ts zs s xs ys, NI P w ok ts zs s xs ys -> forall slots, (1 <= slots)%Z -> eager w slots ts zs [reply now ts zs].
Proof.
  intros now ts zs s xs ys N slots Hs [d [v [Hd [Hv Hh]]]]. exists (reply now ts zs), d. split; [left; auto|]. split; auto. cbn [reply t_cred]. destruct (due ts zs d) as [u|] eqn:Ed; [discriminate|]. exfalso.
  pose proof (find_none _ _ Ed v ltac:(apply in_seq; lia)) as X. cbn beta in X. apply Nat.ltb_ge in X. unfold hoard in Hh. lia.
Qed.
Lemma replies_ok : forall n now ts zs s xs ys, NI P w ok ts zs s xs ys ->
  length (replies n now ts zs s) = n /\ ndecent_from w ok ts zs (replies n now ts zs s) s /\ chain (now - 1)%Z (replies n now ts zs s) /\
  (forall t, In t (replies n now ts zs s) -> exists now ts zs, t = reply now ts zs) /\
  (forall l1 t l2 s1 z1, replies n now ts zs s = l1 ++ t :: l2 -> net_run w l1 s = Some (s1, z1) -> forall slots, (1 <= slots)%Z -> eager w slots (ts ++ l1) (zs ++ z1) [t]).
Proof.
  intros n. induction n as [|n IH]; intros now ts zs s xs ys N; cbn [replies].
  - split; auto. split; [exact Logic.I|]. split; [exact Logic.I|]. split; [intros u []|]. intros l1 u l2 s1 z1 E. destruct l1; discriminate.
  - pose proof (reply_decent now ts zs) as D. destruct (net_step_ok P w ok W SP _ _ _ _ _ _ N D) as [s1 [z [xs1 [ys1 [E1 [N1 _]]]]]]. rewrite E1.
    destruct (IH (now + 1)%Z _ _ _ _ _ N1) as [A1 [A2 [A3 [A4 A5]]]]. split; [cbn [length]; lia|]. split.
    { split; auto. intros s' z' E'. rewrite E1 in E'. injection E' as <- <-. exact A2. }
    split; [split; [cbn [reply t_now]; lia|]; replace (now + 1 - 1)%Z with now in A3 by lia; exact A3|]. split; [intros t [<-|Ht]; eauto|].
    intros [|x l1] t l2 s2 z2 El Er.
    + injection El as <- _. cbn [net_run] in Er. injection Er as <- <-. rewrite !app_nil_r. exact (reply_eager _ _ _ _ _ _ N).
    + injection El as <- El. cbn [net_run] in Er. rewrite E1 in Er. destruct (net_run w l1 s1) as [[s3 z3]|] eqn:E3; [|discriminate]. injection Er as <- <-.
      specialize (A5 _ _ _ _ _ El E3). rewrite <- !app_assoc in A5. exact A5.
Qed.
End More.
