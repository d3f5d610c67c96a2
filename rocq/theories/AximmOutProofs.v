From Coq Require Import ZArith Bool List Lia Permutation.
From Verif Require AxisMasterProofs.
From Verif Require Import Bits Fupd VcModel AximmFormatModel AximmInModel AximmOutModel AximmOutSpec.
Import ListNotations.
Local Open Scope nat_scope.

Ltac sp := repeat match goal with |- _ /\ _ => split end.
Ltac fields := cbn [yin ypend yej ypushc ypushn ypopc yprio ydepk ycon youtq yhold yport].

Definition olist {A} (x : option A) : list A := match x with Some a => [a] | None => [] end.
Definition tails (l : list xflit) : nat := length (filter xf_tail l).

Lemma tails_app : forall a b, tails (a ++ b) = tails a + tails b.
Proof. intros. unfold tails. rewrite filter_app, app_length. reflexivity. Qed.

Lemma tails_0_in : forall l f, tails l = 0 -> In f l -> xf_tail f = false.
Proof.
  intros l f H I. destruct (xf_tail f) eqn:T; auto. exfalso.
  assert (X : In f (filter xf_tail l)) by (apply filter_In; auto).
  unfold tails in H. destruct (filter xf_tail l); [destruct X|discriminate].
Qed.

Section Y.
Variable c : ycfg.
Variable ps : xtype -> list (list xflit).
Variable more : nat -> list xflit.
Hypothesis WF : forall t, Forall (wf_xpacket (y_w c) t) (ps t).

Definition typ (v : nat) : xtype :=
  match y_side c, v with
  | Slave, 0 => R | Slave, _ => B
  | Master, 0 => AR | Master, 1 => AW | Master, _ => W
  end.
Definition onf (v : nat) (f : xflit) : bool := Nat.eqb (num (xf_type f)) v.
Definition onp (v : nat) (p : list xflit) : bool := Nat.eqb (num (ptype p)) v.

Lemma typ_num : forall v, v < ntypes c -> num (typ v) = v /\ out_type (y_side c) (typ v) = true.
Proof.
  intros v H. unfold typ, ntypes in *. destruct (y_side c); destruct v as [|[|[|v]]]; cbn in *; auto; lia.
Qed.
Lemma num_typ : forall t, out_type (y_side c) t = true -> typ (num t) = t /\ num t < ntypes c.
Proof. intros t H. unfold typ, ntypes. destruct (y_side c); destruct t; cbn in *; try discriminate; auto. Qed.

Definition cur (s : yst) (v : nat) : list xflit :=
  match yprio s with
  | u :: _ => if ydepk s && Nat.eqb u v then ycon s else []
  | [] => []
  end.
Definition pendv (s : yst) (v : nat) : list xflit :=
  match ypend s with Some f => if onf v f then [f] else [] | None => [] end.

Record inv (s : yst) (dl sn : list (list xflit)) : Prop := {
  i_R : forall v, v < ntypes c -> exists R, ps (typ v) = filter (onp v) dl ++ R /\
        concat R = cur s v ++ yej s v ++ pendv s v ++ filter (onf v) (yin s) ++ more v;
  i_idle : ydepk s = false -> ycon s = [];
  i_pop : forall v, v < ntypes c -> ypopc s v = length (filter (onp v) dl);
  i_push : forall v, ypushn s v = ypopc s v + tails (yej s v);
  i_pushc : forall v, ypushc s v <= ypushn s v;
  i_busy : ydepk s = true -> exists v q, yprio s = v :: q /\ tails (ycon s) = 0 /\ ypopc s v < ypushc s v;
  i_prio : Permutation (yprio s) (seq 0 (ntypes c));
  i_out : exists pp, yport s = option_map (xcontents (y_w c)) pp /\
          dl = sn ++ olist pp ++ olist (yhold s) ++ youtq s;
  i_dl : Forall (fun p => out_type (y_side c) (ptype p) = true /\ wf_xpacket (y_w c) (ptype p) p) dl;
  i_in : forall f, In f (yin s) \/ ypend s = Some f -> out_type (y_side c) (xf_type f) = true /\
         fifo_of_vc c (xf_vc f) = Some (num (xf_type f))
}.

(** Cutting the first packet out of a flit stream. *)
Lemma packet_prefix : forall t p X K f Y, wf_xpacket (y_w c) t p -> tails K = 0 ->
  p ++ X = K ++ f :: Y ->
  exists p2, p = K ++ f :: p2 /\ Y = p2 ++ X /\ (xf_tail f = true <-> p2 = []).
Proof.
  intros t p X K f Y W HK E. destruct W as (W1 & W4 & _).
  assert (L : length K < length p).
  { destruct (Nat.lt_ge_cases (length K) (length p)) as [L|L]; auto. exfalso.
    assert (E2 : firstn (length p) (p ++ X) = firstn (length p) (K ++ f :: Y)) by (f_equal; exact E).
    rewrite firstn_app, Nat.sub_diag, firstn_O, app_nil_r, firstn_all in E2.
    rewrite firstn_app in E2.
    replace (length p - length K) with 0 in E2 by lia. rewrite firstn_O, app_nil_r in E2.
    destruct (exists_last W1) as (p0 & l & Hl).
    assert (T : xf_tail l = true).
    { apply (W4 (length p0) l). rewrite Hl, nth_error_app2, Nat.sub_diag; auto.
      rewrite Hl, app_length. cbn. lia. }
    assert (In l K).
    { rewrite <- (firstn_skipn (length p) K), <- E2. apply in_or_app. left.
      rewrite Hl. apply in_or_app. right. left. reflexivity. }
    pose proof (tails_0_in _ _ HK H) as F. congruence. }
  exists (skipn (S (length K)) p).
  assert (P1 : p = K ++ f :: skipn (S (length K)) p).
  { rewrite <- (firstn_skipn (S (length K)) p) at 1.
    assert (E2 : firstn (S (length K)) (p ++ X) = firstn (S (length K)) (K ++ f :: Y))
      by (f_equal; exact E).
    rewrite firstn_app in E2.
    replace (S (length K) - length p) with 0 in E2 by lia. rewrite firstn_O, app_nil_r in E2.
    rewrite E2. rewrite firstn_app. replace (S (length K) - length K) with 1 by lia.
    rewrite firstn_all2 by lia. rewrite <- app_assoc. reflexivity. }
  split; [exact P1|]. split.
  - rewrite P1, <- app_assoc in E. apply app_inv_head in E. rewrite <- app_comm_cons in E. congruence.
  - assert (N : nth_error p (length K) = Some f).
    { rewrite P1. rewrite nth_error_app2, Nat.sub_diag by lia. reflexivity. }
    rewrite (W4 _ _ N). split; intros H.
    + apply skipn_all2. lia.
    + assert (length (skipn (S (length K)) p) = 0) by (rewrite H; reflexivity).
      rewrite skipn_length in H0. lia.
Qed.

Lemma ptype_wf : forall t p, wf_xpacket (y_w c) t p -> ptype p = t.
Proof. intros t p (W1 & _ & W3 & _). destruct p; [congruence|]. apply W3. left. reflexivity. Qed.

Lemma rot_perm : forall (v : nat) r, Permutation (r ++ [v]) (v :: r).
Proof. intros. symmetry. apply Permutation_cons_append. Qed.

Lemma scan_perm : forall s n q, Permutation (y_scan s n q) q.
Proof.
  intros s n. induction n as [|n IH]; intros q; destruct q as [|v r]; cbn [y_scan]; auto;
    destruct (complete s v); auto.
  rewrite IH. apply rot_perm.
Qed.

Lemma scan_none : forall s n q v r, length q <= n -> y_scan s n q = v :: r -> complete s v = false ->
  forall u, In u q -> complete s u = false.
Proof.
  intros s n.
  assert (G : forall n a b v r, length a <= n -> y_scan s n (a ++ b) = v :: r -> complete s v = false ->
    forall u, In u a -> complete s u = false).
  { induction n0 as [|n0 IH]; intros a b v r HL E HC u Hu.
    - destruct a; [destruct Hu|cbn in HL; lia].
    - destruct a as [|x a]; [destruct Hu|]. cbn [app y_scan] in E.
      destruct (complete s x) eqn:Ex.
      + injection E as <- _. congruence.
      + destruct Hu as [<-|Hu]; auto. rewrite <- app_assoc in E. eapply (IH a); eauto. cbn in HL. lia. }
  intros q v r HL E HC u Hu. eapply (G n q []); eauto. rewrite app_nil_r. exact E.
Qed.

Lemma cur_v : forall s dl sn v q, inv s dl sn -> yprio s = v :: q \/ ydepk s = false -> cur s v = ycon s.
Proof.
  intros s dl sn v q I H. unfold cur. destruct (ydepk s) eqn:D.
  - destruct H as [H|H]; [|discriminate]. rewrite H, Nat.eqb_refl. reflexivity.
  - rewrite (i_idle _ _ _ I D). destruct (yprio s); reflexivity.
Qed.

Lemma cur_other : forall s dl sn v q u, inv s dl sn -> yprio s = v :: q \/ ydepk s = false -> u <> v ->
  cur s u = [].
Proof.
  intros s dl sn v q u I H N. unfold cur. destruct (ydepk s) eqn:D.
  - destruct H as [H|H]; [|discriminate]. rewrite H. cbn.
    destruct (Nat.eqb_spec v u); [congruence|reflexivity].
  - destruct (yprio s); reflexivity.
Qed.

Lemma R_wf : forall dl v R, ps (typ v) = filter (onp v) dl ++ R -> Forall (wf_xpacket (y_w c) (typ v)) R.
Proof. intros dl v R E. pose proof (WF (typ v)) as H. rewrite E in H. apply Forall_app in H. tauto. Qed.

(** What moving a flit does to the state. *)
Definition moved (s s' : yst) (dl dl' : list (list xflit)) : Prop :=
  exists v f rest, v < ntypes c /\ yej s v = f :: rest /\ yej s' = fupd (yej s) v rest /\
    ypend s' = ypend s /\ yin s' = yin s /\ yhold s' = yhold s /\ yport s' = yport s /\
    ypushn s' = ypushn s /\ ypushc s' = ypushc s /\
    (youtq s' = youtq s \/ exists p, youtq s' = youtq s ++ [p]).

(** Nothing moves: the output queue is full, or there is no packet to move. *)
Definition held (s s' : yst) : Prop :=
  yej s' = yej s /\ ypend s' = ypend s /\ yin s' = yin s /\ yhold s' = yhold s /\ yport s' = yport s /\
  ypushn s' = ypushn s /\ ypushc s' = ypushc s /\ youtq s' = youtq s /\
  (2 <= length (youtq s) \/
   (ydepk s = false /\ ydepk s' = false /\ forall v, v < ntypes c -> ypushc s v <= ypopc s v)).

Lemma depack_step : forall s dl sn, inv s dl sn ->
  exists s' o dl', y_depack c s = Some (s', o) /\ inv s' dl' sn /\ (exists nd, dl' = dl ++ nd) /\ shown o = [] /\
  (moved s s' dl dl' \/ held s s').
Proof.
  intros s dl sn I. unfold y_depack.
  set (q := if ydepk s then yprio s else y_scan s (ntypes c) (yprio s)).
  assert (PM : Permutation q (seq 0 (ntypes c))).
  { unfold q. destruct (ydepk s); [|rewrite scan_perm]; apply (i_prio _ _ _ I). }
  assert (HN : 0 < ntypes c) by (unfold ntypes; destruct (y_side c); lia).
  destruct q as [|v r] eqn:Eq.
  { exfalso. apply Permutation_nil in PM. destruct (ntypes c); [lia|discriminate]. }
  assert (Hv : v < ntypes c).
  { assert (H : In v (seq 0 (ntypes c))) by (rewrite <- PM; left; reflexivity). apply in_seq in H. lia. }
  assert (HQ : yprio s = v :: r \/ ydepk s = false).
  { unfold q in Eq. destruct (ydepk s); auto. }
  assert (HK : tails (ycon s) = 0).
  { destruct (ydepk s) eqn:D.
    - destruct (i_busy _ _ _ I D) as (v' & q' & _ & T & _). exact T.
    - rewrite (i_idle _ _ _ I D). reflexivity. }
  destruct (complete s v) eqn:Ec.
  - unfold complete in Ec. apply Nat.ltb_lt in Ec.
    destruct (Nat.ltb_spec (length (youtq s)) 2) as [HL|HL].
    + pose proof (i_push _ _ _ I v) as Pn. pose proof (i_pushc _ _ _ I v) as Pc.
      destruct (yej s v) as [|f rest] eqn:E; [cbn in Pn; lia|].
      destruct (i_R _ _ _ I v Hv) as (R & E1 & E2).
      rewrite (cur_v s dl sn v r I HQ), E in E2. cbn [app] in E2.
      pose proof (R_wf _ _ _ E1) as W.
      destruct R as [|p R']; [cbn in E2; destruct (ycon s); discriminate|].
      apply Forall_cons_iff in W. destruct W as [Wp WR].
      cbn [concat] in E2. destruct (packet_prefix _ _ _ _ _ _ Wp HK E2) as (p2 & Ep & EY & Htail).
      pose proof (ptype_wf _ _ Wp) as Tp. destruct (typ_num v Hv) as [Tn To].
      assert (Onp : onp v p = true) by (unfold onp; rewrite Tp, Tn; apply Nat.eqb_refl).
      assert (Onn : forall u, u <> v -> onp u p = false).
      { intros u N. unfold onp. rewrite Tp, Tn. apply Nat.eqb_neq. auto. }
      assert (TP : tails (f :: rest) = (if xf_tail f then 1 else 0) + tails rest).
      { unfold tails. cbn [filter]. destruct (xf_tail f); reflexivity. }
      destruct (xf_tail f) eqn:T.
      * assert (p2 = []) by (apply Htail; reflexivity). subst p2. cbn [app] in EY. rewrite <- Ep.
        destruct (Nat.leb_spec (S (ypopc s v)) (ypushc s v)); [|lia].
        eexists _, _, (dl ++ [p]). split; [reflexivity|]. split; [|split; [eauto|split; [reflexivity|]]].
        -- constructor; fields.
           ++ intros u Hu. destruct (Nat.eq_dec u v) as [->|N].
              ** exists R'. split.
                 { rewrite filter_app. cbn [filter]. rewrite Onp, <- app_assoc. exact E1. }
                 { unfold cur, pendv. fields. rewrite fupd_same, <- EY. destruct (r ++ [v]); reflexivity. }
              ** destruct (i_R _ _ _ I u Hu) as (Ru & Eu1 & Eu2). exists Ru. split.
                 { rewrite filter_app. cbn [filter]. rewrite (Onn u N), app_nil_r. exact Eu1. }
                 { unfold cur, pendv in *. fields. rewrite fupd_other by auto. rewrite Eu2.
                   fold (cur s u). rewrite (cur_other s dl sn v r u I HQ N). destruct (r ++ [v]); reflexivity. }
           ++ auto.
           ++ intros u Hu. rewrite filter_app, app_length. cbn [filter]. unfold fupd.
              destruct (Nat.eqb_spec u v) as [->|N].
              ** rewrite Onp, (i_pop _ _ _ I v Hv). cbn. lia.
              ** rewrite (Onn u N), (i_pop _ _ _ I u Hu). cbn. lia.
           ++ intros u. unfold fupd. destruct (Nat.eqb_spec u v) as [->|N]; [lia|apply (i_push _ _ _ I)].
           ++ apply (i_pushc _ _ _ I).
           ++ discriminate.
           ++ rewrite rot_perm. exact PM.
           ++ destruct (i_out _ _ _ I) as (pp & O1 & O2). exists pp. split; auto.
              rewrite O2 at 1. rewrite <- !app_assoc. reflexivity.
           ++ apply Forall_app. split; [apply (i_dl _ _ _ I)|]. constructor; [|constructor].
              rewrite Tp. auto.
           ++ apply (i_in _ _ _ I).
        -- left. exists v, f, rest. fields. sp; auto. right. eauto.
      * eexists _, _, dl. split; [reflexivity|]. split; [|split; [exists []; symmetry; apply app_nil_r|split; [reflexivity|]]].
        -- constructor; fields.
           ++ intros u Hu. destruct (Nat.eq_dec u v) as [->|N].
              ** exists (p :: R'). split; [exact E1|]. unfold cur, pendv in *. fields. rewrite Nat.eqb_refl, fupd_same.
                 cbn [andb concat]. rewrite E2, <- app_assoc. reflexivity.
              ** destruct (i_R _ _ _ I u Hu) as (Ru & Eu1 & Eu2). exists Ru. split; auto.
                 unfold cur, pendv in *. fields. rewrite fupd_other by auto. rewrite Eu2.
                 fold (cur s u). rewrite (cur_other s dl sn v r u I HQ N).
                 destruct (Nat.eqb_spec v u); [congruence|]. reflexivity.
           ++ discriminate.
           ++ apply (i_pop _ _ _ I).
           ++ intros u. unfold fupd. destruct (Nat.eqb_spec u v) as [->|N]; [lia|apply (i_push _ _ _ I)].
           ++ apply (i_pushc _ _ _ I).
           ++ intros _. exists v, r. sp; auto. rewrite tails_app, HK. unfold tails. cbn [filter]. rewrite T. reflexivity.
           ++ exact PM.
           ++ apply (i_out _ _ _ I).
           ++ apply (i_dl _ _ _ I).
           ++ apply (i_in _ _ _ I).
        -- left. exists v, f, rest. fields. sp; auto.
    + eexists _, _, dl. split; [reflexivity|]. split; [|split; [exists []; symmetry; apply app_nil_r|split; [reflexivity|]]].
      * constructor; fields; try (destruct I; assumption).
        -- intros u Hu. destruct (i_R _ _ _ I u Hu) as (Ru & Eu1 & Eu2). exists Ru. split; auto.
           rewrite Eu2. f_equal. unfold cur at 2. fields. destruct (Nat.eqb_spec v u) as [->|N].
           ++ apply (cur_v s dl sn u r I HQ).
           ++ apply (cur_other s dl sn v r u I HQ). auto.
        -- discriminate.
        -- intros _. exists v, r. auto.
      * right. unfold held. fields. sp; auto.
  - assert (D : ydepk s = false).
    { destruct (ydepk s) eqn:D; auto. destruct (i_busy _ _ _ I D) as (v' & q' & B1 & _ & B2).
      destruct HQ as [HQ|HQ]; [|discriminate]. rewrite HQ in B1. injection B1 as <- <-.
      unfold complete in Ec. apply Nat.ltb_ge in Ec. lia. }
    eexists _, _, dl. split; [reflexivity|]. split; [|split; [exists []; symmetry; apply app_nil_r|split; [reflexivity|]]].
    + constructor; fields; try (destruct I; assumption).
      * intros u Hu. destruct (i_R _ _ _ I u Hu) as (Ru & Eu1 & Eu2). exists Ru. split; auto.
        rewrite Eu2. f_equal. unfold cur. fields. rewrite D. destruct (yprio s); reflexivity.
      * congruence.
    + right. unfold held. fields. sp; auto. right. sp; auto. intros u Hu. unfold q in Eq. rewrite D in Eq.
      assert (X : complete s u = false).
      { eapply scan_none; [|exact Eq|exact Ec|].
        - rewrite (Permutation_length (i_prio _ _ _ I)), seq_length. lia.
        - rewrite (i_prio _ _ _ I). apply in_seq. lia. }
      unfold complete in X. apply Nat.ltb_ge in X. exact X.
Qed.

(** ** Ejection *)

Definition fr (s : yst) : Prop := forall v, ypushc s v = ypushn s v.

Lemma eject_step : forall s dl sn av, inv s dl sn -> fr s ->
  exists s' o, y_eject c av s = Some (s', o) /\ inv s' dl sn /\ shown o = [] /\ ypushc s' = ypushc s /\
  ydepk s' = ydepk s /\ youtq s' = youtq s /\ yhold s' = yhold s /\ yport s' = yport s /\
  ((s' = s /\ (av = true -> (ypend s = None /\ yin s = []) \/
       exists f, ypend s = Some f /\ y_depth c <= length (yej s (num (xf_type f))))) \/
   exists f, num (xf_type f) < ntypes c /\
     (olist (ypend s) ++ yin s = f :: olist (ypend s') ++ yin s' \/
      (ypend s = None /\ ypend s' = Some f /\ yin s = f :: yin s')) /\
     ((yej s' = yej s /\ ypend s' = Some f /\ ypend s = None) \/ (ypend s' = None /\
       yej s' = fupd (yej s) (num (xf_type f)) (yej s (num (xf_type f)) ++ [f])))).
Proof.
  intros s dl sn av I Fr. unfold y_eject.
  set (r := match ypend s with Some f => (Some f, yin s, []) | None => match av, yin s with
              | true, f :: r => (Some f, r, [YArrive f]) | _, _ => (None, yin s, []) end end).
  destruct r as [[p q] o] eqn:Er.
  assert (HP : olist (ypend s) ++ yin s = olist p ++ q).
  { unfold r in Er. destruct (ypend s) as [f|].
    - inversion Er; subst. reflexivity.
    - destruct av; [|inversion Er; subst; reflexivity].
      destruct (yin s) as [|f l]; inversion Er; subst; auto. }
  assert (HO : shown o = []).
  { unfold r in Er. destruct (ypend s); [|destruct av; [destruct (yin s)|]]; inversion Er; reflexivity. }
  assert (HI : forall f, In f q \/ p = Some f -> out_type (y_side c) (xf_type f) = true /\ fifo_of_vc c (xf_vc f) = Some (num (xf_type f))).
  { intros f H. apply (i_in _ _ _ I).
    assert (X : In f (olist (ypend s) ++ yin s)).
    { rewrite HP. apply in_or_app. destruct H as [H | ->]; auto. left. left. reflexivity. }
    apply in_app_or in X. destruct X as [X|X]; auto. right. destruct (ypend s); cbn in X; [|contradiction].
    destruct X as [->|[]]. reflexivity. }
  assert (HF : forall v, pendv s v ++ filter (onf v) (yin s) =
      match p with Some f => if onf v f then [f] else [] | None => [] end ++ filter (onf v) q).
  { intros v. assert (X : filter (onf v) (olist (ypend s) ++ yin s) = filter (onf v) (olist p ++ q)) by (rewrite HP; reflexivity).
    rewrite !filter_app in X. unfold pendv.
    assert (Y : forall x, filter (onf v) (olist x) = match x with Some f => if onf v f then [f] else [] | None => [] end)
      by (intros [x|]; reflexivity).
    rewrite !Y in X. exact X. }
  destruct p as [f|].
  - destruct (HI f (or_intror eq_refl)) as [Z1 Z2]. rewrite Z2.
    destruct (num_typ _ Z1) as [Ty Nv]. set (v := num (xf_type f)) in *.
    destruct (Nat.ltb_spec (length (yej s v)) (y_depth c)) as [HL|HL].
    + eexists _, o. split; [reflexivity|]. split; [|split; [exact HO|fields; sp; auto]].
      * constructor; fields; try (destruct I; assumption).
        -- intros u Hu. destruct (i_R _ _ _ I u Hu) as (Ru & Eu1 & Eu2). exists Ru. split; auto.
           rewrite Eu2, (app_assoc (pendv s u)), HF. unfold pendv, cur. fields.
           f_equal. unfold onf at 1. fold v. unfold fupd. rewrite (Nat.eqb_sym u).
           destruct (Nat.eqb_spec v u) as [<-|N]; [rewrite <- !app_assoc|]; reflexivity.
        -- intros u. pose proof (i_push _ _ _ I u) as Pu. unfold fupd at 2.
           destruct (Nat.eqb_spec u v) as [E|N].
           ++ subst u. rewrite tails_app. replace (tails [f]) with (if xf_tail f then 1 else 0)
                by (unfold tails; cbn; destruct (xf_tail f); reflexivity).
              destruct (xf_tail f); [rewrite fupd_same, Fr|]; lia.
           ++ destruct (xf_tail f); [rewrite fupd_other by auto|]; lia.
        -- intros u. pose proof (i_pushc _ _ _ I u). destruct (xf_tail f); auto.
           unfold fupd. destruct (Nat.eqb_spec u v); subst; lia.
        -- intros g [Hg|Hg]; [|discriminate]. apply HI. auto.
      * right. exists f. fold v. split; [auto|]. split; [left; rewrite HP; reflexivity|right; auto].
    + eexists _, o. split; [reflexivity|]. split; [|split; [exact HO|fields; sp; auto]].
      * constructor; fields; try (destruct I; assumption).
        -- intros u Hu. destruct (i_R _ _ _ I u Hu) as (Ru & Eu1 & Eu2). exists Ru. split; auto.
           rewrite Eu2, (app_assoc (pendv s u)), HF, <- app_assoc. unfold pendv, cur. fields. reflexivity.
      * destruct (ypend s) as [f0|] eqn:Ep.
        -- left. unfold r in Er. injection Er as -> <- <-. split.
           ++ destruct s; cbn in *; subst; reflexivity.
           ++ intros _. right. exists f. fold v. auto.
        -- right. exists f. fold v. split; [auto|]. cbn in HP. split; [right|left]; auto.
  - exists s, o. split; auto. split; auto. split; auto. split; auto. sp; auto. left. split; auto.
    intros ->. left. unfold r in Er. destruct (ypend s); [discriminate|]. destruct (yin s); [auto|discriminate].
Qed.

(** ** Output interface *)

Lemma show_contents : forall t p, wf_xpacket (y_w c) t p -> show (y_w c) p = Some (xcontents (y_w c) p).
Proof.
  intros t p (W1 & _ & _ & W4). unfold show, xcontents. destruct p as [|f p]; [congruence|].
  apply Z.ltb_lt in W4. rewrite W4. reflexivity.
Qed.

Definition wout (s : yst) : nat := 3 * length (youtq s) + 2 * length (olist (yhold s)) + length (olist (yport s)).

Lemma out_step : forall s dl sn rdy, inv s dl sn ->
  exists s' o sn', y_out c rdy s = Some (s', o) /\ inv s' dl sn' /\
    (exists nw, sn' = sn ++ nw /\ shown o = map (xcontents (y_w c)) nw) /\
    yej s' = yej s /\ ypend s' = ypend s /\ yin s' = yin s /\ ypushc s' = ypushc s /\ ypushn s' = ypushn s /\
    ydepk s' = ydepk s /\
    (wout s' < wout s \/ (youtq s' = youtq s /\ yhold s' = yhold s /\ yport s' = yport s /\
       ((forall t, rdy t = true) -> youtq s = [] /\ yhold s = None /\ yport s = None))) /\
    (forall t, yport s' = Some t -> rdy (chan_of t) = true) /\
    (forall t b, In (YSeen t b) o -> yport s = Some t /\ b = rdy (chan_of t)).
Proof.
  intros s dl sn rdy I. unfold y_out.
  destruct (i_out _ _ _ I) as (pp & O1 & O2).
  set (o := match yport s with Some t => [YSeen t (rdy (chan_of t))] | None => [] end).
  assert (HS : shown o = map (xcontents (y_w c)) (olist pp)).
  { unfold o. rewrite O1. destruct pp; reflexivity. }
  assert (HO : forall t b, In (YSeen t b) o -> yport s = Some t /\ b = rdy (chan_of t)).
  { intros t b H. unfold o in H. destruct (yport s) as [t0|]; [|destruct H].
    destruct H as [H|[]]. injection H as <- <-. auto. }
  set (hq := match yhold s, youtq s with None, p :: q => (Some p, q) | h, q => (h, q) end).
  destruct hq as [h q] eqn:Eh.
  assert (H1 : olist (yhold s) ++ youtq s = olist h ++ q).
  { unfold hq in Eh. destruct (yhold s); [|destruct (youtq s)]; injection Eh as <- <-; reflexivity. }
  assert (H2 : dl = (sn ++ olist pp) ++ olist h ++ q) by (rewrite O2, <- app_assoc, H1; reflexivity).
  assert (WL : wout s = length (olist (yport s)) + (3 * length q + 2 * length (olist h)) +
     (match yhold s, youtq s with None, _ :: _ => 1 | _, _ => 0 end)).
  { unfold wout, hq in *. destruct (yhold s); [|destruct (youtq s)]; injection Eh as <- <-; cbn [length olist]; lia. }
  assert (PL : length (olist (yport s)) = length (olist pp)) by (rewrite O1; destruct pp; reflexivity).
  assert (NEW : forall h' port' pp', port' = option_map (xcontents (y_w c)) pp' ->
     olist h ++ q = olist pp' ++ olist h' ++ q ->
     inv {| yin := yin s; ypend := ypend s; yej := yej s; ypushc := ypushc s; ypushn := ypushn s;
       ypopc := ypopc s; yprio := yprio s; ydepk := ydepk s; ycon := ycon s;
       youtq := q; yhold := h'; yport := port' |} dl (sn ++ olist pp)).
  { intros h' port' pp' Ep Eq. constructor; fields; try (destruct I; assumption).
    exists pp'. split; auto. rewrite H2, Eq. reflexivity. }
  destruct h as [p|].
  - assert (Hp : out_type (y_side c) (ptype p) = true /\ wf_xpacket (y_w c) (ptype p) p).
    { pose proof (i_dl _ _ _ I) as HD. rewrite Forall_forall in HD. apply HD. rewrite H2.
      apply in_or_app. right. left. reflexivity. }
    destruct Hp as [T1 T2]. pose proof (show_contents _ _ T2) as SC.
    assert (CH : chan_of (xcontents (y_w c) p) = ptype p) by (unfold xcontents; destruct (ptype p); reflexivity).
    destruct p as [|f p']; [destruct T2; congruence|]. set (p := f :: p') in *.
    change (xf_type f) with (ptype p). rewrite T1. cbn [andb].
    destruct (rdy (ptype p)) eqn:Er.
    + rewrite SC. eexists _, o, (sn ++ olist pp). split; [reflexivity|].
      split; [apply (NEW None _ (Some p)); reflexivity|]. fields. sp; auto.
      * exists (olist pp). auto.
      * left. rewrite WL. unfold wout. cbn [youtq yhold yport olist length]. lia.
      * intros t H. injection H as <-. rewrite CH. exact Er.
    + eexists _, o, (sn ++ olist pp). split; [reflexivity|].
      split; [apply (NEW (Some p) _ None); reflexivity|]. fields. sp; auto.
      * exists (olist pp). auto.
      * destruct (yport s) as [t|] eqn:P.
        { left. rewrite WL. unfold wout. cbn [youtq yhold yport olist length]. lia. }
        destruct (yhold s) as [p0|] eqn:Hh.
        { right. unfold hq in Eh. injection Eh as -> <-. sp; auto. intros H. rewrite H in Er. discriminate. }
        destruct (youtq s) as [|p0 q0] eqn:Hq.
        { unfold hq in Eh. discriminate. }
        left. rewrite WL. unfold wout. cbn [youtq yhold yport olist length]. lia.
      * discriminate.
  - eexists _, o, (sn ++ olist pp). split; [reflexivity|].
    split; [apply (NEW None _ None); reflexivity|]. fields.
    assert (X : yhold s = None /\ youtq s = [] /\ q = []).
    { unfold hq in Eh. destruct (yhold s); [discriminate|]. destruct (youtq s); [|discriminate]. injection Eh as <-. auto. }
    destruct X as (X1 & X2 & X3). sp; auto.
    + exists (olist pp). auto.
    + rewrite X1, X2, X3. destruct (yport s) as [t|] eqn:P.
      * left. unfold wout. cbn [youtq yhold yport]. rewrite X1, X2, P. cbn. lia.
      * right. sp; auto.
    + discriminate.
Qed.

(** ** Threads and runs *)

Lemma thread_step : forall ev t s dl sn, inv s dl sn -> (t = TEj -> fr s) ->
  exists s' o dl' sn', y_thread c ev t s = Some (s', o) /\ inv s' dl' sn' /\
    (exists nd, dl' = dl ++ nd) /\ (exists nw, sn' = sn ++ nw /\ shown o = map (xcontents (y_w c)) nw) /\
    ypushc s' = ypushc s /\ (t <> TEj -> ypushn s' = ypushn s).
Proof.
  intros ev t s dl sn I Fr. destruct t; cbn [y_thread].
  - destruct (eject_step s dl sn (y_avail ev) I (Fr eq_refl)) as (s' & o & E & I' & So & Pc & _).
    exists s', o, dl, sn. sp; auto.
    + exists []. symmetry. apply app_nil_r.
    + exists []. split; [symmetry; apply app_nil_r|exact So].
    + congruence.
  - destruct (depack_step s dl sn I) as (s' & o & dl' & E & I' & X & So & M).
    exists s', o, dl', sn. sp; auto.
    + exists []. split; [symmetry; apply app_nil_r|exact So].
    + destruct M as [(v & f & r & M)|M]; [|unfold held in M]; tauto.
    + intros _. destruct M as [(v & f & r & M)|M]; [|unfold held in M]; tauto.
  - destruct (out_step s dl sn (y_rdy ev) I) as (s' & o & sn' & E & I' & X & A1 & A2 & A3 & A4 & A5 & _).
    exists s', o, dl, sn'. sp; auto. exists []. symmetry. apply app_nil_r.
Qed.

Lemma shown_app : forall a b, shown (a ++ b) = shown a ++ shown b.
Proof. intros. apply flat_map_app. Qed.
Lemma taken_app : forall a b, taken (a ++ b) = taken a ++ taken b.
Proof. intros. apply flat_map_app. Qed.

Lemma threads_step : forall ev l s dl sn, NoDup l -> inv s dl sn -> (In TEj l -> fr s) ->
  exists s' o dl' sn', y_threads c ev l s = Some (s', o) /\ inv s' dl' sn' /\
    (exists nd, dl' = dl ++ nd) /\ (exists nw, sn' = sn ++ nw /\ shown o = map (xcontents (y_w c)) nw).
Proof.
  intros ev l. induction l as [|t l IH]; intros s dl sn ND I Fr; cbn [y_threads].
  - exists s, [], dl, sn. sp; auto; exists []; rewrite ?app_nil_r; auto.
  - inversion ND as [|x y Hn ND']; subst.
    destruct (thread_step ev t s dl sn I) as (s1 & o1 & dl1 & sn1 & E1 & I1 & (nd & D1) & (nw & S1 & S1') & P1 & P2).
    { intros ->. apply Fr. left. reflexivity. }
    destruct (IH s1 dl1 sn1 ND' I1) as (s2 & o2 & dl2 & sn2 & E2 & I2 & (nd2 & D2) & (nw2 & S2 & S2')).
    { intros Hin v. rewrite P1, P2; [apply Fr; right; auto|]. intros ->. contradiction. }
    rewrite E1, E2. exists s2, (o1 ++ o2), dl2, sn2. sp; auto.
    + exists (nd ++ nd2). rewrite D2, D1, app_assoc. reflexivity.
    + exists (nw ++ nw2). rewrite S2, S1, app_assoc. split; auto. rewrite shown_app, S1', S2', map_app. reflexivity.
Qed.

Lemma inv_commit : forall s dl sn, inv s dl sn -> inv (y_commit s) dl sn /\ fr (y_commit s).
Proof.
  intros s dl sn I. split; [|intros v; reflexivity].
  constructor; unfold y_commit; fields; try (destruct I; assumption).
  - auto.
  - intros D. destruct (i_busy _ _ _ I D) as (v & q & B1 & B2 & B3). exists v, q. sp; auto.
    pose proof (i_pushc _ _ _ I v). lia.
Qed.

Lemma step_step : forall ev s dl sn, NoDup (y_ths ev) -> inv s dl sn -> fr s ->
  exists s' o dl' sn', y_step c ev s = Some (s', o) /\ inv s' dl' sn' /\ fr s' /\
    (exists nd, dl' = dl ++ nd) /\ (exists nw, sn' = sn ++ nw /\ shown o = map (xcontents (y_w c)) nw).
Proof.
  intros ev s dl sn ND I F.
  destruct (threads_step ev (y_ths ev) s dl sn ND I (fun _ => F)) as (s' & o & dl' & sn' & E & I' & X).
  destruct (inv_commit _ _ _ I') as [I2 F2].
  unfold y_step. rewrite E. exists (y_commit s'), o, dl', sn'. sp; try apply X; auto.
Qed.

Lemma run_step : forall evs s dl sn, Forall ok_yinstant evs -> inv s dl sn -> fr s ->
  exists s' o dl' sn', y_run c evs s = Some (s', o) /\ inv s' dl' sn' /\ fr s' /\
    (exists nd, dl' = dl ++ nd) /\ (exists nw, sn' = sn ++ nw /\ shown o = map (xcontents (y_w c)) nw).
Proof.
  induction evs as [|ev evs IH]; intros s dl sn Ok I F; cbn [y_run].
  - exists s, [], dl, sn. sp; auto; exists []; rewrite ?app_nil_r; auto.
  - apply Forall_cons_iff in Ok. destruct Ok as [Ok1 Ok2].
    destruct (step_step ev s dl sn Ok1 I F) as (s1 & o1 & dl1 & sn1 & E1 & I1 & F1 & (nd & D1) & (nw & S1 & S1')).
    destruct (IH s1 dl1 sn1 Ok2 I1 F1) as (s2 & o2 & dl2 & sn2 & E2 & I2 & F2 & (nd2 & D2) & (nw2 & S2 & S2')).
    rewrite E1, E2. exists s2, (o1 ++ o2), dl2, sn2. sp; auto.
    + exists (nd ++ nd2). rewrite D2, D1, app_assoc. reflexivity.
    + exists (nw ++ nw2). rewrite S2, S1, app_assoc. split; auto. rewrite shown_app, S1', S2', map_app. reflexivity.
Qed.

(** ** Progress *)

Notation sumf := AxisMasterProofs.sumf.
Definition meas (s : yst) : nat :=
  6 * length (yin s) + 5 * length (olist (ypend s)) + 4 * sumf (ntypes c) (fun v => length (yej s v)) + wout s.

Definition same (s s' : yst) : Prop :=
  yin s' = yin s /\ ypend s' = ypend s /\ yej s' = yej s /\ youtq s' = youtq s /\ yhold s' = yhold s /\
  yport s' = yport s /\ ypushc s' = ypushc s /\ ypushn s' = ypushn s.

Definition stuck (t : ythread) (ev : yinstant) (s : yst) : Prop :=
  match t with
  | TEj => y_avail ev = true -> (ypend s = None /\ yin s = []) \/
             exists f, ypend s = Some f /\ y_depth c <= length (yej s (num (xf_type f)))
  | TDe => 2 <= length (youtq s) \/ forall v, v < ntypes c -> tails (yej s v) = 0
  | TOu => (forall t, y_rdy ev t = true) -> youtq s = [] /\ yhold s = None /\ yport s = None
  end.

Lemma same_refl : forall s, same s s.
Proof. intros. unfold same. sp; auto. Qed.
Lemma same_trans : forall a b d, same a b -> same b d -> same a d.
Proof. intros a b d H1 H2. unfold same in *. sp; intuition congruence. Qed.
Lemma stuck_same : forall t ev s s', same s s' -> stuck t ev s' -> stuck t ev s.
Proof.
  intros t ev s s' (A1 & A2 & A3 & A4 & A5 & A6 & A7 & A8) H. destruct t; cbn [stuck] in *;
    rewrite ?A1, ?A2, ?A3, ?A4, ?A5, ?A6 in H; exact H.
Qed.
Lemma same_fr : forall s s', same s s' -> fr s -> fr s'.
Proof. intros s s' (_ & _ & _ & _ & _ & _ & A & B) F v. rewrite A, B. apply F. Qed.

Lemma thread_meas : forall ev t s dl sn s' o, inv s dl sn -> (t = TEj -> fr s) ->
  y_thread c ev t s = Some (s', o) ->
  meas s' < meas s \/ (meas s' = meas s /\ same s s' /\ (fr s -> stuck t ev s)).
Proof.
  intros ev t s dl sn s' o I Fr E. destruct t; cbn [y_thread] in E.
  - destruct (eject_step s dl sn (y_avail ev) I (Fr eq_refl)) as (s1 & o1 & E1 & _ & _ & _ & _ & Q1 & Q2 & Q3 & M).
    rewrite E1 in E. injection E as -> ->.
    assert (WO : wout s' = wout s) by (unfold wout; rewrite Q1, Q2, Q3; reflexivity).
    destruct M as [(-> & M)|(f & Nv & M & K)].
    + right. split; [reflexivity|]. split; [apply same_refl|]. intros _. exact M.
    + left. unfold meas. rewrite WO.
      destruct K as [(K1 & K2 & K3)|(K1 & K2)].
      * rewrite K1, K2, K3 in *. destruct M as [M|(_ & _ & M)].
        -- assert (L : length (olist (None : option xflit) ++ yin s) = length (f :: olist (Some f) ++ yin s')) by (rewrite M; reflexivity).
           cbn in L. cbn [olist length]. lia.
        -- rewrite M. cbn [olist length]. lia.
      * rewrite K2. pose proof (AxisMasterProofs.sumf_one (ntypes c) (fun v => length (yej s v))
          (fun v => length (fupd (yej s) (num (xf_type f)) (yej s (num (xf_type f)) ++ [f]) v)) (num (xf_type f)) Nv) as X.
        cbv beta in X. rewrite fupd_same, app_length in X. cbn [length] in X.
        assert (Y : forall j, j <> num (xf_type f) -> length (fupd (yej s) (num (xf_type f)) (yej s (num (xf_type f)) ++ [f]) j) = length (yej s j))
          by (intros j N; rewrite fupd_other; auto).
        specialize (X Y).
        destruct M as [M|(M1 & M2 & M3)]; [|congruence].
        assert (L : length (olist (ypend s) ++ yin s) = length (f :: olist (ypend s') ++ yin s')) by (rewrite M; reflexivity).
        rewrite K1 in *. cbn [olist app length] in L. rewrite app_length in L.
        assert (length (olist (ypend s)) <= 1) by (destruct (ypend s); cbn; lia).
        cbn [olist length]. lia.
  - destruct (depack_step s dl sn I) as (s1 & o1 & dl' & E1 & _ & _ & _ & M).
    rewrite E1 in E. injection E as -> ->.
    destruct M as [(v & f & r & Hv & A1 & A2 & A3 & A4 & A5 & A6 & A7 & A8 & A9)|M].
    + left. pose proof (AxisMasterProofs.sumf_one (ntypes c) (fun v => length (yej s v))
          (fun v => length (yej s' v)) v Hv) as X.
      cbv beta in X. rewrite A2 in X. rewrite fupd_same, A1 in X. cbn [length] in X.
      assert (Y : forall j, j <> v -> length (fupd (yej s) v r j) = length (yej s j))
          by (intros j N; rewrite fupd_other; auto).
      specialize (X Y). unfold meas, wout. rewrite A2, A3, A4, A5, A6.
      assert (length (youtq s') <= S (length (youtq s))).
      { destruct A9 as [->|(p & ->)]; [|rewrite app_length; cbn]; lia. }
      lia.
    + right. destruct M as (A1 & A2 & A3 & A4 & A5 & A6 & A7 & A8 & A9). split; [|split].
      * unfold meas, wout. rewrite A1, A2, A3, A4, A5, A8. reflexivity.
      * unfold same. sp; auto.
      * intros F. cbn [stuck]. destruct A9 as [A9|(_ & _ & A9)]; auto. right. intros v Hv.
        specialize (A9 v Hv). rewrite F, (i_push _ _ _ I v) in A9. lia.
  - destruct (out_step s dl sn (y_rdy ev) I) as (s1 & o1 & sn' & E1 & _ & _ & A1 & A2 & A3 & A4 & A5 & _ & M & _).
    rewrite E1 in E. injection E as -> ->. destruct M as [M|(M1 & M2 & M3 & M4)].
    + left. unfold meas. rewrite A1, A2, A3. lia.
    + right. split; [|split].
      * unfold meas, wout. rewrite A1, A2, A3, M1, M2, M3. reflexivity.
      * unfold same. sp; auto.
      * intros _. exact M4.
Qed.

Lemma threads_meas : forall ev l s dl sn s' o, NoDup l -> inv s dl sn -> (In TEj l -> fr s) ->
  y_threads c ev l s = Some (s', o) ->
  meas s' <= meas s /\
  (fr s -> meas s' < meas s \/ (same s s' /\ forall t, In t l -> stuck t ev s)).
Proof.
  intros ev l. induction l as [|t l IH]; intros s dl sn s' o ND I Fr E; cbn [y_threads] in E.
  - injection E as <- <-. split; auto. intros F. right. split; [apply same_refl|]. intros t [].
  - inversion ND as [|x y Hn ND']; subst.
    destruct (thread_step ev t s dl sn I) as (s1 & o1 & dl1 & sn1 & E1 & I1 & _ & _ & P1 & P2).
    { intros ->. apply Fr. left. reflexivity. }
    rewrite E1 in E. destruct (y_threads c ev l s1) as [[s2 o2]|] eqn:E2; [|discriminate]. injection E as <- <-.
    destruct (IH s1 dl1 sn1 s2 o2 ND' I1) as (N1 & N2); auto.
    { intros Hin v. rewrite P1, P2; [apply Fr; right; auto|]. intros ->. contradiction. }
    destruct (thread_meas ev t s dl sn s1 o1 I) as [M|(M1 & M2 & M3)]; auto.
    { intros ->. apply Fr. left; reflexivity. }
    + split; [lia|]. intros _. left. lia.
    + split; [lia|]. intros F. destruct (N2 (same_fr _ _ M2 F)) as [N3|(N3 & N4)]; [left; lia|].
      right. split; [eapply same_trans; eauto|]. intros t' [<-|Hin]; auto. eapply stuck_same; eauto.
Qed.

Lemma commit_same : forall s, fr s -> (forall v, ypushn (y_commit s) v = ypushc s v).
Proof. intros s F v. symmetry. apply F. Qed.

Lemma run_meas : forall evs s dl sn s' o, Forall ok_yinstant evs -> inv s dl sn -> fr s ->
  y_run c evs s = Some (s', o) ->
  meas s' <= meas s /\
  (meas s' < meas s \/ forall ev t, In ev evs -> In t (y_ths ev) -> stuck t ev s).
Proof.
  induction evs as [|ev evs IH]; intros s dl sn s' o Ok I F E; cbn [y_run] in E.
  - injection E as <- <-. split; auto. right. intros ev t [].
  - apply Forall_cons_iff in Ok. destruct Ok as [Ok1 Ok2].
    destruct (step_step ev s dl sn Ok1 I F) as (s1 & o1 & dl1 & sn1 & E1 & I1 & F1 & _).
    rewrite E1 in E. destruct (y_run c evs s1) as [[s2 o2]|] eqn:E2; [|discriminate]. injection E as <- <-.
    unfold y_step in E1. destruct (y_threads c ev (y_ths ev) s) as [[s0 o0]|] eqn:E0; [|discriminate].
    injection E1 as <- <-.
    destruct (threads_meas ev (y_ths ev) s dl sn s0 o0 Ok1 I (fun _ => F) E0) as (M1 & M2).
    assert (MC : meas (y_commit s0) = meas s0) by reflexivity.
    destruct (IH _ _ _ _ _ Ok2 I1 F1 E2) as (N1 & N2). split; [lia|].
    destruct (M2 F) as [M3|(M3 & M4)]; [left; lia|].
    destruct N2 as [N2|N2]; [left; lia|]. right. intros ev' t [<-|Hin] Ht; auto.
    specialize (N2 ev' t Hin Ht). destruct M3 as (A1 & A2 & A3 & A4 & A5 & A6 & A7 & A8).
    destruct t; cbn [stuck y_commit yin ypend yej youtq yhold yport] in *;
      rewrite ?A1, ?A2, ?A3, ?A4, ?A5, ?A6 in N2; exact N2.
Qed.

Lemma run_app : forall a b s, y_run c (a ++ b) s =
  match y_run c a s with
  | None => None
  | Some (s1, o1) => match y_run c b s1 with None => None | Some (s2, o2) => Some (s2, o1 ++ o2) end
  end.
Proof.
  induction a as [|x a IH]; intros b s; cbn [app y_run].
  - destruct (y_run c b s) as [[s2 o2]|]; reflexivity.
  - destruct (y_step c x s) as [[s1 o1]|]; auto. rewrite IH.
    destruct (y_run c a s1) as [[s2 o2]|]; auto. destruct (y_run c b s2) as [[s3 o3]|]; auto.
    rewrite app_assoc. reflexivity.
Qed.

(** Nothing deliverable is left. *)
Definition drained (s : yst) : Prop :=
  ypend s = None /\ yin s = [] /\ (forall v, v < ntypes c -> tails (yej s v) = 0) /\
  youtq s = [] /\ yhold s = None /\ yport s = None.

(** ** Packets longer than the ejection FIFO *)

Definition jam (s : yst) : Prop := inv s [] [] /\ ydepk s = false /\ forall u, length (yej s u) <= y_depth c.

Lemma jam_tails : (forall t p, In p (ps t) -> y_depth c < length p) -> forall s, jam s ->
  forall v, v < ntypes c -> tails (yej s v) = 0.
Proof.
  intros HL s (I & Dk & Hlen) v Hv. destruct (i_R _ _ _ I v Hv) as (R & R1 & R2). cbn [filter app] in R1.
  assert (HC : cur s v = []). { unfold cur. destruct (yprio s); auto. rewrite Dk. reflexivity. }
  rewrite HC in R2. cbn [app] in R2.
  specialize (Hlen v). destruct R as [|p R'].
  - cbn in R2. symmetry in R2. apply app_eq_nil in R2. destruct R2 as (-> & _). reflexivity.
  - assert (HP : y_depth c < length p) by (apply (HL (typ v)); rewrite R1; left; reflexivity).
    pose proof (WF (typ v)) as W. rewrite R1 in W. apply Forall_cons_iff in W. destruct W as [(_ & W & _) _].
    unfold tails. destruct (filter xf_tail (yej s v)) as [|x l] eqn:E; auto. exfalso.
    assert (Hx : In x (filter xf_tail (yej s v))) by (rewrite E; left; reflexivity).
    apply filter_In in Hx. destruct Hx as (Hx & Tx). apply In_nth_error in Hx. destruct Hx as (j & Hj).
    assert (Lj : j < length (yej s v)) by (apply nth_error_Some; rewrite Hj; discriminate).
    pose proof (f_equal (fun l => nth_error l j) R2) as X. cbv beta in X.
    rewrite (nth_error_app1 (yej s v)) in X by lia. cbn [concat] in X. rewrite nth_error_app1 in X by lia.
    rewrite Hj in X. apply (W j x X) in Tx. lia.
Qed.

Lemma jam_thread : (forall t p, In p (ps t) -> y_depth c < length p) -> forall ev t s, jam s -> (t = TEj -> fr s) ->
  exists s' o, y_thread c ev t s = Some (s', o) /\ jam s' /\ shown o = [] /\ ypushc s' = ypushc s /\
    (t <> TEj -> ypushn s' = ypushn s).
Proof.
  intros HL ev t s J Fr. pose proof (jam_tails HL s J) as T. destruct J as (I & Dk & Hlen). destruct t; cbn [y_thread].
  - destruct (eject_step s [] [] (y_avail ev) I (Fr eq_refl)) as (s' & o & E & I' & D & Pc & Dk' & _).
    exists s', o. split; auto.
    assert (X : forall u, length (yej s' u) <= y_depth c).
    { unfold y_eject in E. revert E.
      destruct (match ypend s with Some f => _ | None => _ end) as [[[f|] q] o'].
      - destruct (fifo_of_vc c (xf_vc f)) as [v|]; [|discriminate].
        destruct (Nat.ltb_spec (length (yej s v)) (y_depth c));
          intros X; injection X as <- <-; fields; auto.
        intros u. unfold fupd. destruct (Nat.eqb_spec u v); auto. rewrite app_length. cbn. lia.
      - intros X. injection X as <- <-. auto. }
    split; [split; [auto|split; [congruence|auto]]|]. sp; auto. congruence.
  - unfold y_depack.
    destruct (if ydepk s then yprio s else y_scan s (ntypes c) (yprio s)) as [|u q'] eqn:Q.
    { exfalso. destruct (ydepk s) eqn:D'; [congruence|].
      pose proof (scan_perm s (ntypes c) (yprio s)) as P. rewrite Q, (i_prio _ _ _ I) in P.
      apply Permutation_nil in P. unfold ntypes in P. destruct (y_side c); discriminate. }
    assert (Hu : u < ntypes c).
    { assert (H : In u (seq 0 (ntypes c))).
      { rewrite <- (i_prio _ _ _ I). destruct (ydepk s); [rewrite Q; left; reflexivity|].
        rewrite <- (scan_perm s (ntypes c)), Q. left. reflexivity. }
      apply in_seq in H. lia. }
    assert (C : complete s u = false).
    { unfold complete. apply Nat.ltb_ge. pose proof (i_pushc _ _ _ I u). pose proof (i_push _ _ _ I u).
      rewrite (T u Hu) in H0. lia. }
    destruct (depack_step s [] [] I) as (s' & o & dl' & E & I' & _ & So & _). unfold y_depack in E. rewrite Q, C in E.
    rewrite C. injection E as Es <-. eexists _, _. split; [reflexivity|]. rewrite Es.
    assert (dl' = []).
    { destruct (i_out _ _ _ I') as (pp & O1 & O2). destruct (i_out _ _ _ I) as (pp0 & P1 & P2). subst s'.
      cbn [yport yhold youtq app] in *. rewrite P1 in O1. symmetry in P2. apply app_eq_nil in P2. destruct P2 as [P2 P3].
      apply app_eq_nil in P3. destruct P3 as [P3 P4]. rewrite P3, P4 in O2.
      destruct pp0; [discriminate|]. destruct pp; [discriminate|]. exact O2. }
    subst dl'. split; [split; [exact I'|]|]; subst s'; fields; auto.
  - destruct (out_step s [] [] (y_rdy ev) I) as (s' & o & sn' & E & I' & (nw & S1 & S2) & A1 & A2 & A3 & A4 & A5 & A6 & _).
    cbn [app] in S1. subst nw. assert (sn' = []).
    { destruct (i_out _ _ _ I') as (pp & O1 & O2). symmetry in O2. apply app_eq_nil in O2. tauto. }
    subst sn'. exists s', o. split; auto. split; [split; [exact I'|split; [congruence|rewrite A1; exact Hlen]]|]. auto.
Qed.

Lemma jam_run : (forall t p, In p (ps t) -> y_depth c < length p) -> forall evs s, Forall ok_yinstant evs -> jam s -> fr s ->
  exists s' o, y_run c evs s = Some (s', o) /\ shown o = [].
Proof.
  intros HL.
  assert (TH : forall ev l s, NoDup l -> jam s -> (In TEj l -> fr s) ->
    exists s' o, y_threads c ev l s = Some (s', o) /\ jam s' /\ shown o = []).
  { intros ev l. induction l as [|t l IH]; intros s ND J F; cbn [y_threads]; [exists s, []; auto|].
    inversion ND as [|x y Hn ND']; subst.
    destruct (jam_thread HL ev t s J) as (s1 & o1 & -> & J1 & D1 & P1 & P2).
    { intros ->. apply F. left. reflexivity. }
    destruct (IH s1 ND' J1) as (s2 & o2 & -> & J2 & D2).
    { intros Hin v. rewrite P1, P2; [apply F; right; auto|]. intros ->. contradiction. }
    exists s2, (o1 ++ o2). sp; auto. rewrite shown_app, D1, D2. reflexivity. }
  induction evs as [|ev evs IH]; intros s Ok J F; cbn [y_run]; [exists s, []; auto|].
  apply Forall_cons_iff in Ok. destruct Ok as [Ok1 Ok2].
  unfold y_step. destruct (TH ev (y_ths ev) s Ok1 J (fun _ => F)) as (s1 & o1 & -> & J1 & D1).
  assert (J1' : jam (y_commit s1)).
  { destruct J1 as (I1 & Dk & L). split; [apply inv_commit; auto|]. split; auto. }
  destruct (IH _ Ok2 J1' (fun v => eq_refl)) as (s2 & o2 & -> & D2). exists s2, (o1 ++ o2). sp; auto.
  rewrite shown_app, D1, D2. reflexivity.
Qed.
Hypothesis Short : forall t p, In p (ps t) -> length p <= y_depth c.

Lemma idle_no_tails : forall s dl sn, inv s dl sn -> fr s -> (forall v, v < ntypes c -> tails (yej s v) = 0) ->
  forall v, cur s v = [].
Proof.
  intros s dl sn I F T v. unfold cur. destruct (yprio s) as [|u q] eqn:P; auto.
  destruct (ydepk s) eqn:D; auto. exfalso.
  destruct (i_busy _ _ _ I D) as (v' & q' & B1 & _ & B2). rewrite P in B1. injection B1 as <- <-.
  assert (Hu : u < ntypes c).
  { assert (H : In u (seq 0 (ntypes c))) by (rewrite <- (i_prio _ _ _ I), P; left; reflexivity).
    apply in_seq in H. lia. }
  rewrite F, (i_push _ _ _ I u), (T u Hu) in B2. lia.
Qed.

Lemma stuck_drained : forall s dl sn e1 e2 e3, inv s dl sn -> fr s ->
  stuck TEj e1 s -> y_avail e1 = true -> stuck TDe e2 s -> stuck TOu e3 s -> (forall t, y_rdy e3 t = true) ->
  drained s.
Proof.
  intros s dl sn e1 e2 e3 I F S1 A1 S2 S3 A3. cbn [stuck] in *.
  destruct (S3 A3) as (O1 & O2 & O3). destruct S2 as [S2|S2]; [rewrite O1 in S2; cbn in S2; lia|].
  destruct (S1 A1) as [(P1 & P2)|(f & P1 & P2)]; [unfold drained; sp; auto|]. exfalso.
  destruct (i_in _ _ _ I f (or_intror P1)) as [T1 _]. destruct (num_typ _ T1) as [T2 T3].
  set (v := num (xf_type f)) in *. destruct (i_R _ _ _ I v T3) as (R & E1 & E2).
  rewrite (idle_no_tails _ _ _ I F S2) in E2. cbn [app] in E2.
  assert (PV : pendv s v = [f]).
  { unfold pendv. rewrite P1. unfold onf. fold v. rewrite Nat.eqb_refl. reflexivity. }
  rewrite PV in E2. pose proof (R_wf _ _ _ E1) as WR.
  destruct R as [|p R]; [cbn in E2; destruct (yej s v); discriminate|].
  apply Forall_cons_iff in WR. destruct WR as [Wp _]. cbn [concat] in E2.
  destruct (packet_prefix _ _ _ _ _ _ Wp (S2 v T3) E2) as (p2 & Ep & _).
  assert (L : length p <= y_depth c).
  { apply (Short (typ v)). rewrite E1. apply in_or_app. right. left. reflexivity. }
  rewrite Ep, app_length in L. cbn [length] in L. lia.
Qed.

Lemma drained_run : forall evs s dl sn s' o, Forall ok_yinstant evs -> inv s dl sn -> fr s ->
  y_run c evs s = Some (s', o) -> drained s -> drained s'.
Proof.
  induction evs as [|ev evs IH]; intros s dl sn s' o Ok I F E D; cbn [y_run] in E.
  - injection E as <- <-. exact D.
  - apply Forall_cons_iff in Ok. destruct Ok as [Ok1 Ok2].
    destruct (step_step ev s dl sn Ok1 I F) as (s1 & o1 & dl1 & sn1 & E1 & I1 & F1 & _).
    rewrite E1 in E. destruct (y_run c evs s1) as [[s2 o2]|] eqn:E2; [|discriminate]. injection E as <- <-.
    eapply (IH s1); eauto. clear E2 IH.
    assert (G : forall l a dla sna b ob, NoDup l -> inv a dla sna -> fr a -> drained a ->
      y_threads c ev l a = Some (b, ob) -> drained b /\ fr b).
    { induction l as [|t l IHl]; intros a dla sna b ob ND Ia Fa Da Eb; cbn [y_threads] in Eb.
      - injection Eb as <- <-. auto.
      - inversion ND as [|x y Hn ND']; subst.
        destruct (thread_step ev t a dla sna Ia (fun _ => Fa)) as (a1 & oa & dl2 & sn2 & Ea & Ia1 & _).
        rewrite Ea in Eb. destruct (y_threads c ev l a1) as [[b2 ob2]|] eqn:Eb2; [|discriminate]. injection Eb as <- <-.
        assert (SM : same a a1).
        { destruct Da as (D1 & D2 & D3 & D4 & D5 & D6). destruct t; cbn [y_thread] in Ea.
          - unfold y_eject in Ea. rewrite D1, D2 in Ea. destruct (y_avail ev); injection Ea as <- <-; apply same_refl.
          - unfold y_depack in Ea.
            destruct (if ydepk a then yprio a else y_scan a (ntypes c) (yprio a)) as [|u q'] eqn:Q; [discriminate|].
            assert (Hu : u < ntypes c).
            { assert (H : In u (seq 0 (ntypes c))).
              { rewrite <- (i_prio _ _ _ Ia). destruct (ydepk a); [rewrite Q; left; reflexivity|].
                rewrite <- (scan_perm a (ntypes c)), Q. left. reflexivity. }
              apply in_seq in H. lia. }
            assert (C : complete a u = false).
            { unfold complete. apply Nat.ltb_ge. rewrite Fa, (i_push _ _ _ Ia u), (D3 u Hu). lia. }
            rewrite C in Ea. injection Ea as <- <-. unfold same. fields. sp; auto.
          - unfold y_out in Ea. rewrite D4, D5 in Ea. injection Ea as <- <-. unfold same. fields. sp; auto. }
        eapply (IHl a1); eauto.
        + eapply same_fr; eauto.
        + destruct SM as (A1 & A2 & A3 & A4 & A5 & A6 & _). unfold drained in *.
          rewrite A1, A2, A3, A4, A5, A6. exact Da. }
    unfold y_step in E1. destruct (y_threads c ev (y_ths ev) s) as [[s0 o0]|] eqn:E0; [|discriminate].
    injection E1 as <- <-. destruct (G _ _ _ _ _ _ Ok1 I F D E0) as [G1 _]. exact G1.
Qed.

Lemma rounds_drain : forall n evs, yrounds n evs -> forall s dl sn s' o, Forall ok_yinstant evs -> inv s dl sn -> fr s ->
  meas s < n -> y_run c evs s = Some (s', o) -> drained s'.
Proof.
  intros n evs H. induction H as [evs|n seg evs H1 H2 H3 H4 IH]; intros s dl sn s' o Ok I F M E; [lia|].
  apply Forall_app in Ok. destruct Ok as [Ok1 Ok2].
  rewrite run_app in E. destruct (run_step seg s dl sn Ok1 I F) as (s1 & o1 & dl1 & sn1 & E1 & I1 & F1 & _).
  rewrite E1 in E. destruct (y_run c evs s1) as [[s2 o2]|] eqn:E2; [|discriminate]. injection E as <- <-.
  destruct (run_meas seg s dl sn s1 o1 Ok1 I F E1) as (N1 & [N2|N2]).
  - eapply IH; eauto. lia.
  - eapply (drained_run evs s1); eauto. eapply (drained_run seg s); eauto.
    destruct H1 as (e1 & A1 & A2 & A3). destruct H2 as (e2 & B1 & B2). destruct H3 as (e3 & C1 & C2 & C3).
    eapply (stuck_drained s dl sn e1 e2 e3); eauto.
Qed.
End Y.

(** ** Theorems *)

Lemma of_onf : forall c t f, out_type (y_side c) t = true -> out_type (y_side c) (xf_type f) = true ->
  of_type t f = onf (num t) f.
Proof. intros c t f H1 H2. unfold of_type, onf. destruct (y_side c); destruct t; try discriminate; destruct (xf_type f); try discriminate; reflexivity. Qed.

Lemma is_onp : forall c t p, out_type (y_side c) t = true -> out_type (y_side c) (ptype p) = true ->
  is_type t p = onp (num t) p.
Proof. intros c t f H1 H2. unfold is_type, onp. destruct (y_side c); destruct t; try discriminate; destruct (ptype f); try discriminate; reflexivity. Qed.

Lemma filter_ext_in' : forall A (f g : A -> bool) l, (forall x, In x l -> f x = g x) -> filter f l = filter g l.
Proof. intros A f g l H. induction l as [|x l IH]; cbn; auto. rewrite (H x (or_introl eq_refl)), IH; auto. intros; apply H; right; auto. Qed.

Definition more_of (c : ycfg) (input : list xflit) (ps : xtype -> list (list xflit)) (v : nat) : list xflit :=
  skipn (length (filter (onf v) input)) (concat (ps (typ c v))).

Lemma good_inv : forall c input ps, good_xinput c input ps ->
  inv c ps (more_of c input ps) (y_init c input) [] [] /\ fr (y_init c input) /\
  (forall t, Forall (wf_xpacket (y_w c) t) (ps t)).
Proof.
  intros c input ps (H1 & H2). split; [|split; [intros v; reflexivity|intros t; apply H2]].
  constructor; unfold y_init; fields; auto; try discriminate.
  - intros v Hv. exists (ps (typ c v)). split; auto. unfold cur, pendv, more_of. fields. destruct (typ_num c v Hv) as [T1 T2].
    destruct (H2 (typ c v)) as (_ & _ & more & Em).
    assert (EF : filter (of_type (typ c v)) input = filter (onf v) input).
    { apply filter_ext_in'. intros f Hf. destruct (H1 f Hf) as [T3 _]. rewrite (of_onf c); auto. rewrite T1. reflexivity. }
    rewrite EF in Em. rewrite <- Em, skipn_app, skipn_all, Nat.sub_diag. cbn [skipn app].
    destruct (seq 0 (ntypes c)); reflexivity.
  - exists None. auto.
  - intros f [Hf|Hf]; [auto|discriminate].
Qed.

Lemma dl_types : forall c ps more s dl sn t, inv c ps more s dl sn -> (forall t, out_type (y_side c) t = false -> ps t = []) ->
  exists rest, ps t = filter (is_type t) dl ++ rest.
Proof.
  intros c ps more s dl sn t I H. pose proof (i_dl _ _ _ _ _ _ I) as HD. rewrite Forall_forall in HD.
  destruct (out_type (y_side c) t) eqn:T.
  - destruct (num_typ c t T) as [T1 T2]. destruct (i_R _ _ _ _ _ _ I (num t) T2) as (R & E & _).
    rewrite T1 in E. exists R. rewrite E. f_equal. apply filter_ext_in'. intros p Hp. symmetry. apply (is_onp c); auto. apply HD. auto.
  - exists []. rewrite H, app_nil_r by auto. symmetry.
    assert (X : filter (is_type t) dl = filter (fun _ => false) dl).
    { apply filter_ext_in'. intros p Hp. destruct (HD p Hp) as [T3 _]. unfold is_type.
      destruct (y_side c); destruct t; try discriminate; destruct (ptype p); try discriminate; reflexivity. }
    rewrite X. clear. induction dl; auto.
Qed.

Theorem run_safe : forall c input ps evs, good_xinput c input ps -> Forall ok_yinstant evs ->
  exists s o, y_run c evs (y_init c input) = Some (s, o) /\
  exists dl rest, (forall t, exists rest, ps t = filter (is_type t) dl ++ rest) /\
    map (xcontents (y_w c)) dl = shown o ++ rest.
Proof.
  intros c input ps evs G Ok. destruct (good_inv c input ps G) as (I & F & WF).
  destruct (run_step c ps _ WF evs _ _ _ Ok I F) as (s & o & dl & sn & E & I' & _ & _ & (nw & S1 & S2)).
  exists s, o. split; auto. cbn [app] in S1. subst nw.
  destruct (i_out _ _ _ _ _ _ I') as (pp & _ & O2).
  exists dl, (map (xcontents (y_w c)) (olist pp ++ olist (yhold s) ++ youtq s)). split.
  - intros t. eapply dl_types; eauto. apply G.
  - rewrite S2, O2, <- map_app. reflexivity.
Qed.

(** At rest everything that arrived complete has been shown. *)
Theorem run_rest : forall c input ps evs s o, good_xinput c input ps -> Forall ok_yinstant evs ->
  y_run c evs (y_init c input) = Some (s, o) -> drained c s ->
  exists dl, (forall t, exists rest part, ps t = filter (is_type t) dl ++ rest /\
      filter (of_type t) input = concat (filter (is_type t) dl) ++ part /\ (forall f, In f part -> xf_tail f = false) /\
      (out_type (y_side c) t = true -> part = yej s (num t)) /\ (out_type (y_side c) t = false -> part = [])) /\
    map (xcontents (y_w c)) dl = shown o.
Proof.
  intros c input ps evs s o G Ok E0 D. destruct (good_inv c input ps G) as (I & F & WF).
  destruct (run_step c ps _ WF evs _ _ _ Ok I F) as (s1 & o1 & dl & sn & E & I' & F' & _ & (nw & S1 & S2)).
  rewrite E0 in E. injection E as <- <-. cbn [app] in S1. subst nw.
  destruct D as (D1 & D2 & D3 & D4 & D5 & D6).
  destruct (i_out _ _ _ _ _ _ I') as (pp & O1 & O2). rewrite D6 in O1.
  assert (pp = None) by (destruct pp; [discriminate|reflexivity]). subst pp.
  rewrite D4, D5 in O2. cbn [olist app] in O2. rewrite app_nil_r in O2. subst sn.
  exists dl. split; auto. intros t.
  destruct (dl_types _ _ _ _ _ _ t I') as (rest & Er); [apply G|]. exists rest.
  destruct (out_type (y_side c) t) eqn:T.
  - destruct (num_typ c t T) as [T1 T2]. destruct (i_R _ _ _ _ _ _ I' (num t) T2) as (R & E1 & E2).
    rewrite T1 in E1. exists (yej s (num t)). split; auto.
    rewrite (idle_no_tails c ps _ _ _ _ I' F' D3), D2 in E2. unfold pendv in E2. rewrite D1 in E2. cbn [app filter] in E2.
    pose proof (i_dl _ _ _ _ _ _ I') as HD. rewrite Forall_forall in HD.
    assert (EQ : filter (onp (num t)) dl = filter (is_type t) dl).
    { apply filter_ext_in'. intros p Hp. symmetry. apply (is_onp c); auto. apply HD. auto. }
    rewrite EQ in E1. split.
    + destruct G as (G1 & G2). destruct (G2 t) as (_ & _ & mr & Em).
      assert (EF : filter (of_type t) input = filter (onf (num t)) input).
      { apply filter_ext_in'. intros f Hf. destruct (G1 f Hf) as [T3 _]. apply (of_onf c); auto. }
      assert (MM : more_of c input ps (num t) = mr).
      { unfold more_of. rewrite T1, <- EF, <- Em, skipn_app, skipn_all, Nat.sub_diag. reflexivity. }
      rewrite MM in E2. rewrite E1, concat_app, E2, app_assoc in Em. apply app_inv_tail in Em. exact Em.
    + split; [intros f Hf; eapply tails_0_in; eauto|]. split; [reflexivity|congruence].
  - exists []. split; auto. destruct G as (G1 & G2). destruct (G2 t) as (_ & G3 & _).
    assert (Z : filter (is_type t) dl = []).
    { rewrite (G3 T) in Er. destruct (filter (is_type t) dl); [auto|discriminate]. }
    rewrite Z. split; [|split; [intros f []|split; [congruence|reflexivity]]]. cbn [concat app].
    assert (X : filter (of_type t) input = filter (fun _ => false) input).
    { apply filter_ext_in'. intros f Hf. destruct (G1 f Hf) as [T3 _]. unfold of_type.
      destruct (y_side c); destruct t; try discriminate; destruct (xf_type f); try discriminate; reflexivity. }
    rewrite X. clear. induction input; auto.
Qed.

Theorem run_progress : forall c input ps evs, good_xinput c input ps -> Forall ok_yinstant evs ->
  (forall t p, In p (ps t) -> length p <= y_depth c) ->
  yrounds (6 * length input + 1) evs ->
  exists s o, y_run c evs (y_init c input) = Some (s, o) /\
  exists dl, (forall t, exists rest part, ps t = filter (is_type t) dl ++ rest /\
      filter (of_type t) input = concat (filter (is_type t) dl) ++ part /\ forall f, In f part -> xf_tail f = false) /\
    map (xcontents (y_w c)) dl = shown o.
Proof.
  intros c input ps evs G Ok Sh Rd. destruct (good_inv c input ps G) as (I & F & WF).
  destruct (run_step c ps _ WF evs _ _ _ Ok I F) as (s & o & dl & sn & E & I' & F' & _ & (nw & S1 & S2)).
  exists s, o. split; auto.
  assert (D : drained c s).
  { refine (rounds_drain c ps _ WF Sh _ evs Rd _ _ _ s o Ok I F _ E).
    assert (Z : meas c (y_init c input) = 6 * length input).
    { unfold meas, wout, AxisMasterProofs.sumf, ntypes. cbn [y_init yin ypend yej youtq yhold yport olist length].
      destruct (y_side c); cbn; lia. }
    rewrite Z. lia. }
  destruct (run_rest c input ps evs s o G Ok E D) as (dl' & H1 & H2). exists dl'. split; auto.
  intros t. destruct (H1 t) as (rest & part & A & B & C & _). exists rest, part. auto.
Qed.

Theorem run_jam : forall c input ps evs, good_xinput c input ps -> Forall ok_yinstant evs ->
  (forall t p, In p (ps t) -> y_depth c < length p) ->
  exists s o, y_run c evs (y_init c input) = Some (s, o) /\ shown o = [].
Proof.
  intros c input ps evs G Ok HL. destruct (good_inv c input ps G) as (I & F & WF).
  apply (jam_run c ps (more_of c input ps) WF HL evs _ Ok); auto. split; [exact I|]. split; [reflexivity|]. intros u. cbn. lia.
Qed.

(** ** Ready signals *)

Lemma show_chan : forall w f r t, show w (f :: r) = Some t -> chan_of t = xf_type f.
Proof.
  intros w f r t H. unfold show in H. destruct (_ <? _)%Z; [|discriminate]. injection H as <-.
  destruct (xf_type f); reflexivity.
Qed.

(** What one thread does to the port and shows. *)
Lemma thread_port : forall c ev t s s' o, y_thread c ev t s = Some (s', o) ->
  (t <> TOu -> yport s' = yport s /\ yhold s' = yhold s /\ shown o = [] /\ taken o = []) /\
  (t = TOu -> (forall x, yport s' = Some x -> y_rdy ev (chan_of x) = true) /\
     shown o = olist (yport s) /\
     taken o = filter (fun x => y_rdy ev (chan_of x)) (olist (yport s)) /\
     (forall f r, yhold s = Some (f :: r) -> y_rdy ev (xf_type f) = false -> yport s' = None /\ yhold s' = yhold s)).
Proof.
  intros c ev t s s' o E. split; intros T.
  - destruct t; try congruence; cbn [y_thread] in E.
    + unfold y_eject in E.
      destruct (match ypend s with Some f => _ | None => _ end) as [[p q] o'] eqn:Er.
      assert (HO : shown o' = [] /\ taken o' = []).
      { destruct (ypend s); [|destruct (y_avail ev); [destruct (yin s)|]]; injection Er as <- <- <-; auto. }
      destruct p as [f|].
      * destruct (fifo_of_vc c (xf_vc f)); [|discriminate]. destruct (Nat.ltb _ _); injection E as <- <-; fields; tauto.
      * injection E as <- <-. tauto.
    + unfold y_depack in E. destruct (if ydepk s then _ else _) as [|v r]; [discriminate|].
      destruct (complete s v); [|injection E as <- <-; auto].
      destruct (Nat.ltb _ 2); [|injection E as <- <-; auto].
      destruct (yej s v) as [|f rest]; [discriminate|]. destruct (xf_tail f).
      * destruct (Nat.leb _ _); [|discriminate]. injection E as <- <-. auto.
      * injection E as <- <-. auto.
  - subst t. cbn [y_thread] in E. unfold y_out in E.
    set (o0 := match yport s with Some t => [YSeen t (y_rdy ev (chan_of t))] | None => [] end) in *.
    assert (HS : shown o0 = olist (yport s) /\ taken o0 = filter (fun x => y_rdy ev (chan_of x)) (olist (yport s))).
    { unfold o0. destruct (yport s) as [t|]; auto. cbn. destruct (y_rdy ev (chan_of t)); auto. }
    destruct (match yhold s with Some _ => _ | None => _ end) as [h q] eqn:Eh.
    destruct h as [[|f r]|].
    + discriminate.
    + destruct (out_type (y_side c) (xf_type f) && y_rdy ev (xf_type f)) eqn:Z.
      * apply andb_true_iff in Z. destruct Z as [Z1 Z2].
        destruct (show (y_w c) (f :: r)) as [t|] eqn:Sh; [|discriminate]. injection E as <- <-. fields.
        sp; try tauto.
        -- intros x H. injection H as <-. rewrite (show_chan _ _ _ _ Sh). exact Z2.
        -- intros f0 r0 H Hr. exfalso. rewrite H in Eh. injection Eh as <- <- <-. congruence.
      * injection E as <- <-. fields. sp; try tauto; [discriminate|].
        intros f0 r0 H Hr. split; auto. rewrite H in Eh. injection Eh as <- <- <-. auto.
    + injection E as <- <-. fields. sp; try tauto; [discriminate|].
      intros f0 r0 H Hr. rewrite H in Eh. discriminate.
Qed.

Definition is_out (t : ythread) : bool := match t with TOu => true | _ => false end.

Lemma threads_port : forall c ev l s s' o, NoDup l -> y_threads c ev l s = Some (s', o) ->
  (In TOu l /\ (forall x, yport s' = Some x -> y_rdy ev (chan_of x) = true) /\
     shown o = olist (yport s) /\ taken o = filter (fun x => y_rdy ev (chan_of x)) (olist (yport s)) /\
     (forall f r, yhold s = Some (f :: r) -> y_rdy ev (xf_type f) = false -> yport s' = None /\ yhold s' = yhold s)) \/
  (~ In TOu l /\ yport s' = yport s /\ yhold s' = yhold s /\ shown o = [] /\ taken o = []).
Proof.
  intros c ev l. induction l as [|t l IH]; intros s s' o ND E; cbn [y_threads] in E.
  - injection E as <- <-. right. sp; auto.
  - inversion ND as [|x y Hn ND']; subst.
    destruct (y_thread c ev t s) as [[s1 o1]|] eqn:E1; [|discriminate].
    destruct (y_threads c ev l s1) as [[s2 o2]|] eqn:E2; [|discriminate]. injection E as <- <-.
    destruct (thread_port _ _ _ _ _ _ E1) as [T1 T2].
    destruct (IH _ _ _ ND' E2) as [(A1 & A2 & A3 & A4 & A5)|(A1 & A2 & A3 & A4 & A5)].
    + left. assert (N : t <> TOu) by (intros ->; contradiction). destruct (T1 N) as (B1 & B2 & B3 & B4).
      rewrite shown_app, taken_app, B3, B4, <- B1, <- B2. sp; auto. right. exact A1.
    + destruct t.
      * right. destruct (T1 ltac:(discriminate)) as (B1 & B2 & B3 & B4).
        rewrite shown_app, taken_app, A4, A5, B3, B4, A2, A3, B1, B2. sp; auto. intros [H|H]; [discriminate|auto].
      * right. destruct (T1 ltac:(discriminate)) as (B1 & B2 & B3 & B4).
        rewrite shown_app, taken_app, A4, A5, B3, B4, A2, A3, B1, B2. sp; auto. intros [H|H]; [discriminate|auto].
      * left. destruct (T2 eq_refl) as (B1 & B2 & B3 & B4).
        rewrite shown_app, taken_app, A4, A5, A2, A3, !app_nil_r. sp; auto. left. reflexivity.
Qed.

Lemma existsb_out : forall l, existsb (fun t => match t with TOu => true | _ => false end) l = true <-> In TOu l.
Proof.
  intros l. rewrite existsb_exists. split.
  - intros ([] & H1 & H2); try discriminate; auto.
  - intros H. exists TOu. auto.
Qed.

Theorem run_steady : forall c evs last s s' o, Forall ok_yinstant evs -> steady last evs ->
  (forall x, yport s = Some x -> last (chan_of x) = true) -> y_run c evs s = Some (s', o) -> taken o = shown o.
Proof.
  intros c evs. induction evs as [|ev evs IH]; intros last s s' o Ok St P E; cbn [y_run steady] in *.
  - injection E as <- <-. reflexivity.
  - apply Forall_cons_iff in Ok. destruct Ok as [Ok1 Ok2]. unfold y_step in E.
    destruct (y_threads c ev (y_ths ev) s) as [[s1 o1]|] eqn:E1; [|discriminate].
    destruct (y_run c evs (y_commit s1)) as [[s2 o2]|] eqn:E2; [|discriminate]. injection E as <- <-.
    rewrite shown_app, taken_app.
    destruct (existsb _ (y_ths ev)) eqn:X.
    + apply existsb_out in X. destruct St as [St1 St2].
      destruct (threads_port _ _ _ _ _ _ Ok1 E1) as [(A1 & A2 & A3 & A4 & A5)|(A1 & _)]; [|contradiction].
      rewrite (IH (y_rdy ev) (y_commit s1) _ _ Ok2 St2 A2 E2), A3, A4. f_equal.
      destruct (yport s) as [t|] eqn:Pt; auto. cbn [olist filter]. rewrite (St1 _ (P t eq_refl)). reflexivity.
    + destruct (threads_port _ _ _ _ _ _ Ok1 E1) as [(A1 & _)|(A1 & A2 & A3 & A4 & A5)].
      { apply existsb_out in A1. congruence. }
      rewrite (IH last (y_commit s1) s2 o2 Ok2 St); auto.
      * rewrite A4, A5. reflexivity.
      * cbn [y_commit yport]. rewrite A2. exact P.
Qed.

(** A transaction stands at the interface for one edge only. *)
Theorem edge_clears : forall c ev s s' o, ok_yinstant ev -> In TOu (y_ths ev) -> y_step c ev s = Some (s', o) ->
  shown o = olist (yport s) /\ taken o = filter (fun x => y_rdy ev (chan_of x)) (olist (yport s)) /\
  (forall x, yport s' = Some x -> y_rdy ev (chan_of x) = true).
Proof.
  intros c ev s s' o Ok H E. unfold y_step in E.
  destruct (y_threads c ev (y_ths ev) s) as [[s1 o1]|] eqn:E1; [|discriminate]. injection E as <- <-.
  destruct (threads_port _ _ _ _ _ _ Ok E1) as [(A1 & A2 & A3 & A4 & A5)|(A1 & _)]; [|contradiction]. auto.
Qed.

Theorem run_blocked : forall c evs s s' o f r, Forall ok_yinstant evs -> yhold s = Some (f :: r) -> yport s = None ->
  (forall ev, In ev evs -> y_rdy ev (xf_type f) = false) -> y_run c evs s = Some (s', o) -> shown o = [].
Proof.
  intros c evs. induction evs as [|ev evs IH]; intros s s' o f r Ok H P Hr E; cbn [y_run] in E.
  - injection E as <- <-. reflexivity.
  - apply Forall_cons_iff in Ok. destruct Ok as [Ok1 Ok2]. unfold y_step in E.
    destruct (y_threads c ev (y_ths ev) s) as [[s1 o1]|] eqn:E1; [|discriminate].
    destruct (y_run c evs (y_commit s1)) as [[s2 o2]|] eqn:E2; [|discriminate]. injection E as <- <-.
    rewrite shown_app.
    destruct (threads_port _ _ _ _ _ _ Ok1 E1) as [(A1 & A2 & A3 & A4 & A5)|(A1 & A2 & A3 & A4 & A5)].
    + destruct (A5 f r H (Hr ev (or_introl eq_refl))) as [B1 B2]. rewrite A3, P. cbn [olist app].
      apply (IH (y_commit s1) s2 o2 f r); auto; cbn [y_commit yhold yport]; [congruence|].
      intros e He. apply Hr. right. exact He.
    + rewrite A4. cbn [app]. apply (IH (y_commit s1) s2 o2 f r); auto; cbn [y_commit yhold yport]; [congruence|congruence|].
      intros e He. apply Hr. right. exact He.
Qed.
