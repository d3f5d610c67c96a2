From Coq Require Import ZArith Bool List Lia Permutation.
From Verif Require Import Bits BitsProofs Fupd AxisFormatModel AxisFormatProofs AxisSlaveModel
  AxisMasterModel AxisMasterSpec.
Import ListNotations.
Local Open Scope nat_scope.

Ltac sp := repeat match goal with |- _ /\ _ => split end.

Section M.
Variable c : mcfg.
Hypothesis G : good_mcfg c.
Variable ps : nat -> list (list bflit).
Variable more : nat -> list bflit.
Hypothesis WF : forall v, Forall (wf_wide c) (ps v).

Notation ts := (to_sflit c).
Definition onp (v : nat) (x : nat * list bflit) : bool := Nat.eqb (fst x) v.
Definition oni (i : nat) (p : list bflit) : bool := Nat.eqb (pkt_iface c p) i.
Definition tails (l : list sflit) : nat := length (filter f_tail l).

Definition cur (s : mst) (v : nat) : list sflit :=
  match prioq s with
  | u :: _ => if depk s && Nat.eqb u v then constr s else []
  | [] => []
  end.
Definition pendv (s : mst) (v : nat) : list bflit :=
  match pendfl s with Some f => if on_vc v f then [f] else [] | None => [] end.

Definition nch (i : nat) {A} (p : list A) : nat := num_chunks (length p) (m_nfl c i).

Lemma nch_pos : forall n m, 1 <= n -> 1 <= m -> 1 <= num_chunks n m.
Proof. intros n m H1 H2. unfold num_chunks. apply Nat.div_le_lower_bound; lia. Qed.

Lemma nch_le : forall n m, 1 <= n -> 1 <= m -> num_chunks n m <= n.
Proof. intros n m H1 H2. unfold num_chunks. apply Nat.div_le_upper_bound; nia. Qed.

Record inv (s : mst) (dl : list (nat * list bflit)) (od : nat -> list (list bflit)) : Prop := {
  i_R : forall v, exists R, ps v = map snd (filter (onp v) dl) ++ R /\
        map ts (concat R) = cur s v ++ ejf s v ++ map ts (pendv s v ++ filter (on_vc v) (inq s) ++ more v);
  i_idle : depk s = false -> constr s = [];
  i_pop : forall v, popc s v = length (filter (onp v) dl);
  i_push : forall v, pushn s v = popc s v + tails (ejf s v);
  i_pushc : forall v, pushc s v <= pushn s v;
  i_busy : depk s = true -> exists v q f con, prioq s = v :: q /\ constr s = f :: con /\
           tails (constr s) = 0 /\ popc s v < pushc s v /\ length (outq s (ifn f)) < m_obdepth c;
  i_prio : Permutation (prioq s) (seq 0 (m_nvc c));
  i_out : forall i, exists oq, filter (oni i) (map snd dl) = od i ++ oq /\ outq s i = map (map ts) oq;
  i_port : forall i a, port s i = Some a -> exists p r, outq s i = p :: r /\ a = axis_of c p;
  i_chunk : forall i, match outq s i with [] => chunk s i = 0 | p :: _ => chunk s i < num_chunks (length p) (m_nfl c i) end;
  i_in : forall f, In f (inq s) \/ pendfl s = Some f -> (0 <= b_vc f)%Z /\ vcn f < m_nvc c
}.

(** ** Packets *)

Lemma in_dl_wf : forall s dl od v p, inv s dl od -> In (v, p) dl -> wf_wide c p.
Proof.
  intros s dl od v p I H. destruct (i_R _ _ _ I v) as (R & E & _).
  pose proof (WF v) as W. rewrite E in W. apply Forall_app in W. destruct W as (W & _).
  rewrite Forall_forall in W. apply W. apply in_map_iff. exists (v, p). split; auto.
  apply filter_In. split; auto. unfold onp. cbn. apply Nat.eqb_refl.
Qed.

Lemma R_wf : forall dl v R, ps v = map snd (filter (onp v) dl) ++ R -> Forall (wf_wide c) R.
Proof. intros dl v R E. pose proof (WF v) as W. rewrite E in W. apply Forall_app in W. tauto. Qed.

Lemma wf_iface_all : forall p f, wf_wide c p -> In f p -> ifn (ts f) = pkt_iface c p.
Proof.
  intros p f (W1 & W2 & W3 & W4 & W5) H. unfold ifn, to_sflit. cbn. rewrite (W5 f H).
  destruct p; [contradiction|]. reflexivity.
Qed.

Lemma stream_iface : forall R l1 f l2, Forall (wf_wide c) R -> map ts (concat R) = l1 ++ f :: l2 ->
  exists p, In p R /\ In f (map ts p).
Proof.
  intros R l1 f l2 W E.
  assert (H : In f (map ts (concat R))) by (rewrite E; apply in_or_app; right; left; reflexivity).
  apply in_map_iff in H. destruct H as (b & <- & H). apply in_concat in H.
  destruct H as (p & Hp & Hb). exists p. split; auto. apply in_map; auto.
Qed.

Lemma ej_iface : forall s dl od v f, inv s dl od -> In f (ejf s v) -> ifn f < m_nif c.
Proof.
  intros s dl od v f I H. destruct (i_R _ _ _ I v) as (R & E & E2).
  pose proof (R_wf _ _ _ E) as W.
  apply in_split in H. destruct H as (l1 & l2 & H). rewrite H in E2.
  rewrite <- app_assoc in E2. cbn in E2. rewrite app_assoc in E2.
  destruct (stream_iface _ _ _ _ W E2) as (p & Hp & Hf).
  apply in_map_iff in Hf. destruct Hf as (b & <- & Hb).
  rewrite Forall_forall in W. specialize (W p Hp).
  rewrite (wf_iface_all p b W Hb). apply W.
Qed.

Lemma tails_app : forall a b, tails (a ++ b) = tails a + tails b.
Proof. intros. unfold tails. rewrite filter_app, app_length. reflexivity. Qed.

Lemma tails_0_in : forall l f, tails l = 0 -> In f l -> f_tail f = false.
Proof.
  intros l f H I. destruct (f_tail f) eqn:T; auto. exfalso.
  assert (X : In f (filter f_tail l)) by (apply filter_In; auto).
  unfold tails in H. destruct (filter f_tail l); [destruct X|discriminate].
Qed.

(** Cutting the first packet out of a flit stream. *)
Lemma packet_prefix : forall p X K f Y, wf_wide c p -> tails K = 0 ->
  map ts p ++ X = K ++ f :: Y ->
  exists p2, map ts p = K ++ f :: p2 /\ Y = p2 ++ X /\ (f_tail f = true <-> p2 = []).
Proof.
  intros p X K f Y W HK E. destruct W as (W1 & W2 & W3 & W4 & W5).
  assert (L : length K < length (map ts p)).
  { destruct (Nat.lt_ge_cases (length K) (length (map ts p))) as [L|L]; auto. exfalso.
    assert (E2 : firstn (length (map ts p)) (map ts p ++ X) = firstn (length (map ts p)) (K ++ f :: Y))
      by (f_equal; exact E).
    rewrite firstn_app, Nat.sub_diag, firstn_O, app_nil_r, firstn_all in E2.
    rewrite firstn_app in E2.
    replace (length (map ts p) - length K) with 0 in E2 by lia. rewrite firstn_O, app_nil_r in E2.
    destruct (exists_last W1) as (p0 & l & Hl).
    assert (T : b_tail l = true).
    { apply (W4 (length p0) l). rewrite Hl, nth_error_app2, Nat.sub_diag; auto.
      rewrite Hl, app_length. cbn. lia. }
    assert (In (ts l) K).
    { rewrite <- (firstn_skipn (length (map ts p)) K), <- E2. apply in_or_app. left.
      apply in_map. rewrite Hl. apply in_or_app. right. left. reflexivity. }
    pose proof (tails_0_in _ _ HK H) as F. cbn in F. congruence. }
  exists (skipn (S (length K)) (map ts p)).
  assert (P1 : map ts p = K ++ f :: skipn (S (length K)) (map ts p)).
  { rewrite <- (firstn_skipn (S (length K)) (map ts p)) at 1.
    assert (E2 : firstn (S (length K)) (map ts p ++ X) = firstn (S (length K)) (K ++ f :: Y))
      by (f_equal; exact E).
    rewrite firstn_app in E2.
    replace (S (length K) - length (map ts p)) with 0 in E2 by lia. rewrite firstn_O, app_nil_r in E2.
    rewrite E2. rewrite firstn_app. replace (S (length K) - length K) with 1 by lia.
    rewrite firstn_all2 by lia. rewrite <- app_assoc. reflexivity. }
  split; [exact P1|]. split.
  - rewrite P1, <- app_assoc in E. apply app_inv_head in E. rewrite <- app_comm_cons in E. congruence.
  - assert (N : nth_error (map ts p) (length K) = Some f).
    { rewrite P1. rewrite nth_error_app2, Nat.sub_diag by lia. reflexivity. }
    rewrite nth_error_map in N. destruct (nth_error p (length K)) as [b|] eqn:Nb; [|discriminate].
    cbn in N. inversion N; subst f. change (f_tail (ts b)) with (b_tail b). rewrite (W4 _ _ Nb).
    rewrite <- (map_length ts p). split; intros H.
    + apply skipn_all2. lia.
    + assert (length (skipn (S (length K)) (map ts p)) = 0) by (rewrite H; reflexivity).
      rewrite skipn_length in H0. lia.
Qed.

(** ** Scan of the priority queue *)

Definition avail_vc (s : mst) (v d : nat) : Prop :=
  exists f r, ejf s v = f :: r /\ d = ifn f /\ popc s v < pushc s v /\ length (outq s d) < m_obdepth c.

Lemma rotate_perm : forall A (q : list A), Permutation (rotate q) q.
Proof.
  intros A [|x q]; cbn; auto. symmetry. apply Permutation_cons_append.
Qed.

Lemma check_spec : forall s dl od v d, inv s dl od -> d < m_nif c ->
  exists b, check c s v d = Some b /\
  (b = true <-> (popc s v < pushc s v /\ length (outq s d) < m_obdepth c)).
Proof.
  intros s dl od v d I H. unfold check.
  destruct (Nat.ltb_spec (popc s v) (pushc s v)).
  - apply Nat.ltb_lt in H. rewrite H. eexists. split; eauto. rewrite Nat.ltb_lt. tauto.
  - exists false. split; auto. split; [discriminate|]. lia.
Qed.

Lemma pushed_nonempty : forall s dl od v, inv s dl od -> popc s v < pushc s v -> ejf s v <> [].
Proof.
  intros s dl od v I H E. pose proof (i_push _ _ _ I v) as P. pose proof (i_pushc _ _ _ I v) as Q.
  rewrite E in P. cbn in P. lia.
Qed.

Lemma scan_spec : forall s dl od, inv s dl od -> forall n q d, q <> [] -> d < m_nif c ->
  exists q' ok d', scan c s n q false d = Some (q', ok, d') /\ Permutation q' q /\ d' < m_nif c /\
  (ok = true -> exists v r, q' = v :: r /\ avail_vc s v d').
Proof.
  intros s dl od I n. induction n as [|n IH]; intros q d Hq Hd.
  - exists q, false, d. cbn. repeat split; auto. discriminate.
  - cbn [scan]. destruct (rotate q) as [|v r] eqn:RQ.
    + exfalso. apply Hq. apply Permutation_nil. rewrite <- RQ. apply rotate_perm.
    + assert (P : Permutation (v :: r) q) by (rewrite <- RQ; apply rotate_perm).
      destruct (ejf s v) as [|f fs] eqn:E.
      * destruct (IH (v :: r) d ltac:(discriminate) Hd) as (q' & ok & d' & A & B & C & D).
        exists q', ok, d'. split; [exact A|]. repeat split; auto. transitivity (v :: r); auto.
      * assert (Hf : ifn f < m_nif c) by (eapply ej_iface; eauto; rewrite E; left; reflexivity).
        destruct (check_spec s dl od v (ifn f) I Hf) as (b & -> & Hb).
        destruct b.
        -- exists (v :: r), true, (ifn f). split; [destruct n; reflexivity|]. repeat split; auto.
           intros _. exists v, r. split; auto. exists f, fs. tauto.
        -- destruct (IH (v :: r) (ifn f) ltac:(discriminate) Hf) as (q' & ok & d' & A & B & C & D).
           exists q', ok, d'. split; [exact A|]. repeat split; auto. transitivity (v :: r); auto.
Qed.

Fixpoint rot (k : nat) (q : list nat) : list nat :=
  match k with O => q | S k' => rot k' (rotate q) end.

Lemma rot_app : forall l1 l2, rot (length l1) (l1 ++ l2) = l2 ++ l1.
Proof.
  induction l1 as [|x l1 IH]; intros l2; cbn.
  - rewrite app_nil_r. reflexivity.
  - rewrite <- app_assoc, IH, <- app_assoc. reflexivity.
Qed.

Lemma rot_reach : forall q v, In v q -> exists k r, 1 <= k <= length q /\ rot k q = v :: r.
Proof.
  intros q v H. apply in_split in H. destruct H as (l1 & l2 & ->). destruct l1 as [|x l1].
  - exists (length (v :: l2)), l2. cbn [app]. split; [cbn; lia|].
    replace (v :: l2) with ((v :: l2) ++ []) at 2 by apply app_nil_r. rewrite rot_app. reflexivity.
  - exists (length (x :: l1)), (l2 ++ x :: l1). split.
    + rewrite app_length. cbn. lia.
    + rewrite rot_app. reflexivity.
Qed.

Lemma scan_none : forall s dl od, inv s dl od -> forall n q d q' d',
  scan c s n q false d = Some (q', false, d') ->
  forall k v r, 1 <= k <= n -> rot k q = v :: r -> forall d0, ~ avail_vc s v d0.
Proof.
  intros s dl od I n. induction n as [|n IH]; intros q d q' d' H k v r Hk Hr d0 A; [lia|].
  cbn [scan] in H. destruct k as [|k]; [lia|]. cbn [rot] in Hr.
  destruct (rotate q) as [|v1 r1] eqn:RQ; [discriminate|].
  destruct k as [|k].
  - cbn in Hr. inversion Hr; subst v1 r1. destruct A as (f & fs & E & -> & A1 & A2). rewrite E in H.
    assert (Hf : ifn f < m_nif c) by (eapply ej_iface; eauto; rewrite E; left; reflexivity).
    destruct (check_spec s dl od v (ifn f) I Hf) as (b & Hc & Hb). rewrite Hc in H.
    assert (b = true) by tauto. subst b. destruct n; discriminate.
  - destruct (ejf s v1) as [|f fs] eqn:E1.
    + eapply IH in H; eauto. lia.
    + destruct (check c s v1 (ifn f)) as [[|]|]; [destruct n; discriminate| |discriminate].
      eapply IH in H; eauto. lia.
Qed.

(** ** Depacketisation *)

Lemma onp_snoc : forall u dl v p,
  filter (onp u) (dl ++ [(v, p)]) = filter (onp u) dl ++ (if Nat.eqb v u then [(v, p)] else []).
Proof. intros. rewrite filter_app. reflexivity. Qed.

Lemma oni_snoc : forall i l p,
  filter (oni i) (l ++ [p]) = filter (oni i) l ++ (if Nat.eqb (pkt_iface c p) i then [p] else []).
Proof. intros. rewrite filter_app. reflexivity. Qed.

Definition upd_out (od : nat -> list (list bflit)) (i : nat) (p : list bflit) := fupd od i (od i ++ [p]).

Lemma cur_v : forall s dl od v q, inv s dl od -> prioq s = v :: q \/ depk s = false -> cur s v = constr s.
Proof.
  intros s dl od v q I H. unfold cur. destruct (depk s) eqn:D.
  - destruct H as [H|H]; [|discriminate]. rewrite H, Nat.eqb_refl. reflexivity.
  - rewrite (i_idle _ _ _ I D). destruct (prioq s); reflexivity.
Qed.

Lemma cur_other : forall s dl od v q u, inv s dl od -> prioq s = v :: q \/ depk s = false -> u <> v ->
  cur s u = [].
Proof.
  intros s dl od v q u I H N. unfold cur. destruct (depk s) eqn:D.
  - destruct H as [H|H]; [|discriminate]. rewrite H. cbn.
    destruct (Nat.eqb_spec v u); [congruence|reflexivity].
  - destruct (prioq s); reflexivity.
Qed.

(** What the part of OutputDepacketization that moves a flit does to the state. *)
Definition depk_move (s s' : mst) (o : list mobs) (dl dl' : list (nat * list bflit)) : Prop :=
  exists v q f rest, Permutation (v :: q) (seq 0 (m_nvc c)) /\ popc s v < pushc s v /\
    ejf s v = f :: rest /\ ejf s' = fupd (ejf s) v rest /\
    pendfl s' = pendfl s /\ inq s' = inq s /\ pushn s' = pushn s /\ pushc s' = pushc s /\
    chunk s' = chunk s /\ port s' = port s /\ o = [Free v] /\
    ((f_tail f = false /\ dl' = dl /\ outq s' = outq s /\ popc s' = popc s /\ constr s' = constr s ++ [f]) \/
     (f_tail f = true /\ exists p, dl' = dl ++ [(v, p)] /\ constr s' = [] /\ length p = S (length (constr s)) /\
        outq s' = fupd (outq s) (pkt_iface c p) (outq s (pkt_iface c p) ++ [map ts p]) /\
        popc s' = fupd (popc s) v (S (popc s v)))).

Lemma depk_take : forall s dl od v q d,
  inv s dl od -> (depk s = true -> prioq s = v :: q) -> Permutation (v :: q) (seq 0 (m_nvc c)) ->
  avail_vc s v d -> d < m_nif c ->
  exists s' dl' f rest, ejf s v = f :: rest /\
    (if f_tail f then
       if Nat.leb (S (popc s v)) (pushc s v) then
         Some ({| inq := inq s; pendfl := pendfl s; ejf := fupd (ejf s) v rest; pushc := pushc s;
                  pushn := pushn s; popc := fupd (popc s) v (S (popc s v));
                  prioq := rotate (v :: q); depk := false; constr := [];
                  outq := fupd (outq s) d (outq s d ++ [constr s ++ [f]]);
                  chunk := chunk s; port := port s |}, [Free v])
       else None
     else
       Some ({| inq := inq s; pendfl := pendfl s; ejf := fupd (ejf s) v rest; pushc := pushc s;
                pushn := pushn s; popc := popc s; prioq := v :: q; depk := true;
                constr := constr s ++ [f]; outq := outq s; chunk := chunk s; port := port s |},
             [Free v])) = Some (s', [Free v]) /\
    inv s' dl' od /\ depk_move s s' [Free v] dl dl'.
Proof.
  intros s dl od v q d I HP PM (f & rest & E & Hd & Hlt & Hroom) Hnif.
  assert (HQ : prioq s = v :: q \/ depk s = false) by (destruct (depk s); auto).
  assert (HK : tails (constr s) = 0).
  { destruct (depk s) eqn:D.
    - destruct (i_busy _ _ _ I D) as (v' & q' & f' & con & _ & _ & T & _). exact T.
    - rewrite (i_idle _ _ _ I D). reflexivity. }
  destruct (i_R _ _ _ I v) as (R & E1 & E2).
  rewrite (cur_v s dl od v q I HQ), E in E2. cbn [app] in E2.
  pose proof (R_wf _ _ _ E1) as W.
  assert (HR : exists p R', R = p :: R').
  { destruct R; [|eauto]. cbn in E2. destruct (constr s); discriminate. }
  destruct HR as (p & R' & ->). inversion W as [|x l Wp WR']; subst x l.
  cbn [concat] in E2. rewrite map_app in E2.
  destruct (packet_prefix _ _ _ _ _ Wp HK E2) as (p2 & Ep & EY & Htail).
  assert (Hin : forall x, In x (map ts p) -> ifn x = pkt_iface c p).
  { intros x Hx. apply in_map_iff in Hx. destruct Hx as (b & <- & Hb). apply wf_iface_all; auto. }
  assert (Hfi : ifn f = pkt_iface c p).
  { apply Hin. rewrite Ep. apply in_or_app. right. left. reflexivity. }
  destruct (f_tail f) eqn:T.
  - assert (p2 = []) by (apply Htail; reflexivity). subst p2. cbn [app] in EY.
    destruct (Nat.leb_spec (S (popc s v)) (pushc s v)); [|lia].
    eexists _, (dl ++ [(v, p)]), f, rest. rewrite T. split; auto. split; [reflexivity|]. split.
    + constructor; cbn [inq pendfl ejf pushc pushn popc prioq depk constr outq chunk port].
      * intros u. destruct (Nat.eq_dec u v) as [->|N].
        -- exists R'. split.
           ++ rewrite onp_snoc, Nat.eqb_refl, map_app, <- app_assoc. exact E1.
           ++ unfold cur. cbn. rewrite fupd_same.
              rewrite <- EY. destruct (q ++ [v]); reflexivity.
        -- destruct (i_R _ _ _ I u) as (Ru & Eu1 & Eu2). exists Ru. split.
           ++ rewrite onp_snoc.
              destruct (Nat.eqb_spec v u); [congruence|]. rewrite app_nil_r. exact Eu1.
           ++ unfold cur. cbn. rewrite fupd_other by auto. rewrite Eu2.
              rewrite (cur_other s dl od v q u I HQ N). destruct (q ++ [v]); reflexivity.
      * auto.
      * intros u. rewrite onp_snoc, app_length. unfold fupd.
        destruct (Nat.eqb_spec u v) as [->|N].
        -- rewrite Nat.eqb_refl. cbn. rewrite (i_pop _ _ _ I). lia.
        -- destruct (Nat.eqb_spec v u); [congruence|]. cbn. rewrite (i_pop _ _ _ I). lia.
      * intros u. rewrite (i_push _ _ _ I u). unfold fupd. destruct (Nat.eqb_spec u v) as [->|N]; auto.
        rewrite E. unfold tails. cbn [filter]. rewrite T. cbn. lia.
      * apply (i_pushc _ _ _ I).
      * discriminate.
      * rewrite <- PM. apply (rotate_perm _ (v :: q)).
      * intros i. destruct (i_out _ _ _ I i) as (oq & O1 & O2).
        rewrite map_app. cbn [map snd]. rewrite oni_snoc.
        unfold fupd. rewrite Hd, Hfi.
        destruct (Nat.eqb_spec i (pkt_iface c p)) as [->|N].
        -- exists (oq ++ [p]). rewrite Nat.eqb_refl. split.
           ++ rewrite O1, app_assoc. reflexivity.
           ++ rewrite O2, map_app. cbn. rewrite Ep. reflexivity.
        -- exists oq. split; auto. destruct (Nat.eqb_spec (pkt_iface c p) i); [congruence|].
           rewrite app_nil_r. exact O1.
      * intros i a Ha. destruct (i_port _ _ _ I i a Ha) as (p0 & r & O & ->).
        unfold fupd. destruct (Nat.eqb_spec i d) as [->|N]; [|eauto].
        rewrite O. cbn. eauto.
      * intros i. pose proof (i_chunk _ _ _ I i) as CH. unfold fupd. destruct (Nat.eqb_spec i d) as [E0|N]; [|exact CH].
        subst i. destruct (outq s d) as [|p0 r0]; [|exact CH]. cbn [app]. rewrite CH.
        assert (LN : length (constr s ++ [f]) = S (length (constr s))) by (rewrite app_length; cbn; lia).
        apply nch_pos; [lia|]. rewrite Hd, Hfi. destruct Wp as (_ & _ & W3 & _). exact W3.
      * apply (i_in _ _ _ I).
    + exists v, q, f, rest. repeat split; auto. right. split; auto. exists p. split; auto. split; [reflexivity|]. split.
      { apply (f_equal (@length _)) in Ep. rewrite map_length, app_length in Ep. cbn in Ep. lia. }
      cbn. split; auto. rewrite Hd, Hfi, Ep. reflexivity.
  - eexists _, dl, f, rest. rewrite T. split; auto. split; [reflexivity|]. split.
    + constructor; cbn [inq pendfl ejf pushc pushn popc prioq depk constr outq chunk port].
      * intros u. destruct (Nat.eq_dec u v) as [->|N].
        -- exists (p :: R'). split; [exact E1|]. unfold cur. cbn. rewrite Nat.eqb_refl, fupd_same.
           rewrite map_app, E2, <- app_assoc. reflexivity.
        -- destruct (i_R _ _ _ I u) as (Ru & Eu1 & Eu2). exists Ru. split; auto.
           unfold cur. cbn. rewrite fupd_other by auto. rewrite Eu2.
           rewrite (cur_other s dl od v q u I HQ N).
           destruct (Nat.eqb_spec v u); [congruence|]. reflexivity.
      * discriminate.
      * apply (i_pop _ _ _ I).
      * intros u. rewrite (i_push _ _ _ I u). unfold fupd. destruct (Nat.eqb_spec u v) as [->|N]; auto.
        rewrite E. unfold tails. cbn [filter]. rewrite T. reflexivity.
      * apply (i_pushc _ _ _ I).
      * intros _.
        assert (HC : exists f0 con, constr s ++ [f] = f0 :: con /\ ifn f0 = d).
        { destruct (constr s) as [|k0 K] eqn:C.
          - exists f, []. split; auto.
          - exists k0, (K ++ [f]). split; auto. rewrite Hd, Hfi. apply Hin. rewrite Ep. left. reflexivity. }
        destruct HC as (f0 & con & C1 & C2).
        exists v, q, f0, con. rewrite C2. repeat split; auto.
        rewrite tails_app, HK. unfold tails. cbn. rewrite T. reflexivity.
      * exact PM.
      * apply (i_out _ _ _ I).
      * apply (i_port _ _ _ I).
      * apply (i_chunk _ _ _ I).
      * apply (i_in _ _ _ I).
    + exists v, q, f, rest. repeat split; auto. left. repeat split; auto.
Qed.

Lemma prioq_nonempty : forall s dl od, inv s dl od -> exists v q, prioq s = v :: q.
Proof.
  intros s dl od I. pose proof (i_prio _ _ _ I) as P. destruct G as (G1 & _).
  destruct (prioq s) as [|v q]; eauto. apply Permutation_nil in P.
  assert (length (seq 0 (m_nvc c)) = 0) by (rewrite P; reflexivity). rewrite seq_length in H. lia.
Qed.

(** Outcome of one packetiser edge: a flit moves, or nothing changes except the priorities
    and then no channel had a complete packet and room for it. *)
Lemma depk_step : forall s dl od, inv s dl od ->
  exists s' o dl', run_depk c s = Some (s', o) /\ inv s' dl' od /\
  (depk_move s s' o dl dl' \/
   (dl' = dl /\ o = [] /\ depk s = false /\
    (forall v d, v < m_nvc c -> ~ avail_vc s v d) /\
    exists q, s' = {| inq := inq s; pendfl := pendfl s; ejf := ejf s; pushc := pushc s; pushn := pushn s;
            popc := popc s; prioq := q; depk := depk s; constr := constr s;
            outq := outq s; chunk := chunk s; port := port s |})).
Proof.
  intros s dl od I. unfold run_depk. destruct (prioq_nonempty _ _ _ I) as (v0 & q0 & P0). rewrite P0.
  destruct G as (G1 & G2).
  set (d0 := match ejf s v0 with [] => 0 | f :: _ => ifn f end).
  assert (Hd0 : d0 < m_nif c).
  { unfold d0. destruct (ejf s v0) as [|f r] eqn:E; [lia|]. eapply ej_iface; eauto. rewrite E. left; reflexivity. }
  destruct (check_spec s dl od v0 d0 I Hd0) as (ok0 & -> & Hok0).
  assert (HA : ok0 = true -> avail_vc s v0 d0).
  { intros ->. destruct Hok0 as (Hok0 & _). destruct (Hok0 eq_refl) as (A & B).
    pose proof (pushed_nonempty _ _ _ _ I A) as NE. unfold d0, avail_vc in *.
    destruct (ejf s v0) as [|f r]; [congruence|]. exists f, r. auto. }
  destruct (depk s) eqn:D.
  - destruct (i_busy _ _ _ I D) as (v & q & f & con & B1 & B2 & B3 & B4 & B5).
    rewrite P0 in B1. inversion B1; subst v q.
    pose proof (pushed_nonempty _ _ _ _ I B4) as NE.
    assert (ok0 = true).
    { apply Hok0. split; auto.
      (* the front flit belongs to the packet under construction *)
      unfold d0. destruct (ejf s v0) as [|f1 r1] eqn:E; [congruence|].
      destruct (i_R _ _ _ I v0) as (R & E1 & E2).
      rewrite (cur_v s dl od v0 q0 I (or_introl P0)), E in E2. cbn [app] in E2.
      pose proof (R_wf _ _ _ E1) as W.
      destruct R as [|p R']; [cbn in E2; rewrite B2 in E2; discriminate|].
      inversion W as [|x l Wp WR']; subst x l. cbn [concat] in E2. rewrite map_app in E2.
      destruct (packet_prefix _ _ _ _ _ Wp B3 E2) as (p2 & Ep & _ & _).
      assert (Hin : forall x, In x (map ts p) -> ifn x = pkt_iface c p).
      { intros x Hx. apply in_map_iff in Hx. destruct Hx as (b & <- & Hb). apply wf_iface_all; auto. }
      rewrite (Hin f1).
      - rewrite <- (Hin f); auto. rewrite Ep, B2. left. reflexivity.
      - rewrite Ep. apply in_or_app. right. left. reflexivity. }
    subst ok0. specialize (HA eq_refl).
    apply Nat.ltb_lt in Hd0 as Hd0'. rewrite Hd0'.
    assert (Hr : Nat.ltb (length (outq s d0)) (m_obdepth c) = true).
    { apply Nat.ltb_lt. destruct HA as (? & ? & ? & ? & ? & ?). auto. }
    rewrite Hr. cbn [andb].
    destruct (depk_take s dl od v0 q0 d0 I (fun _ => P0)) as (s' & dl' & f' & rest & E & St & I' & Mv); auto.
    { rewrite <- P0. apply (i_prio _ _ _ I). }
    rewrite E, St. exists s', [Free v0], dl'. auto.
  - assert (SC : exists q ok d, scan c s (m_nvc c) (v0 :: q0) ok0 d0 = Some (q, ok, d) /\
      Permutation q (v0 :: q0) /\ d < m_nif c /\ (ok = true -> exists v r, q = v :: r /\ avail_vc s v d) /\
      (ok = false -> forall v d, v < m_nvc c -> ~ avail_vc s v d)).
    { destruct ok0.
      - exists (v0 :: q0), true, d0. split; [destruct (m_nvc c); reflexivity|].
        split; [auto|]. split; [auto|]. split; [|discriminate].
        intros _. exists v0, q0. auto.
      - destruct (scan_spec s dl od I (m_nvc c) (v0 :: q0) d0) as (q & ok & d & A & B & C & D'); auto; [discriminate|].
        exists q, ok, d. split; [auto|]. split; [auto|]. split; [auto|]. split; [auto|].
        intros -> v d1 Hv. pose proof (i_prio _ _ _ I) as P. rewrite P0 in P.
        assert (Hin : In v (v0 :: q0)) by (rewrite P; apply in_seq; lia).
        destruct (rot_reach _ _ Hin) as (k & r & Hk & Hr).
        rewrite (Permutation_length P), seq_length in Hk.
        eapply scan_none; eauto. }
    destruct SC as (q & ok & d & -> & Pq & Hd & Hav & Hno).
    apply Nat.ltb_lt in Hd as Hd'. rewrite Hd'.
    destruct (Nat.ltb (length (outq s d)) (m_obdepth c) && ok) eqn:B.
    + apply andb_prop in B. destruct B as (_ & ->). destruct (Hav eq_refl) as (v & r & -> & Av).
      destruct (depk_take s dl od v r d I) as (s' & dl' & f' & rest & E & St & I' & Mv); auto.
      { rewrite D. discriminate. }
      { rewrite Pq, <- P0. apply (i_prio _ _ _ I). }
      rewrite E, St. exists s', [Free v], dl'. auto.
    + eexists _, [], dl. split; [reflexivity|]. split.
      * pose proof (i_idle _ _ _ I D) as HC.
        destruct I; constructor; cbn [inq pendfl ejf pushc pushn popc prioq depk constr outq chunk port]; auto.
        -- intros u. destruct (i_R0 u) as (R & E1 & E2). exists R. split; auto.
           unfold cur in *. cbn. rewrite E2, D. destruct (prioq s); destruct (rotate q); reflexivity.
        -- discriminate.
        -- rewrite (rotate_perm _ q), Pq, <- P0. assumption.
      * right. split; auto. split; auto. split; auto. split; [|exists (rotate q); reflexivity].
        destruct ok; auto. intros v d1 Hv A.
        destruct (Hav eq_refl) as (v' & r' & _ & (f' & fs' & _ & -> & _ & Hroom)).
        apply Nat.ltb_lt in Hroom. rewrite Hroom in B. discriminate.
Qed.

(** ** Ejection *)

Lemma eject_step : forall s dl od av, inv s dl od -> (forall v, pushc s v = pushn s v) ->
  exists s' o, run_eject c av s = Some (s', o) /\ inv s' dl od /\
    (forall i, delivers i o = []).
Proof.
  intros s dl od av I Fr. unfold run_eject.
  set (r := match pendfl s with Some f => (Some f, inq s, []) | None => match av, inq s with
              | true, f :: r => (Some f, r, [Arrive f]) | _, _ => (None, inq s, []) end end).
  destruct r as [[p q] o] eqn:Er.
  assert (HP : forall v, pendv s v ++ filter (on_vc v) (inq s) =
      match p with Some f => if on_vc v f then [f] else [] | None => [] end ++ filter (on_vc v) q).
  { intros v. unfold r in Er. unfold pendv. destruct (pendfl s) as [f|].
    - inversion Er; subst. reflexivity.
    - destruct av; [|inversion Er; subst; reflexivity].
      destruct (inq s) as [|f l]; inversion Er; subst; auto. cbn. destruct (on_vc v f); reflexivity. }
  assert (HO : forall i, delivers i o = []).
  { intros i. unfold r in Er. destruct (pendfl s); [|destruct av; [destruct (inq s)|]]; inversion Er; reflexivity. }
  assert (HI : forall f, In f q \/ p = Some f -> (0 <= b_vc f)%Z /\ vcn f < m_nvc c).
  { intros f H. apply (i_in _ _ _ I). unfold r in Er. destruct (pendfl s) as [f0|].
    - inversion Er; subst. exact H.
    - destruct av; [|inversion Er; subst; exact H].
      destruct (inq s) as [|f0 l]; inversion Er; subst; auto.
      destruct H as [H|H]; [left; right; auto|]. inversion H; subst. left; left; reflexivity. }
  destruct p as [f|].
  - destruct (HI f (or_intror eq_refl)) as (Z1 & Z2). unfold vcn in Z2.
    apply Z.leb_le in Z1. rewrite Z1. apply Nat.ltb_lt in Z2. rewrite Z2. cbn [andb].
    fold (vcn f). destruct (Nat.ltb_spec (length (ejf s (vcn f))) (m_ejdepth c)).
    + eexists _, o. split; [reflexivity|]. split; [|exact HO].
      destruct I; constructor; cbn [inq pendfl ejf pushc pushn popc prioq depk constr outq chunk port]; auto.
      * intros v. destruct (i_R0 v) as (R & E1 & E2). exists R. split; auto.
        rewrite E2, (app_assoc (pendv s v)), HP, <- (app_assoc _ (filter (on_vc v) q)). unfold pendv, cur. cbn [pendfl prioq depk constr app].
        f_equal. unfold on_vc at 1. unfold fupd. rewrite (Nat.eqb_sym v).
        destruct (Nat.eqb_spec (vcn f) v) as [<-|N].
        -- rewrite !map_app, <- !app_assoc. reflexivity.
        -- reflexivity.
      * intros v. unfold fupd. destruct (b_tail f) eqn:T.
        -- destruct (Nat.eqb_spec v (vcn f)) as [->|N]; auto.
           rewrite tails_app, Fr, i_push0. unfold tails. cbn. rewrite T. cbn. lia.
        -- destruct (Nat.eqb_spec v (vcn f)) as [->|N]; auto.
           rewrite tails_app, i_push0. unfold tails. cbn. rewrite T. cbn. lia.
      * intros v. destruct (b_tail f); auto. unfold fupd.
        destruct (Nat.eqb_spec v (vcn f)) as [->|N]; auto.
      * intros g [Hg|Hg]; [|discriminate]. apply HI. auto.
    + eexists _, o. split; [reflexivity|]. split; [|exact HO].
      destruct I; constructor; cbn [inq pendfl ejf pushc pushn popc prioq depk constr outq chunk port]; auto.
      intros v. destruct (i_R0 v) as (R & E1 & E2). exists R. split; auto.
      rewrite E2, (app_assoc (pendv s v)), HP, <- (app_assoc _ (filter (on_vc v) q)). reflexivity.
  - exists s, o. split; auto.
Qed.

(** ** Output interfaces *)

Lemma axis_of_spec : forall p, axis_of c (map ts p) = spec_out c p.
Proof.
  intros p. unfold axis_of, spec_out. rewrite map_map.
  replace (map (fun x => f_payload (ts x)) p) with (map b_data p) by (apply map_ext; reflexivity).
  destruct (unpack (m_w c) (reassemble (m_w c) (map b_data p))) as [[l u] d].
  destruct p; reflexivity.
Qed.

(** What interface [j] must have shown so far: the whole packets [od], and the transfers of the
    packet in front that were accepted already. *)
Definition dn (s : mst) (od : nat -> list (list bflit)) (j : nat) : list aout :=
  flat_map (fun p => repeat (spec_out c p) (nch j p)) (od j) ++
  match outq s j with [] => [] | p :: _ => repeat (axis_of c p) (chunk s j) end.

Definition od_step (s : mst) (od : nat -> list (list bflit)) (s' : mst) (od' : nat -> list (list bflit)) (o : list mobs) : Prop :=
  forall j, dn s' od' j = dn s od j ++ delivers j o.

Lemma repeat_snoc : forall A (x : A) n, repeat x (S n) = repeat x n ++ [x].
Proof. intros A x n. induction n as [|n IH]; [reflexivity|]. cbn [repeat app] in *. f_equal. exact IH. Qed.

Lemma out_one_step : forall rdy i s dl od, inv s dl od ->
  exists s' o od', out_one c rdy i s = Some (s', o) /\ inv s' dl od' /\ od_step s od s' od' o /\
    ejf s' = ejf s /\ pendfl s' = pendfl s /\ inq s' = inq s /\ pushc s' = pushc s /\ pushn s' = pushn s /\
    popc s' = popc s /\ depk s' = depk s /\ constr s' = constr s /\ prioq s' = prioq s /\
    (forall j, j <> i -> outq s' j = outq s j /\ port s' j = port s j /\ chunk s' j = chunk s j) /\
    (forall a, port s i = Some a -> rdy i = true ->
       (outq s' i = outq s i /\ chunk s' i = S (chunk s i)) \/
       (exists p, outq s i = p :: outq s' i /\ chunk s' i = 0 /\ S (chunk s i) = nch i p)) /\
    (port s i = None \/ rdy i = false -> outq s' i = outq s i /\ chunk s' i = chunk s i) /\
    (port s' i = None <-> outq s' i = []).
Proof.
  intros rdy i s dl od I. unfold out_one.
  destruct (i_out _ _ _ I i) as (oq & O1 & O2). pose proof (i_chunk _ _ _ I i) as CH.
  assert (CASE : (exists a p oq', port s i = Some a /\ rdy i = true /\ oq = p :: oq' /\ a = spec_out c p) \/
                 ((port s i = None \/ rdy i = false))).
  { destruct (port s i) as [a|] eqn:P; auto. destruct (rdy i) eqn:Rd; auto. left.
    destruct (i_port _ _ _ I i a P) as (p & r & Q1 & Q2). rewrite O2 in Q1.
    destruct oq as [|p' oq']; [discriminate|]. cbn in Q1. inversion Q1; subst p r.
    exists a, p', oq'. repeat split; auto. rewrite Q2. apply axis_of_spec. }
  assert (FC : forall q ch0 j, j <> i -> dn {| inq := inq s; pendfl := pendfl s; ejf := ejf s; pushc := pushc s; pushn := pushn s;
             popc := popc s; prioq := prioq s; depk := depk s; constr := constr s;
             outq := fupd (outq s) i q; chunk := fupd (chunk s) i ch0;
             port := fupd (port s) i (match q with [] => None | p :: _ => Some (axis_of c p) end) |} od j = dn s od j).
  { intros q ch0 j N. unfold dn. cbn [outq chunk]. rewrite !fupd_other by exact N. reflexivity. }
  destruct CASE as [(a & p & oq' & P & Rd & -> & ->)|CASE].
  - rewrite P, Rd, O2. cbn [map]. rewrite O2 in CH. cbn [map] in CH. rewrite map_length in *.
    destruct (Nat.eqb_spec (S (chunk s i)) (num_chunks (length p) (m_nfl c i))) as [LAST|MORE].
    + eexists _, _, (fupd od i (od i ++ [p])). split; [reflexivity|].
      assert (I2 : forall j, exists oq0, filter (oni j) (map snd dl) = fupd od i (od i ++ [p]) j ++ oq0 /\
         fupd (outq s) i (map (map ts) oq') j = map (map ts) oq0).
      { intros j. unfold fupd. destruct (Nat.eqb_spec j i) as [->|N].
        - exists oq'. rewrite O1, <- app_assoc. auto.
        - apply (i_out _ _ _ I). }
      split; [|split].
      * pose proof (in_dl_wf s dl od) as IW.
        pose proof I as [J1 J2 J3 J4 J5 J6 J7 J8 J9 J10 J11].
        constructor; cbn [inq pendfl ejf pushc pushn popc prioq depk constr outq chunk port]; auto.
        -- intros D. destruct (J6 D) as (v & q & f & con & B1 & B2 & B3 & B4 & B5).
           exists v, q, f, con. repeat split; auto. unfold fupd.
           destruct (Nat.eqb_spec (ifn f) i) as [E|N]; auto. rewrite E, O2 in B5. cbn in B5.
           rewrite map_length in *. lia.
        -- intros j b. unfold fupd. destruct (Nat.eqb_spec j i) as [->|N]; [|apply J9].
           destruct (map (map ts) oq') as [|p1 r1]; [discriminate|]. intros X. inversion X. eauto.
        -- intros j. unfold fupd. destruct (Nat.eqb_spec j i) as [->|N]; [|apply J10].
           destruct oq' as [|p1 r1]; [reflexivity|]. cbn [map]. rewrite map_length.
           assert (Hin : In p1 (filter (oni i) (map snd dl))) by (rewrite O1; apply in_or_app; right; right; left; reflexivity).
           apply filter_In in Hin. destruct Hin as (Hin & Hi). apply Nat.eqb_eq in Hi.
           apply in_map_iff in Hin. destruct Hin as ((v & p0) & X & Hin). cbn in X. subst p0.
           pose proof (IW _ _ I Hin) as (W1 & W2 & W3 & _). rewrite Hi in W3.
           apply nch_pos; [destruct p1; [congruence|cbn; lia]|exact W3].
      * intros j. destruct (Nat.eq_dec j i) as [->|N].
        -- unfold dn. cbn [outq chunk]. rewrite !fupd_same, O2. cbn [map]. cbn [delivers flat_map]. rewrite Nat.eqb_refl, app_nil_r.
           rewrite flat_map_app. cbn [flat_map]. rewrite app_nil_r. unfold nch at 2. rewrite <- LAST, repeat_snoc, axis_of_spec.
           destruct (map (map ts) oq'); cbn [repeat]; rewrite ?app_nil_r, <- !app_assoc; reflexivity.
        -- unfold dn. cbn [outq chunk]. rewrite !fupd_other by exact N. cbn [delivers flat_map].
           destruct (Nat.eqb_spec i j); [congruence|]. cbn [app]. rewrite app_nil_r. reflexivity.
      * cbn [inq pendfl ejf pushc pushn popc prioq depk constr outq chunk port].
        split; [reflexivity|]. do 8 (split; [reflexivity|]). split; [|split; [|split]].
        -- intros j N. rewrite !fupd_other by exact N. auto.
        -- intros b _ _. right. rewrite !fupd_same. exists (map ts p). unfold nch. rewrite map_length. auto.
        -- intros [X|X]; congruence.
        -- rewrite !fupd_same. destruct (map (map ts) oq'); split; congruence.
    + eexists _, _, od. split; [reflexivity|].
      assert (FO : forall j, fupd (outq s) i (map ts p :: map (map ts) oq') j = outq s j).
      { intros j. unfold fupd. destruct (Nat.eqb_spec j i) as [->|N]; auto; rewrite O2; reflexivity. }
      split; [|split].
      * destruct I; constructor; cbn [inq pendfl ejf pushc pushn popc prioq depk constr outq chunk port]; auto.
        -- intros D. destruct (i_busy0 D) as (v & q & f & con & B1 & B2 & B3 & B4 & B5).
           exists v, q, f, con. rewrite FO. auto.
        -- intros j. rewrite FO. apply i_out0.
        -- intros j b. rewrite FO. unfold fupd. destruct (Nat.eqb_spec j i) as [->|N]; [|apply i_port0].
           intros Y. inversion Y. rewrite O2. cbn [map]. eauto.
        -- intros j. rewrite FO. unfold fupd. destruct (Nat.eqb_spec j i) as [->|N]; [|apply i_chunk0].
           rewrite O2. cbn [map]. rewrite map_length. lia.
      * intros j. destruct (Nat.eq_dec j i) as [->|N].
        -- unfold dn. cbn [outq chunk]. rewrite FO, O2. cbn [map]. rewrite fupd_same, repeat_snoc.
           cbn [delivers flat_map]. rewrite Nat.eqb_refl, app_nil_r, axis_of_spec, <- app_assoc. reflexivity.
        -- unfold dn. cbn [outq chunk]. rewrite !fupd_other by exact N. cbn [delivers flat_map].
           destruct (Nat.eqb_spec i j); [congruence|]. cbn [app]. rewrite app_nil_r. reflexivity.
      * cbn [inq pendfl ejf pushc pushn popc prioq depk constr outq chunk port].
        split; [reflexivity|]. do 8 (split; [reflexivity|]). split; [|split; [|split]].
        -- intros j N. rewrite !fupd_other by exact N. auto.
        -- intros b _ _. left. rewrite FO, fupd_same. auto.
        -- intros [X|X]; congruence.
        -- rewrite !fupd_same. split; congruence.
  - assert (X : match port s i with
           | Some a => if rdy i then match outq s i with
               | [] => None
               | p :: rest => if Nat.eqb (S (chunk s i)) (num_chunks (length p) (m_nfl c i))
                 then Some (rest, O, [Deliver i a]) else Some (outq s i, S (chunk s i), [Deliver i a]) end
             else Some (outq s i, chunk s i, [])
           | None => Some (outq s i, chunk s i, []) end = Some (outq s i, chunk s i, [])).
    { destruct CASE as [-> | ->]; auto. destruct (port s i); auto. }
    rewrite X. eexists _, _, od. split; [reflexivity|].
    assert (FO : forall j, fupd (outq s) i (outq s i) j = outq s j).
    { intros j. unfold fupd. destruct (Nat.eqb_spec j i) as [->|N]; auto. }
    assert (FK : forall j, fupd (chunk s) i (chunk s i) j = chunk s j).
    { intros j. unfold fupd. destruct (Nat.eqb_spec j i) as [->|N]; auto. }
    split; [|split].
    + destruct I; constructor; cbn [inq pendfl ejf pushc pushn popc prioq depk constr outq chunk port]; auto.
      * intros D. destruct (i_busy0 D) as (v & q & f & con & B1 & B2 & B3 & B4 & B5).
        exists v, q, f, con. rewrite FO. auto.
      * intros j. rewrite FO. apply i_out0.
      * intros j b. rewrite FO. unfold fupd. destruct (Nat.eqb_spec j i) as [->|N]; [|apply i_port0].
        destruct (outq s i) as [|p1 r1]; [discriminate|]. intros Y. inversion Y. eauto.
      * intros j. rewrite FO, FK. apply i_chunk0.
    + intros j. unfold dn. cbn [outq chunk delivers flat_map]. rewrite FO, FK, app_nil_r. reflexivity.
    + cbn [inq pendfl ejf pushc pushn popc prioq depk constr outq chunk port].
      split; [auto|]. do 8 (split; [reflexivity|]).
      split; [|split; [|split]].
      * intros j N. rewrite FO, FK. rewrite fupd_other by auto. auto.
      * intros a P Rd. destruct CASE; congruence.
      * intros _. rewrite FO, FK. auto.
      * rewrite FO, fupd_same. destruct (outq s i); split; congruence.
Qed.

Lemma delivers_app : forall i a b, delivers i (a ++ b) = delivers i a ++ delivers i b.
Proof. intros. apply flat_map_app. Qed.

Lemma od_step_refl : forall s od s' o, (forall i, delivers i o = []) ->
  (forall j, outq s' j = outq s j /\ chunk s' j = chunk s j) -> od_step s od s' od o.
Proof. intros s od s' o H K j. unfold dn. destruct (K j) as (-> & ->). rewrite H, app_nil_r. reflexivity. Qed.

Lemma od_step_trans : forall s0 a s1 b s2 d o1 o2, od_step s0 a s1 b o1 -> od_step s1 b s2 d o2 -> od_step s0 a s2 d (o1 ++ o2).
Proof. intros s0 a s1 b s2 d o1 o2 H1 H2 j. rewrite (H2 j), (H1 j), delivers_app, app_assoc. reflexivity. Qed.

Lemma out_loop_step : forall rdy l s dl od, inv s dl od ->
  exists s' o od', out_loop c rdy l s = Some (s', o) /\ inv s' dl od' /\ od_step s od s' od' o /\
    ejf s' = ejf s /\ pendfl s' = pendfl s /\ inq s' = inq s /\ pushc s' = pushc s /\ pushn s' = pushn s /\
    popc s' = popc s /\ depk s' = depk s /\ constr s' = constr s /\ prioq s' = prioq s.
Proof.
  intros rdy l. induction l as [|i l IH]; intros s dl od I; cbn.
  - exists s, [], od. sp; auto. apply od_step_refl; auto.
  - destruct (out_one_step rdy i s dl od I) as (s1 & o1 & od1 & -> & I1 & D1 & A1 & A2 & A3 & A4 & A5 & A6 & A7 & A8 & A9 & _).
    destruct (IH s1 dl od1 I1) as (s2 & o2 & od2 & -> & I2 & D2 & B1 & B2 & B3 & B4 & B5 & B6 & B7 & B8 & B9).
    exists s2, (o1 ++ o2), od2. sp; auto; try congruence.
    eapply od_step_trans; eauto.
Qed.

(** ** Whole executions *)

Lemma thread_step : forall ev t s dl od, inv s dl od ->
  (t = TEject -> forall v, pushc s v = pushn s v) ->
  exists s' o dl' od', m_thread c ev t s = Some (s', o) /\ inv s' dl' od' /\ od_step s od s' od' o /\
    (exists nd, dl' = dl ++ nd) /\ pushc s' = pushc s /\ (t <> TEject -> pushn s' = pushn s).
Proof.
  intros ev t s dl od I Fr. destruct t; cbn [m_thread].
  - destruct (eject_step s dl od (mavail ev) I (Fr eq_refl)) as (s' & o & E & I' & D).
    assert (FR : outq s' = outq s /\ chunk s' = chunk s /\ pushc s' = pushc s).
    { unfold run_eject in E. revert E. destruct (match pendfl s with Some f => _ | None => _ end) as [[[f|] q] o'].
      * destruct (_ && _); [|discriminate]. destruct (Nat.ltb _ _); intros X; inversion X; auto.
      * intros X; inversion X; auto. }
    destruct FR as (FR1 & FR2 & FR3).
    exists s', o, dl, od. sp; auto.
    + apply od_step_refl; auto. intros j. rewrite FR1, FR2. auto.
    + exists []. rewrite app_nil_r. reflexivity.
    + congruence.
  - destruct (depk_step s dl od I) as (s' & o & dl' & E & I' & M).
    exists s', o, dl', od. split; auto. split; auto.
    destruct M as [M|(-> & -> & Dk & _ & q & ->)].
    + destruct M as (v & q & f & rest & M1 & M0 & M2 & M3 & M4 & M5 & M6 & M7 & M8 & M9 & -> & M10).
      sp; auto.
      * intros j. cbn [delivers flat_map]. rewrite app_nil_r. unfold dn. rewrite M8. f_equal.
        destruct M10 as [(_ & _ & -> & _)|(_ & p & _ & _ & _ & -> & _)]; [reflexivity|].
        unfold fupd. destruct (Nat.eqb_spec j (pkt_iface c p)) as [->|N]; [|reflexivity].
        pose proof (i_chunk _ _ _ I (pkt_iface c p)) as CH.
        destruct (outq s (pkt_iface c p)) as [|p0 r0]; [|reflexivity]. cbn [app]. rewrite CH. reflexivity.
      * destruct M10 as [(_ & -> & _)|(_ & p & -> & _)]; [exists []; rewrite app_nil_r|exists [(v, p)]]; reflexivity.
    + sp; auto.
      * apply od_step_refl; auto.
      * exists []. rewrite app_nil_r. reflexivity.
  - destruct (out_loop_step (mrdy ev) (seq 0 (m_nif c)) s dl od I) as (s' & o & od' & E & I' & D & A).
    exists s', o, dl, od'. sp; auto; try tauto.
    exists []. rewrite app_nil_r. reflexivity.
Qed.

Lemma threads_step : forall ev l s dl od, NoDup l -> inv s dl od ->
  (In TEject l -> forall v, pushc s v = pushn s v) ->
  exists s' o dl' od', m_threads c ev l s = Some (s', o) /\ inv s' dl' od' /\ od_step s od s' od' o /\
    (exists nd, dl' = dl ++ nd).
Proof.
  intros ev l. induction l as [|t l IH]; intros s dl od ND I Fr; cbn.
  - exists s, [], dl, od. sp; auto.
    + apply od_step_refl; auto.
    + exists []. rewrite app_nil_r. reflexivity.
  - inversion ND; subst.
    destruct (thread_step ev t s dl od I) as (s1 & o1 & dl1 & od1 & -> & I1 & O1 & (nd1 & ->) & P1 & P2).
    { intros ->. apply Fr. left; reflexivity. }
    destruct (IH s1 (dl ++ nd1) od1 H2 I1) as (s2 & o2 & dl2 & od2 & -> & I2 & O2 & (nd2 & ->)).
    { intros Hin v. rewrite P1, P2.
      - apply Fr. right; auto.
      - intros ->. contradiction. }
    exists s2, (o1 ++ o2), ((dl ++ nd1) ++ nd2), od2. sp; auto.
    + eapply od_step_trans; eauto.
    + exists (nd1 ++ nd2). rewrite app_assoc. reflexivity.
Qed.

Lemma inv_commit : forall s dl od, inv s dl od -> inv (commit s) dl od.
Proof.
  intros s dl od I. destruct I; constructor; cbn; auto.
  intros D. destruct (i_busy0 D) as (v & q & f & con & B1 & B2 & B3 & B4 & B5).
  exists v, q, f, con. sp; auto. specialize (i_pushc0 v). lia.
Qed.

Lemma m_step_step : forall ev s dl od, ok_minstant ev -> inv s dl od -> (forall v, pushc s v = pushn s v) ->
  exists s' o dl' od', m_step c ev s = Some (s', o) /\ inv s' dl' od' /\ od_step s od s' od' o /\
    (exists nd, dl' = dl ++ nd) /\ (forall v, pushc s' v = pushn s' v).
Proof.
  intros ev s dl od Ok I Fr. unfold m_step.
  destruct (threads_step ev (mths ev) s dl od Ok I (fun _ => Fr)) as (s1 & o1 & dl1 & od1 & -> & I1 & O1 & N1).
  exists (commit s1), o1, dl1, od1. sp; auto. apply inv_commit; auto.
Qed.

Lemma m_run_step : forall evs s dl od, Forall ok_minstant evs -> inv s dl od -> (forall v, pushc s v = pushn s v) ->
  exists s' o dl' od', m_run c evs s = Some (s', o) /\ inv s' dl' od' /\ od_step s od s' od' o /\
    (exists nd, dl' = dl ++ nd) /\ (forall v, pushc s' v = pushn s' v).
Proof.
  intros evs. induction evs as [|ev evs IH]; intros s dl od Ok I Fr; cbn.
  - exists s, [], dl, od. sp; auto.
    + apply od_step_refl; auto.
    + exists []. rewrite app_nil_r. reflexivity.
  - inversion Ok; subst.
    destruct (m_step_step ev s dl od H1 I Fr) as (s1 & o1 & dl1 & od1 & -> & I1 & O1 & (nd1 & ->) & F1).
    destruct (IH s1 _ od1 H2 I1 F1) as (s2 & o2 & dl2 & od2 & -> & I2 & O2 & (nd2 & ->) & F2).
    exists s2, (o1 ++ o2), ((dl ++ nd1) ++ nd2), od2. sp; auto.
    + eapply od_step_trans; eauto.
    + exists (nd1 ++ nd2). rewrite app_assoc. reflexivity.
Qed.

Lemma inv_init : forall input,
  (forall f, In f input -> (0 <= b_vc f)%Z /\ vcn f < m_nvc c) ->
  (forall v, filter (on_vc v) input ++ more v = concat (ps v)) ->
  inv (m_init c input) [] (fun _ => []).
Proof.
  intros input H1 H2. constructor; cbn; auto.
  - intros v. exists (ps v). split; auto. rewrite <- H2. unfold cur. cbn.
    destruct (seq 0 (m_nvc c)); reflexivity.
  - discriminate.
  - intros i. exists []. auto.
  - discriminate.
  - intros f [H|H]; [auto|discriminate].
Qed.

(** ** Progress *)

Definition sumf (n : nat) (f : nat -> nat) : nat := list_sum (map f (seq 0 n)).

Lemma sumf_gen : forall k n f g, (forall j, k <= j < k + n -> f j = g j) ->
  list_sum (map f (seq k n)) = list_sum (map g (seq k n)).
Proof.
  intros k n f g H. f_equal. apply map_ext_in. intros j Hj. apply in_seq in Hj. auto.
Qed.

Lemma sumf_ext : forall n f g, (forall j, f j = g j) -> sumf n f = sumf n g.
Proof. intros. apply sumf_gen. auto. Qed.

Lemma sumf_one : forall n f g k, k < n -> (forall j, j <> k -> g j = f j) ->
  sumf n g + f k = sumf n f + g k.
Proof.
  intros n f g k Hk H. unfold sumf.
  replace (seq 0 n) with (seq 0 k ++ seq k 1 ++ seq (S k) (n - S k)).
  - rewrite !map_app, !list_sum_app. cbn [seq map list_sum fold_right].
    rewrite (sumf_gen 0 k g f) by (intros; apply H; lia).
    rewrite (sumf_gen (S k) (n - S k) g f) by (intros; apply H; lia). cbn. lia.
  - replace n with (k + (1 + (n - S k))) at 2 by lia. rewrite !seq_app. cbn [Nat.add]. rewrite Nat.add_1_r. reflexivity.
Qed.

Lemma sumf_le : forall n f g, (forall j, j < n -> f j <= g j) -> sumf n f <= sumf n g.
Proof.
  intros n f g. unfold sumf. intros H.
  assert (X : forall l, (forall j, In j l -> f j <= g j) -> list_sum (map f l) <= list_sum (map g l)).
  { induction l; cbn; intros HH; [lia|]. pose proof (HH a (or_introl eq_refl)).
    assert (list_sum (map f l) <= list_sum (map g l)) by (apply IHl; auto). unfold list_sum in *. lia. }
  apply X. intros j Hj. apply in_seq in Hj. apply H. lia.
Qed.

Lemma sumf_lt : forall n f g k, k < n -> (forall j, j < n -> f j <= g j) -> f k < g k -> sumf n f < sumf n g.
Proof.
  intros n f g k Hk H Hlt.
  pose proof (sumf_one n f (fupd f k (g k)) k Hk ltac:(intros; apply fupd_other; auto)) as E.
  rewrite fupd_same in E.
  assert (sumf n (fupd f k (g k)) <= sumf n g).
  { apply sumf_le. intros j Hj. unfold fupd. destruct (Nat.eqb_spec j k); subst; auto. }
  lia.
Qed.

Definition pv (s : mst) (i : nat) : nat := match port s i with Some _ => 1 | None => 0 end.
Definition todo (s : mst) (i : nat) : nat := list_sum (map (nch i) (outq s i)) - chunk s i.
Definition wout (s : mst) (i : nat) : nat := 2 * todo s i - pv s i.
Definition meas (s : mst) : nat :=
  5 * length (inq s) + 4 * length (match pendfl s with Some f => [f] | None => [] end) +
  3 * sumf (m_nvc c) (fun v => length (ejf s v)) + 2 * length (constr s) + sumf (m_nif c) (wout s).

Definition frozen (s s' : mst) : Prop :=
  inq s' = inq s /\ pendfl s' = pendfl s /\ (forall v, ejf s' v = ejf s v) /\
  (forall i, outq s' i = outq s i) /\ depk s' = depk s.

Definition stuck (t : mthread) (ev : minstant) (s : mst) : Prop :=
  match t with
  | TOut => (forall i, mrdy ev i = true) -> forall i, i < m_nif c -> outq s i = []
  | TDepk => depk s = false /\ forall v, v < m_nvc c -> tails (ejf s v) = 0 \/
               exists f r, ejf s v = f :: r /\ m_obdepth c <= length (outq s (ifn f))
  | TEject => mavail ev = true -> (pendfl s = None /\ inq s = []) \/
               exists f, pendfl s = Some f /\ m_ejdepth c <= length (ejf s (vcn f))
  end.

Lemma frozen_refl : forall s, frozen s s.
Proof. intros. repeat split. Qed.

Lemma frozen_trans : forall a b d, frozen a b -> frozen b d -> frozen a d.
Proof.
  intros a b d (A1 & A2 & A3 & A4 & A5) (B1 & B2 & B3 & B4 & B5). repeat split; try congruence.
Qed.

Lemma stuck_frozen : forall t ev s s', frozen s s' -> stuck t ev s' -> stuck t ev s.
Proof.
  intros t ev s s' (A1 & A2 & A3 & A4 & A5) H. destruct t; cbn in *.
  - rewrite A1, A2 in H. intros Ha. destruct (H Ha) as [X|(f & X & Y)]; auto. right. exists f. rewrite <- A3. auto.
  - rewrite A5 in H. destruct H as (H1 & H2). split; auto. intros v Hv.
    destruct (H2 v Hv) as [X|(f & r & X & Y)]; rewrite A3 in X; auto. right. exists f, r. rewrite <- A4. auto.
  - intros Hr i Hi. rewrite <- A4. auto.
Qed.

Lemma todo_pos : forall s dl od i, inv s dl od -> outq s i <> [] -> 1 <= todo s i /\ chunk s i <= list_sum (map (nch i) (outq s i)).
Proof.
  intros s dl od i I N. pose proof (i_chunk _ _ _ I i) as CH. unfold todo.
  destruct (outq s i) as [|p r]; [congruence|]. cbn [map list_sum fold_right]. unfold nch at 1 3. lia.
Qed.

Lemma pv_le : forall s dl od i, inv s dl od -> pv s i <= todo s i.
Proof.
  intros s dl od i I. unfold pv. destruct (port s i) as [a|] eqn:P; [|lia].
  destruct (i_port _ _ _ I i a P) as (p & r & E & _). apply (todo_pos s dl od i I). congruence.
Qed.

Lemma out_one_meas : forall rdy i s dl od s' o od', inv s dl od -> i < m_nif c ->
  out_one c rdy i s = Some (s', o) -> inv s' dl od' ->
  (forall j, j <> i -> outq s' j = outq s j /\ port s' j = port s j /\ chunk s' j = chunk s j) ->
  (forall a, port s i = Some a -> rdy i = true ->
       (outq s' i = outq s i /\ chunk s' i = S (chunk s i)) \/
       (exists p, outq s i = p :: outq s' i /\ chunk s' i = 0 /\ S (chunk s i) = nch i p)) ->
  (port s i = None \/ rdy i = false -> outq s' i = outq s i /\ chunk s' i = chunk s i) ->
  (port s' i = None <-> outq s' i = []) ->
  (forall j, wout s' j <= wout s j) /\
  ((exists j, j < m_nif c /\ wout s' j < wout s j) \/
   ((forall j, outq s' j = outq s j) /\ (rdy i = true -> outq s i = []))).
Proof.
  intros rdy i s dl od s' o od' I Hi E I' H1 H2 H3 H4.
  assert (Wo : forall j, j <> i -> wout s' j = wout s j).
  { intros j N. unfold wout, todo, pv. destruct (H1 j N) as (-> & -> & ->). reflexivity. }
  pose proof (pv_le s dl od i I) as PV. pose proof (pv_le s' dl od' i I') as PV'.
  pose proof (todo_pos s' dl od' i I') as TP'. pose proof (todo_pos s dl od i I) as TP.
  assert (P' : pv s' i = match outq s' i with [] => 0 | _ => 1 end).
  { unfold pv. destruct (outq s' i) eqn:Q.
    - rewrite (proj2 H4); auto.
    - destruct (port s' i); auto. destruct H4 as (H4 & _). specialize (H4 eq_refl). discriminate. }
  destruct (port s i) as [a|] eqn:P.
  - assert (NE : outq s i <> []) by (destruct (i_port _ _ _ I i a P) as (p & r & -> & _); discriminate).
    specialize (TP NE). assert (PV1 : pv s i = 1) by (unfold pv; rewrite P; reflexivity).
    destruct (rdy i) eqn:Rd.
    + assert (T : todo s i = S (todo s' i) /\ (outq s' i = [] -> todo s' i = 0)).
      { destruct (H2 a eq_refl eq_refl) as [(Q1 & Q2)|(p & Q1 & Q2 & Q3)].
        - rewrite Q1 in *. specialize (TP' NE). unfold todo in *. rewrite Q1, Q2 in *. split; [lia|congruence].
        - unfold todo in *. rewrite Q1, Q2 in *. cbn [map list_sum fold_right] in *. split; [|intros ->; reflexivity].
          change (fold_right Nat.add 0 (map (nch i) (outq s' i))) with (list_sum (map (nch i) (outq s' i))). lia. }
      destruct T as (T1 & T2).
      assert (L : wout s' i < wout s i).
      { unfold wout. rewrite P', PV1. destruct (outq s' i) as [|p1 r1]; [rewrite (T2 eq_refl) in *; lia|lia]. }
      split; [|left; eauto]. intros j. destruct (Nat.eq_dec j i) as [->|N]; [lia|]. rewrite Wo; auto.
    + destruct (H3 (or_intror eq_refl)) as (H3a & H3b).
      assert (L : wout s' i <= wout s i).
      { unfold wout, todo. rewrite P', PV1, H3a, H3b. destruct (outq s i); [congruence|lia]. }
      split.
      * intros j. destruct (Nat.eq_dec j i) as [->|N]; [lia|]. rewrite Wo; auto.
      * right. split; [|discriminate]. intros j. destruct (Nat.eq_dec j i) as [->|N]; auto. apply H1; auto.
  - destruct (H3 (or_introl eq_refl)) as (H3a & H3b).
    assert (PV0 : pv s i = 0) by (unfold pv; rewrite P; reflexivity).
    assert (L : wout s' i <= wout s i).
    { unfold wout, todo. rewrite H3a, H3b, PV0. lia. }
    split.
    + intros j. destruct (Nat.eq_dec j i) as [->|N]; [lia|]. rewrite Wo; auto.
    + destruct (outq s i) as [|p r] eqn:Q.
      * right. split; auto. intros j. destruct (Nat.eq_dec j i) as [->|N]; [congruence|]. apply H1; auto.
      * left. exists i. split; auto. destruct (TP ltac:(discriminate)) as (TP1 & _).
        unfold wout. rewrite P', H3a, PV0. replace (todo s' i) with (todo s i); [lia|]. unfold todo. rewrite H3a, H3b, Q. reflexivity.
Qed.

Lemma out_loop_meas : forall rdy l s dl od s' o, inv s dl od -> (forall i, In i l -> i < m_nif c) ->
  out_loop c rdy l s = Some (s', o) ->
  (forall j, wout s' j <= wout s j) /\
  ((exists j, j < m_nif c /\ wout s' j < wout s j) \/
   ((forall j, outq s' j = outq s j) /\ (forall i, In i l -> rdy i = true -> outq s i = []))).
Proof.
  intros rdy l. induction l as [|i l IH]; intros s dl od s' o I Hl E; cbn in E.
  - inversion E; subst. split; auto. right. split; auto. intros i [].
  - destruct (out_one_step rdy i s dl od I) as (s1 & o1 & od1 & E1 & I1 & D1 & A1 & A2 & A3 & A4 & A5 & A6 & A7 & A8 & A9 & C1 & C2 & C3 & C4).
    rewrite E1 in E. destruct (out_loop c rdy l s1) as [[s2 o2]|] eqn:E2; [|discriminate]. inversion E; subst.
    destruct (out_one_meas rdy i s dl od s1 o1 od1 I (Hl i (or_introl eq_refl)) E1 I1 C1 C2 C3 C4) as (M1 & M2).
    destruct (IH s1 dl od1 s' o2 I1 ltac:(intros; apply Hl; right; auto) E2) as (N1 & N2).
    split.
    + intros j. specialize (M1 j). specialize (N1 j). lia.
    + destruct M2 as [(j & Hj & M2)|(M2 & M3)].
      * left. exists j. split; auto. specialize (N1 j). lia.
      * destruct N2 as [(j & Hj & N2)|(N2 & N3)].
        -- left. exists j. split; auto. specialize (M1 j). lia.
        -- right. split.
           ++ intros j. rewrite N2, M2. reflexivity.
           ++ intros k [<-|Hk] Rd; auto. rewrite <- M2. auto.
Qed.

Definition fr (s : mst) : Prop := forall v, pushc s v = pushn s v.

Lemma depk_meas : forall s s' o dl dl' od, inv s dl od -> inv s' dl' od -> depk_move s s' o dl dl' -> meas s' < meas s.
Proof.
  intros s s' o dl dl' od I I' (v & q & f & rest & PM & _ & E & E2 & E3 & E4 & E5 & E6 & E7 & E8 & _ & E9).
  assert (Hv : v < m_nvc c).
  { assert (In v (seq 0 (m_nvc c))) by (rewrite <- PM; left; reflexivity). apply in_seq in H. lia. }
  unfold meas. rewrite E3, E4.
  assert (S1 : sumf (m_nvc c) (fun u => length (ejf s' u)) + 1 = sumf (m_nvc c) (fun u => length (ejf s u))).
  { pose proof (sumf_one (m_nvc c) (fun u => length (ejf s u)) (fun u => length (ejf s' u)) v Hv) as X.
    cbn beta in X. rewrite E2 in *. rewrite fupd_same, E in X. cbn [length] in X.
    assert (Z : forall j, j <> v -> length (fupd (ejf s) v rest j) = length (ejf s j)).
    { intros j N. rewrite fupd_other; auto. }
    specialize (X Z). lia. }
  destruct E9 as [(_ & _ & E9 & _ & EC)|(T & p & Edl & EC & EL & E9 & _)].
  - assert (S2 : sumf (m_nif c) (wout s') = sumf (m_nif c) (wout s)).
    { apply sumf_ext. intros j. unfold wout, todo, pv. rewrite E9, E8, E7. reflexivity. }
    rewrite EC, app_length. cbn [length]. lia.
  - assert (Hp : pkt_iface c p < m_nif c).
    { assert (In (v, p) dl') by (rewrite Edl; apply in_or_app; right; left; reflexivity).
      pose proof (in_dl_wf _ _ _ _ _ I' H) as W. apply W. }
    assert (Hn : nch (pkt_iface c p) (map ts p) <= S (length (constr s))).
    { unfold nch. rewrite map_length, EL. apply nch_le; [lia|].
      assert (In (v, p) dl') by (rewrite Edl; apply in_or_app; right; left; reflexivity).
      pose proof (in_dl_wf _ _ _ _ _ I' H) as (_ & _ & W & _). exact W. }
    pose proof (sumf_one (m_nif c) (wout s) (wout s') (pkt_iface c p) Hp) as X.
    assert (Y : wout s' (pkt_iface c p) = wout s (pkt_iface c p) + 2 * nch (pkt_iface c p) (map ts p)).
    { pose proof (pv_le s dl od (pkt_iface c p) I) as PL. pose proof (i_chunk _ _ _ I (pkt_iface c p)) as CH.
      unfold wout, todo, pv in *. rewrite E9, E8, E7, fupd_same, map_app, list_sum_app. cbn [map list_sum fold_right].
      destruct (outq s (pkt_iface c p)) as [|p0 r0]; cbn [map list_sum fold_right] in *; [rewrite CH in *; lia|].
      unfold nch at 1 in PL. unfold nch at 1 4.
      change (fold_right Nat.add 0 (map (nch (pkt_iface c p)) r0)) with (list_sum (map (nch (pkt_iface c p)) r0)) in *. lia. }
    rewrite Y in X. assert (Z : forall j, j <> pkt_iface c p -> wout s' j = wout s j).
    { intros j N. unfold wout, todo, pv. rewrite E9, E8, E7, fupd_other; auto. }
    specialize (X Z). rewrite EC. cbn [length]. lia.
Qed.

Lemma eject_meas : forall s dl od av s' o, inv s dl od -> run_eject c av s = Some (s', o) ->
  meas s' < meas s \/
  (s' = s /\ (av = true -> (pendfl s = None /\ inq s = []) \/
               exists f, pendfl s = Some f /\ m_ejdepth c <= length (ejf s (vcn f)))).
Proof.
  intros s dl od av s' o I E. unfold run_eject in E.
  assert (Hsum : forall f, vcn f < m_nvc c ->
    sumf (m_nvc c) (fun v => length (fupd (ejf s) (vcn f) (ejf s (vcn f) ++ [ts f]) v)) =
    sumf (m_nvc c) (fun v => length (ejf s v)) + 1).
  { intros f Hf.
    pose proof (sumf_one (m_nvc c) (fun v => length (ejf s v))
      (fun v => length (fupd (ejf s) (vcn f) (ejf s (vcn f) ++ [ts f]) v)) (vcn f) Hf) as X.
    cbn in X. rewrite fupd_same, app_length in X. cbn in X.
    assert (Y : forall j, j <> vcn f -> length (fupd (ejf s) (vcn f) (ejf s (vcn f) ++ [ts f]) j) = length (ejf s j)).
    { intros j N. rewrite fupd_other; auto. }
    specialize (X Y). lia. }
  destruct (pendfl s) as [f|] eqn:P.
  - destruct (i_in _ _ _ I f (or_intror P)) as (Z1 & Z2).
    apply Z.leb_le in Z1. rewrite Z1 in E. unfold vcn in Z2. apply Nat.ltb_lt in Z2 as Z3. rewrite Z3 in E.
    cbn [andb] in E. fold (vcn f) in E, Z2.
    destruct (Nat.ltb_spec (length (ejf s (vcn f))) (m_ejdepth c)); inversion E; subst; clear E.
    + left. unfold meas. cbn [inq pendfl ejf outq port constr]. rewrite P, Hsum by auto.
      assert (X : sumf (m_nif c) (wout {| inq := inq s; pendfl := None;
         ejf := fupd (ejf s) (vcn f) (ejf s (vcn f) ++ [ts f]); pushc := pushc s;
         pushn := if b_tail f then fupd (pushn s) (vcn f) (S (pushc s (vcn f))) else pushn s;
         popc := popc s; prioq := prioq s; depk := depk s; constr := constr s; outq := outq s;
         chunk := chunk s; port := port s |}) = sumf (m_nif c) (wout s)) by (apply sumf_ext; reflexivity).
      rewrite X. cbn [length]. lia.
    + right. split; [destruct s; cbn in *; subst; reflexivity|]. intros _. right. eauto.
  - destruct av.
    + destruct (inq s) as [|f r] eqn:Q.
      * inversion E; subst. right. split; auto.
      * left. destruct (i_in _ _ _ I f) as (Z1 & Z2); [left; rewrite Q; left; reflexivity|].
        apply Z.leb_le in Z1. rewrite Z1 in E. unfold vcn in Z2. apply Nat.ltb_lt in Z2 as Z3. rewrite Z3 in E.
        cbn [andb] in E. fold (vcn f) in E, Z2.
        destruct (Nat.ltb_spec (length (ejf s (vcn f))) (m_ejdepth c)); inversion E; subst; clear E;
          unfold meas; cbn [inq pendfl ejf outq port constr]; rewrite P, Q, ?Hsum by auto;
          match goal with |- context [sumf (m_nif c) (wout ?z)] =>
            lazymatch z with s => fail | _ => 
            replace (sumf (m_nif c) (wout z)) with (sumf (m_nif c) (wout s)) by (apply sumf_ext; reflexivity) end end;
          cbn [length]; lia.
    + inversion E; subst. right. split; auto. discriminate.
Qed.

Lemma thread_meas : forall ev t s dl od s' o, inv s dl od -> (t = TEject -> fr s) ->
  m_thread c ev t s = Some (s', o) ->
  meas s' < meas s \/ (meas s' = meas s /\ frozen s s' /\ pushc s' = pushc s /\ pushn s' = pushn s /\
                       popc s' = popc s /\ (fr s -> stuck t ev s)) \/
  (meas s' = meas s /\ t = TOut /\ frozen s s' /\ pushc s' = pushc s /\ pushn s' = pushn s /\ stuck t ev s).
Proof.
  intros ev t s dl od s' o I Fr E. destruct t; cbn [m_thread] in E.
  - destruct (eject_meas _ _ _ _ _ _ I E) as [H|(-> & H)]; auto.
    right. left. repeat split; auto.
  - destruct (depk_step s dl od I) as (s1 & o1 & dl1 & E1 & I1 & M). rewrite E1 in E. inversion E; subst s1 o1.
    destruct M as [M|(-> & -> & Dk & Hno & q & ->)].
    + left. eapply depk_meas; eauto.
    + right. left. cbn [pushc pushn popc]. split; [reflexivity|]. split; [repeat split|].
      split; [reflexivity|]. split; [reflexivity|]. split; [reflexivity|]. intros H. split; [exact Dk|].
      { intros v Hv. destruct (Nat.eq_dec (tails (ejf s v)) 0) as [|N]; auto. right.
        assert (Hlt : popc s v < pushc s v) by (rewrite H, (i_push _ _ _ I v); lia).
        pose proof (pushed_nonempty _ _ _ _ I Hlt) as NE.
        destruct (ejf s v) as [|f r] eqn:Q; [congruence|]. exists f, r. split; auto.
        destruct (Nat.le_gt_cases (m_obdepth c) (length (outq s (ifn f)))); auto.
        exfalso. apply (Hno v (ifn f) Hv). exists f, r. auto. }
  - destruct (out_loop_step (mrdy ev) (seq 0 (m_nif c)) s dl od I) as (s1 & o1 & od1 & E1 & I1 & D & A1 & A2 & A3 & A4 & A5 & A6 & A7 & A8 & A9).
    rewrite E1 in E. inversion E; subst s1 o1.
    destruct (out_loop_meas (mrdy ev) (seq 0 (m_nif c)) s dl od s' o I) as (M1 & M2); auto.
    { intros i Hi. apply in_seq in Hi. lia. }
    assert (X : meas s' + sumf (m_nif c) (wout s) = meas s + sumf (m_nif c) (wout s')).
    { unfold meas. rewrite A1, A2, A3, A8. lia. }
    destruct M2 as [(j & Hj & M2)|(M2 & M3)].
    + left. assert (sumf (m_nif c) (wout s') < sumf (m_nif c) (wout s)) by (eapply sumf_lt; eauto). lia.
    + assert (sumf (m_nif c) (wout s') <= sumf (m_nif c) (wout s)) by (apply sumf_le; auto).
      destruct (Nat.eq_dec (sumf (m_nif c) (wout s')) (sumf (m_nif c) (wout s))); [|left; lia].
      right. right. split; [lia|]. repeat split; auto; try congruence.
      intros Hr i Hi. apply M3; auto. apply in_seq. lia.
Qed.

Lemma threads_meas : forall ev l s dl od s' o, NoDup l -> inv s dl od -> (In TEject l -> fr s) ->
  m_threads c ev l s = Some (s', o) ->
  meas s' <= meas s /\
  (fr s -> meas s' < meas s \/ (frozen s s' /\ fr s' /\ forall t, In t l -> stuck t ev s)).
Proof.
  intros ev l. induction l as [|t l IH]; intros s dl od s' o ND I Fr E; cbn in E.
  - inversion E; subst. split; auto. intros F. right. split; [apply frozen_refl|]. split; auto. intros t [].
  - inversion ND; subst.
    destruct (thread_step ev t s dl od I) as (s1 & o1 & dl1 & od1 & E1 & I1 & O1 & _ & P1 & P2).
    { intros ->. apply Fr. left; reflexivity. }
    rewrite E1 in E. destruct (m_threads c ev l s1) as [[s2 o2]|] eqn:E2; [|discriminate]. inversion E; subst.
    destruct (IH s1 dl1 od1 s' o2 H2 I1) as (N1 & N2); auto.
    { intros Hin. assert (F : fr s) by (apply Fr; right; auto). intros v.
      rewrite P1, P2; [apply F|]. intros ->. contradiction. }
    destruct (thread_meas ev t s dl od s1 o1 I) as [M|[(M1 & M2 & M3 & M4 & M5 & M6)|(M1 & M2 & M3 & M4 & M5 & M6)]]; auto.
    { intros ->. apply Fr. left; reflexivity. }
    + split; [lia|]. intros _. left. lia.
    + split; [lia|]. intros F.
      assert (F1 : fr s1) by (intros v; rewrite M3, M4; apply F).
      destruct (N2 F1) as [N3|(N3 & N4 & N5)]; [left; lia|]. right.
      split; [eapply frozen_trans; eauto|]. split; auto.
      intros t' [<-|Hin]; auto. eapply stuck_frozen; eauto.
    + split; [lia|]. intros F.
      assert (F1 : fr s1) by (intros v; rewrite M4, M5; apply F).
      destruct (N2 F1) as [N3|(N3 & N4 & N5)]; [left; lia|]. right.
      split; [eapply frozen_trans; eauto|]. split; auto.
      intros t' [<-|Hin]; auto. eapply stuck_frozen; eauto.
Qed.

Lemma run_meas : forall evs s dl od s' o, Forall ok_minstant evs -> inv s dl od -> fr s ->
  m_run c evs s = Some (s', o) ->
  meas s' < meas s \/
  (meas s' <= meas s /\ frozen s s' /\ forall ev t, In ev evs -> In t (mths ev) -> stuck t ev s).
Proof.
  intros evs. induction evs as [|ev evs IH]; intros s dl od s' o Ok I F E; cbn in E.
  - inversion E; subst. right. split; auto. split; [apply frozen_refl|]. intros ev t [].
  - inversion Ok; subst.
    destruct (m_step_step ev s dl od H1 I F) as (s1 & o1 & dl1 & od1 & E1 & I1 & O1 & _ & F1).
    rewrite E1 in E. destruct (m_run c evs s1) as [[s2 o2]|] eqn:E2; [|discriminate]. inversion E; subst.
    unfold m_step in E1. destruct (m_threads c ev (mths ev) s) as [[s0 o0]|] eqn:E0; [|discriminate].
    inversion E1; subst.
    destruct (threads_meas ev (mths ev) s dl od s0 o1 H1 I (fun _ => F) E0) as (M1 & M2).
    assert (MC : meas (commit s0) = meas s0) by reflexivity.
    specialize (IH _ _ _ _ _ H2 I1 F1 E2).
    destruct (M2 F) as [M3|(M3 & M4 & M5)].
    + left. destruct IH as [IH|(IH & _)]; lia.
    + destruct IH as [IH|(IH & IH2 & IH3)]; [left; lia|].
      right. split; [lia|].
      assert (FZ : frozen s (commit s0)) by exact M3.
      split; [eapply frozen_trans; eauto|].
      intros ev' t [<-|Hin] Ht; auto. eapply stuck_frozen; eauto.
Qed.

Lemma m_run_app : forall a b s, m_run c (a ++ b) s =
  match m_run c a s with
  | None => None
  | Some (s1, o1) => match m_run c b s1 with None => None | Some (s2, o2) => Some (s2, o1 ++ o2) end
  end.
Proof.
  induction a as [|x a IH]; intros b s; cbn.
  - destruct (m_run c b s) as [[s2 o2]|]; reflexivity.
  - destruct (m_step c x s) as [[s1 o1]|]; auto. rewrite IH.
    destruct (m_run c a s1) as [[s2 o2]|]; auto. destruct (m_run c b s2) as [[s3 o3]|]; auto.
    rewrite app_assoc. reflexivity.
Qed.

(** Nothing deliverable is left. *)
Definition drained (s : mst) : Prop :=
  pendfl s = None /\ inq s = [] /\ (forall v, tails (ejf s v) = 0) /\ (forall i, outq s i = []) /\ depk s = false.

Lemma ejf_nvc : forall s dl od v, inv s dl od -> (forall v, m_nvc c <= v -> ps v = []) -> m_nvc c <= v -> ejf s v = [].
Proof.
  intros s dl od v I H Hv. destruct (i_R _ _ _ I v) as (R & E1 & E2). rewrite (H v Hv) in E1.
  symmetry in E1. apply app_eq_nil in E1. destruct E1 as (_ & ->). cbn in E2.
  symmetry in E2. apply app_eq_nil in E2. destruct E2 as (_ & E2). apply app_eq_nil in E2. tauto.
Qed.

Lemma outq_nif : forall s dl od i, inv s dl od -> m_nif c <= i -> outq s i = [].
Proof.
  intros s dl od i I Hi. destruct (i_out _ _ _ I i) as (oq & E1 & E2). rewrite E2.
  destruct oq as [|p oq]; auto. exfalso.
  assert (Hin : In p (filter (oni i) (map snd dl))) by (rewrite E1; apply in_or_app; right; left; reflexivity).
  apply filter_In in Hin. destruct Hin as (Hin & Hp). apply Nat.eqb_eq in Hp.
  apply in_map_iff in Hin. destruct Hin as ((v & p0) & X & Hin). cbn in X. subst p0.
  pose proof (in_dl_wf _ _ _ _ _ I Hin) as (_ & W & _). lia.
Qed.

Lemma stuck_drained : forall s dl od e1 e2 e3, inv s dl od -> (1 <= m_obdepth c) -> (forall v, m_nvc c <= v -> ps v = []) ->
  (forall v p, In p (ps v) -> length p <= m_ejdepth c) ->
  stuck TEject e1 s -> mavail e1 = true -> stuck TDepk e2 s -> stuck TOut e3 s -> (forall i, mrdy e3 i = true) ->
  drained s.
Proof.
  intros s dl od e1 e2 e3 I Hob Hps Hlen S1 A1 S2 S3 R3. cbn in S1, S2, S3.
  specialize (S1 A1). destruct S2 as (Dk & S2). specialize (S3 R3).
  assert (OQ : forall i, outq s i = []).
  { intros i. destruct (Nat.lt_ge_cases i (m_nif c)); auto. eapply outq_nif; eauto. }
  assert (TL : forall v, tails (ejf s v) = 0).
  { intros v. destruct (Nat.lt_ge_cases v (m_nvc c)) as [Hv|Hv].
    - destruct (S2 v Hv) as [|(f & r & _ & X)]; auto. rewrite OQ in X. cbn in X. lia.
    - rewrite (ejf_nvc _ _ _ _ I Hps Hv). reflexivity. }
  destruct S1 as [(P & Q)|(f & P & Q)].
  - repeat split; auto.
  - exfalso. destruct (i_R _ _ _ I (vcn f)) as (R & E1 & E2).
    assert (HC : cur s (vcn f) = []). { unfold cur. destruct (prioq s); auto. rewrite Dk. reflexivity. }
    rewrite HC in E2. cbn [app] in E2. unfold pendv in E2. rewrite P in E2. unfold on_vc at 1 in E2.
    rewrite Nat.eqb_refl in E2. cbn [app map] in E2.
    pose proof (R_wf _ _ _ E1) as W.
    destruct R as [|p R']; [cbn in E2; destruct (ejf s (vcn f)); discriminate|].
    inversion W as [|x l Wp WR']; subst x l. cbn [concat] in E2. rewrite map_app in E2.
    destruct (packet_prefix _ _ _ _ _ Wp (TL _) E2) as (p2 & Ep & _ & _).
    assert (length p <= m_ejdepth c).
    { apply (Hlen (vcn f)). rewrite E1. apply in_or_app. right. left. reflexivity. }
    assert (length (map ts p) = length (ejf s (vcn f) ++ ts f :: p2)) by (f_equal; exact Ep).
    rewrite map_length, app_length in H0. cbn in H0. lia.
Qed.

Lemma drained_frozen : forall s s', frozen s s' -> drained s -> drained s'.
Proof.
  intros s s' (A1 & A2 & A3 & A4 & A5) (B1 & B2 & B3 & B4 & B5). repeat split; congruence.
Qed.

Lemma drained_thread : forall ev t s dl od s' o, inv s dl od -> drained s ->
  m_thread c ev t s = Some (s', o) -> drained s'.
Proof.
  intros ev t s dl od s' o I (D1 & D2 & D3 & D4 & D5) E1. destruct t; cbn [m_thread] in E1.
  - unfold run_eject in E1. rewrite D1, D2 in E1. destruct (mavail ev); inversion E1; subst; repeat split; auto.
  - destruct (depk_step s dl od I) as (s3 & o3 & dl3 & E3 & I3 & M). rewrite E3 in E1. inversion E1; subst s3 o3.
    destruct M as [M|(_ & _ & Dk & _ & q & ->)]; [|repeat split; auto].
    exfalso. destruct M as (v & q & f & rest & _ & M2 & _).
    pose proof (i_push _ _ _ I v) as Pn. pose proof (i_pushc _ _ _ I v) as Pc. rewrite D3 in Pn. lia.
  - destruct (out_loop_step (mrdy ev) (seq 0 (m_nif c)) s dl od I) as (s3 & o3 & od3 & E3 & I3 & D & A1 & A2 & A3 & A4 & A5 & A6 & A7 & A8 & A9).
    rewrite E3 in E1. inversion E1; subst s3 o3.
    destruct (out_loop_meas (mrdy ev) (seq 0 (m_nif c)) s dl od s' o I) as (M1 & M2); auto.
    { intros i Hi. apply in_seq in Hi. lia. }
    destruct M2 as [(j & Hj & M2)|(M2 & M3)].
    + exfalso. unfold wout at 2, todo in M2. rewrite D4 in M2. cbn in M2. lia.
    + repeat split; congruence.
Qed.

Lemma drained_threads : forall ev l s dl od s' o, inv s dl od -> NoDup l -> (In TEject l -> fr s) -> drained s ->
  m_threads c ev l s = Some (s', o) -> drained s'.
Proof.
  intros ev l. induction l as [|t l IH]; intros s dl od s' o I ND Fr D E; cbn in E.
  - inversion E; subst; auto.
  - inversion ND; subst.
    destruct (thread_step ev t s dl od I) as (s1 & o1 & dl1 & od1 & E1 & I1 & O1 & _ & P1 & P2).
    { intros ->. apply Fr. left; reflexivity. }
    rewrite E1 in E. destruct (m_threads c ev l s1) as [[s2 o2]|] eqn:E2; [|discriminate]. inversion E; subst.
    eapply IH; [exact I1|auto| | |exact E2].
    + intros Hin v. rewrite P1, P2; [apply Fr; right; auto|]. intros ->. contradiction.
    + exact (drained_thread ev t s dl od s1 o1 I D E1).
Qed.

Lemma drained_run : forall evs, Forall ok_minstant evs -> forall s dl od s' o, inv s dl od -> fr s -> drained s ->
  m_run c evs s = Some (s', o) -> drained s'.
Proof.
  intros evs. induction evs as [|ev evs IH]; intros Ok s dl od s' o I F D E; cbn in E.
  - inversion E; subst; auto.
  - inversion Ok; subst.
    destruct (m_step_step ev s dl od H1 I F) as (s1 & o1 & dl1 & od1 & E1 & I1 & O1 & _ & F1).
    rewrite E1 in E. destruct (m_run c evs s1) as [[s2 o2]|] eqn:E2; [|discriminate]. inversion E; subst.
    eapply IH; [auto|exact I1|auto| |exact E2].
    clear IH E E2. unfold m_step in E1.
    destruct (m_threads c ev (mths ev) s) as [[s0 o0]|] eqn:E0; [|discriminate].
    inversion E1; subst. change (drained s0). exact (drained_threads ev (mths ev) s dl od s0 o1 I H1 (fun _ => F) D E0).
Qed.

Lemma rounds_drain : (1 <= m_obdepth c) -> (forall v, m_nvc c <= v -> ps v = []) ->
  (forall v p, In p (ps v) -> length p <= m_ejdepth c) ->
  forall n evs, mrounds n evs -> Forall ok_minstant evs -> forall s dl od s' o, inv s dl od -> fr s ->
  m_run c evs s = Some (s', o) -> meas s < n -> drained s'.
Proof.
  intros Hob Hps Hlen n evs H. induction H as [evs|n seg evs T1 T2 T3 H IH]; intros Ok s dl od s' o I F E Hn; [lia|].
  apply Forall_app in Ok. destruct Ok as (Ok1 & Ok2).
  destruct (m_run_step seg s dl od Ok1 I F) as (s1 & o1 & dl1 & od1 & E1 & I1 & _ & _ & F1).
  rewrite m_run_app, E1 in E. destruct (m_run c evs s1) as [[s2 o2]|] eqn:E2; [|discriminate]. inversion E; subst.
  destruct (run_meas seg s dl od s1 o1 Ok1 I F E1) as [M|(M & Fz & St)].
  - eapply IH; eauto. lia.
  - destruct T1 as (e1 & Te1 & Te2 & Te3). destruct T2 as (e2 & Td1 & Td2). destruct T3 as (e3 & To1 & To2 & To3).
    assert (D : drained s) by (eapply stuck_drained with (e1 := e1) (e2 := e2) (e3 := e3); eauto).
    eapply drained_run; [exact Ok2|exact I1|auto| |exact E2]. eapply drained_frozen; eauto.
Qed.

(** ** Packets longer than the ejection FIFO *)

Definition jam (s : mst) : Prop :=
  (exists od, inv s [] od) /\ depk s = false /\ forall u, length (ejf s u) <= m_ejdepth c.

Lemma jam_tails : (forall v p, In p (ps v) -> m_ejdepth c < length p) -> forall s, jam s -> forall v, tails (ejf s v) = 0.
Proof.
  intros HL s ((od & I) & Dk & Hlen) v. destruct (i_R _ _ _ I v) as (R & R1 & R2). cbn in R1.
  assert (HC : cur s v = []). { unfold cur. destruct (prioq s); auto. rewrite Dk. reflexivity. }
  rewrite HC in R2. cbn [app] in R2.
  specialize (Hlen v). destruct R as [|p R'].
  - cbn in R2. symmetry in R2. apply app_eq_nil in R2. destruct R2 as (-> & _). reflexivity.
  - assert (HP : m_ejdepth c < length p) by (apply (HL v); rewrite R1; left; reflexivity).
    assert (W : wf_wide c p). { pose proof (WF v) as W. rewrite R1 in W. inversion W; auto. }
    destruct W as (_ & _ & _ & W & _).
    unfold tails. replace (filter f_tail (ejf s v)) with (@nil sflit); auto. symmetry.
    destruct (filter f_tail (ejf s v)) as [|x l] eqn:E; auto. exfalso.
    assert (Hx : In x (filter f_tail (ejf s v))) by (rewrite E; left; reflexivity).
    apply filter_In in Hx. destruct Hx as (Hx & Tx). apply In_nth_error in Hx. destruct Hx as (j & Hj).
    assert (Lj : j < length (ejf s v)) by (apply nth_error_Some; rewrite Hj; discriminate).
    pose proof (f_equal (fun l => nth_error l j) R2) as X. cbv beta in X.
    rewrite (nth_error_app1 (ejf s v)) in X by lia. cbn [concat] in X. rewrite map_app, nth_error_app1 in X by (rewrite map_length; lia).
    rewrite Hj in X. rewrite nth_error_map in X. destruct (nth_error p j) as [b|] eqn:B; [|discriminate].
    cbn in X. inversion X; subst. cbn in Tx. apply (W j b B) in Tx. lia.
Qed.

Lemma jam_fr : (forall v p, In p (ps v) -> m_ejdepth c < length p) -> forall s, jam s -> fr s.
Proof.
  intros HL s J v. pose proof (jam_tails HL s J v) as T. destruct J as ((od & I) & _ & _).
  pose proof (i_push _ _ _ I v). pose proof (i_pop _ _ _ I v). pose proof (i_pushc _ _ _ I v). cbn in H0. lia.
Qed.

Lemma jam_thread : (forall v p, In p (ps v) -> m_ejdepth c < length p) -> forall ev t s, jam s ->
  exists s' o, m_thread c ev t s = Some (s', o) /\ jam s' /\ (forall i, delivers i o = []).
Proof.
  intros HL ev t s J. pose proof (jam_tails HL s J) as T. pose proof (jam_fr HL s J) as Fr. destruct J as ((od & I) & Dk & Hlen). destruct t; cbn [m_thread].
  - destruct (eject_step s [] od (mavail ev) I Fr) as (s' & o & E & I' & D). exists s', o. split; auto.
    assert (X : depk s' = depk s /\ pushc s' = pushc s /\ forall u, length (ejf s' u) <= m_ejdepth c).
    { unfold run_eject in E. revert E.
      destruct (match pendfl s with Some f => _ | None => _ end) as [[[f|] q] o'].
      - destruct (_ && _); [|discriminate].
        destruct (Nat.ltb_spec (length (ejf s (Z.to_nat (b_vc f)))) (m_ejdepth c));
          intros X; inversion X; cbn [depk pushc ejf]; sp; auto.
        intros u. unfold fupd. destruct (Nat.eqb_spec u (Z.to_nat (b_vc f))); auto. rewrite app_length. cbn. lia.
      - intros X; inversion X; subst; auto. }
    destruct X as (X1 & X2 & X3).
    assert (J' : jam s') by (split; [eauto|split; [congruence|auto]]).
    sp; auto.
  - destruct (depk_step s [] od I) as (s' & o & dl' & E & I' & M). exists s', o. split; auto.
    destruct M as [M|(-> & -> & _ & _ & q & ->)].
    + exfalso. destruct M as (v & q & f & rest & _ & M2 & _).
      pose proof (i_push _ _ _ I v) as Pn. pose proof (i_pushc _ _ _ I v) as Pc. rewrite T in Pn. lia.
    + sp; auto. split; [eauto|]. auto.
  - destruct (out_loop_step (mrdy ev) (seq 0 (m_nif c)) s [] od I) as (s' & o & od' & E & I' & D & A1 & A2 & A3 & A4 & A5 & A6 & A7 & A8 & A9).
    exists s', o. split; auto. sp; auto.
    + split; [eauto|]. split; [congruence|]. intros u. rewrite A1. auto.
    + intros i. pose proof (D i) as N1. destruct (i_out _ _ _ I' i) as (oq & O1 & O2). cbn in O1.
      symmetry in O1. apply app_eq_nil in O1. destruct O1 as (O1 & ->). unfold dn at 1 in N1. rewrite O1, O2 in N1. cbn in N1.
      symmetry in N1. apply app_eq_nil in N1. tauto.
Qed.

Lemma jam_run : (forall v p, In p (ps v) -> m_ejdepth c < length p) -> forall evs s, jam s ->
  exists s' o, m_run c evs s = Some (s', o) /\ jam s' /\ (forall i, delivers i o = []).
Proof.
  intros HL.
  assert (TH : forall ev l s, jam s ->
    exists s' o, m_threads c ev l s = Some (s', o) /\ jam s' /\ (forall i, delivers i o = [])).
  { intros ev l. induction l as [|t l IH]; intros s J; cbn; [exists s, []; auto|].
    destruct (jam_thread HL ev t s J) as (s1 & o1 & -> & J1 & D1).
    destruct (IH s1 J1) as (s2 & o2 & -> & J2 & D2). exists s2, (o1 ++ o2). sp; auto.
    intros i. rewrite delivers_app, D1, D2. reflexivity. }
  intros evs. induction evs as [|ev evs IH]; intros s J; cbn; [exists s, []; auto|].
  unfold m_step. destruct (TH ev (mths ev) s J) as (s1 & o1 & -> & J1 & D1).
  assert (J1' : jam (commit s1)).
  { destruct J1 as ((od & I1) & Dk & L). split; [exists od; apply inv_commit; auto|]. split; auto. }
  destruct (IH _ J1') as (s2 & o2 & -> & J2 & D2). exists s2, (o1 ++ o2). sp; auto.
  intros i. rewrite delivers_app, D1, D2. reflexivity.
Qed.

End M.

Lemma one_chunk : forall n m, 1 <= n -> n <= m -> num_chunks n m = 1.
Proof.
  intros n m H1 H2. unfold num_chunks. replace (n + m - 1) with ((n - 1) + 1 * m) by lia.
  rewrite Nat.div_add by lia. rewrite Nat.div_small by lia. lia.
Qed.

Lemma nch_transfers : forall c p, wf_wide c p -> nch c (pkt_iface c p) p = transfers c p.
Proof.
  intros c p (W1 & _ & W3 & _). unfold nch, num_chunks, transfers.
  assert (1 <= length p) by (destruct p; [congruence|cbn; lia]).
  replace (length p + m_nfl c (pkt_iface c p) - 1) with ((length p - 1) + 1 * m_nfl c (pkt_iface c p)) by lia.
  rewrite Nat.div_add by lia. lia.
Qed.

Lemma flat_map_in_ext : forall A B (f g : A -> list B) l, (forall x, In x l -> f x = g x) -> flat_map f l = flat_map g l.
Proof. intros A B f g l H. induction l as [|x l IH]; [reflexivity|]. cbn. rewrite (H x (or_introl eq_refl)), IH; auto. intros y Y. apply H. right. exact Y. Qed.

Lemma repeat_split : forall A (x : A) n m, n <= m -> exists r, repeat x m = repeat x n ++ r.
Proof. intros A x n m H. exists (repeat x (m - n)). rewrite <- repeat_app. f_equal. lia. Qed.

Lemma run_safe_wide : forall c input ps evs, good_mcfg c -> wide_input c input ps -> Forall ok_minstant evs ->
  exists s o, m_run c evs (m_init c input) = Some (s, o) /\
  exists dl : list (nat * list bflit),
    (forall v, exists rest, ps v = map snd (filter (fun x => Nat.eqb (fst x) v) dl) ++ rest) /\
    (forall i, exists rest,
       flat_map (fun p => repeat (spec_out c p) (transfers c p)) (filter (fun p => Nat.eqb (pkt_iface c p) i) (map snd dl)) = delivers i o ++ rest).
Proof.
  intros c input ps evs G (Hin & Hps) Ok.
  assert (HM : forall v, filter (on_vc v) input ++ skipn (length (filter (on_vc v) input)) (concat (ps v)) = concat (ps v)).
  { intros v. destruct (Hps v) as (_ & more & E). rewrite <- E, skipn_app, skipn_all, Nat.sub_diag. reflexivity. }
  pose proof (inv_init c ps (fun v => skipn (length (filter (on_vc v) input)) (concat (ps v))) input Hin HM) as I.
  destruct (m_run_step c G ps _ (fun v => proj1 (Hps v)) evs _ _ _ Ok I (fun _ => eq_refl))
    as (s & o & dl & od & E & I' & O & _ & _).
  exists s, o. split; auto. exists dl. split.
  - intros v. destruct (i_R _ _ _ _ _ _ I' v) as (R & R1 & _). exists R. exact R1.
  - intros i. destruct (i_out _ _ _ _ _ _ I' i) as (oq & O1 & O2).
    pose proof (O i) as N1. unfold dn at 2 in N1. cbn [flat_map m_init outq chunk app] in N1.
    assert (WT : forall p, In p (filter (oni c i) (map snd dl)) -> nch c i p = transfers c p).
    { intros p H. apply filter_In in H. destruct H as (H & Hi). apply Nat.eqb_eq in Hi. subst i. apply nch_transfers.
      apply in_map_iff in H. destruct H as ((v & p0) & X & H). cbn in X. subst p0.
      eapply (in_dl_wf c ps _ (fun v => proj1 (Hps v))); eauto. }
    fold (oni c i). rewrite O1, flat_map_app.
    assert (EQ : flat_map (fun p => repeat (spec_out c p) (transfers c p)) (od i) = flat_map (fun p => repeat (spec_out c p) (nch c i p)) (od i)).
    { apply flat_map_in_ext. intros p H. rewrite WT; [reflexivity|]. rewrite O1. apply in_or_app. left. exact H. }
    rewrite EQ. unfold dn in N1. pose proof (i_chunk _ _ _ _ _ _ I' i) as CH. rewrite O2 in CH, N1.
    destruct oq as [|p oq]; cbn [map] in N1, CH.
    + rewrite <- N1. exists []. rewrite !app_nil_r. reflexivity.
    + rewrite map_length in CH. cbn [flat_map]. rewrite <- (WT p) by (rewrite O1; apply in_or_app; right; left; reflexivity).
      destruct (repeat_split _ (spec_out c p) (chunk s i) (nch c i p)) as (r & Er); [unfold nch; lia|].
      rewrite axis_of_spec in N1. rewrite Er, app_assoc, app_assoc, N1, <- app_assoc. eauto.
Qed.

Lemma good_wide : forall c input ps, good_input c input ps -> wide_input c input ps.
Proof.
  intros c input ps (H1 & H2). split; [exact H1|]. intros v. destruct (H2 v) as (W & M). split; [|exact M].
  apply Forall_forall. rewrite Forall_forall in W. intros p Hp. destruct (W p Hp) as (W1 & W2 & W3 & W4).
  split; [exact W1|]. split; [exact W2|]. split; [|exact W4]. destruct p; [congruence|]. cbn [length] in W3. lia.
Qed.

Lemma narrow_map : forall c i (dl : list (nat * list bflit)),
  (forall p, In p (map snd dl) -> wf_packet c p) ->
  flat_map (fun p => repeat (spec_out c p) (transfers c p)) (filter (fun p => Nat.eqb (pkt_iface c p) i) (map snd dl)) =
  map (spec_out c) (filter (fun p => Nat.eqb (pkt_iface c p) i) (map snd dl)).
Proof.
  intros c i dl H. rewrite (flat_map_concat_map (fun p => repeat (spec_out c p) (transfers c p))), <- (flat_map_concat_map).
  induction (map snd dl) as [|p l IH]; [reflexivity|]. cbn [filter].
  assert (IH' := IH (fun q Q => H q (or_intror Q))). destruct (Nat.eqb (pkt_iface c p) i); [|exact IH'].
  cbn [flat_map map]. rewrite IH'. destruct (H p (or_introl eq_refl)) as (W1 & W2 & W3 & _).
  unfold transfers. rewrite Nat.div_small; [reflexivity|]. destruct p; [congruence|]. cbn [length] in *. lia.
Qed.

Lemma run_safe : forall c input ps evs, good_mcfg c -> good_input c input ps -> Forall ok_minstant evs ->
  exists s o, m_run c evs (m_init c input) = Some (s, o) /\
  exists dl : list (nat * list bflit),
    (forall v, exists rest, ps v = map snd (filter (fun x => Nat.eqb (fst x) v) dl) ++ rest) /\
    (forall i, exists rest,
       map (spec_out c) (filter (fun p => Nat.eqb (pkt_iface c p) i) (map snd dl)) = delivers i o ++ rest).
Proof.
  intros c input ps evs G GI Ok.
  destruct (run_safe_wide c input ps evs G (good_wide _ _ _ GI) Ok) as (s & o & E & dl & D1 & D2).
  exists s, o. split; [exact E|]. exists dl. split; [exact D1|]. intros i. destruct (D2 i) as (r & R).
  exists r. rewrite <- R, narrow_map; [reflexivity|]. intros p Hp. apply in_map_iff in Hp. destruct Hp as ((v & p0) & X & Hp). cbn in X. subst p0.
  destruct GI as (_ & GI). destruct (GI v) as (W & _). rewrite Forall_forall in W. apply W.
  destruct (D1 v) as (re & ->). apply in_or_app. left. apply in_map_iff. exists (v, p). split; [reflexivity|].
  apply filter_In. split; [exact Hp|]. cbn. apply Nat.eqb_refl.
Qed.

Lemma meas_init : forall c input, meas c (m_init c input) = 5 * length input.
Proof.
  intros c input. unfold meas. cbn [inq pendfl ejf constr m_init length].
  assert (Z : forall n k f, (forall j : nat, f j = 0) -> list_sum (map f (seq k n)) = 0).
  { induction n as [|n IH]; intros k f H; cbn; auto. rewrite H. unfold list_sum in IH. rewrite IH; auto. }
  unfold sumf. rewrite !Z; [lia| |]; intros j; reflexivity.
Qed.

Definition rested (c : mcfg) (s : mst) : Prop :=
  pendfl s = None /\ inq s = [] /\ (forall v, tails (ejf s v) = 0) /\ (forall i, i < m_nif c -> outq s i = []) /\ depk s = false.
Lemma drained_rested : forall c s, drained s -> rested c s.
Proof. intros c s (A & B & C & D & E). repeat split; auto. Qed.
Lemma run_rest_wide : forall c input ps evs s o, good_mcfg c -> wide_input c input ps -> Forall ok_minstant evs ->
  m_run c evs (m_init c input) = Some (s, o) -> rested c s ->
  exists dl : list (nat * list bflit),
    (forall v, exists rest part, ps v = map snd (filter (fun x => Nat.eqb (fst x) v) dl) ++ rest /\
       filter (on_vc v) input = concat (map snd (filter (fun x => Nat.eqb (fst x) v) dl)) ++ part /\
       (forall f, In f part -> b_tail f = false)) /\
    (forall i, flat_map (fun p => repeat (spec_out c p) (transfers c p)) (filter (fun p => Nat.eqb (pkt_iface c p) i) (map snd dl)) = delivers i o).
Proof.
  intros c input ps evs s o G (Hin & Hps) Ok E0 D.
  set (more := fun v => skipn (length (filter (on_vc v) input)) (concat (ps v))).
  assert (HM : forall v, filter (on_vc v) input ++ more v = concat (ps v)).
  { intros v. unfold more. destruct (Hps v) as (_ & mo & E). rewrite <- E, skipn_app, skipn_all, Nat.sub_diag. reflexivity. }
  pose proof (inv_init c ps more input Hin HM) as I.
  destruct (m_run_step c G ps more (fun v => proj1 (Hps v)) evs _ _ _ Ok I (fun _ => eq_refl))
    as (s' & o' & dl & od & E & I' & O & _ & _). rewrite E0 in E. injection E as <- <-.
  destruct D as (D1 & D2 & D3 & D4' & D5).
  assert (D4 : forall i, outq s i = []).
  { intros i. destruct (Nat.lt_ge_cases i (m_nif c)) as [Hi|Hi]; [auto|]. destruct (i_out _ _ _ _ _ _ I' i) as (oq & O1 & O2). rewrite O2.
    destruct oq as [|p oq]; [reflexivity|]. exfalso. assert (H : In p (filter (oni c i) (map snd dl))) by (rewrite O1, in_app_iff; right; left; reflexivity).
    apply filter_In in H. destruct H as (H & E). apply Nat.eqb_eq in E. apply in_map_iff in H. destruct H as ((v & p0) & X & H). cbn in X. subst p0.
    pose proof (in_dl_wf c ps more (fun v => proj1 (Hps v)) _ _ _ _ _ I' H) as (_ & W & _). lia. }
  exists dl. split.
  - intros v. destruct (i_R _ _ _ _ _ _ I' v) as (R & R1 & R2).
    unfold pendv in R2. rewrite D1, D2 in R2. cbn [app filter] in R2.
    assert (HC : cur s v = []). { unfold cur. destruct (prioq s); auto. rewrite D5. reflexivity. }
    rewrite HC in R2. cbn [app] in R2.
    exists R, (firstn (length (concat R) - length (more v)) (concat R)). split; [exact R1|].
    assert (L : length (concat R) = length (ejf s v) + length (more v)).
    { pose proof (f_equal (@length _) R2) as X. rewrite map_length, app_length, map_length in X. exact X. }
    pose proof (HM v) as HMv. rewrite R1, concat_app in HMv.
    assert (SK : skipn (length (concat R) - length (more v)) (concat R) = more v /\
                 length (filter (on_vc v) input) + length (more v) =
                 length (concat (map snd (filter (onp v) dl))) + length (concat R)).
    { split.
      - pose proof (f_equal (fun l => skipn (length l - length (more v)) l) HMv) as X. cbv beta in X.
        rewrite !app_length in X.
        replace (length (filter (on_vc v) input) + length (more v) - length (more v)) with (length (filter (on_vc v) input)) in X by lia.
        rewrite skipn_app, skipn_all, Nat.sub_diag in X. cbn [app skipn] in X.
        rewrite skipn_app in X. rewrite skipn_all2 in X by lia. cbn [app] in X.
        rewrite X at 2. f_equal. lia.
      - pose proof (f_equal (@length _) HMv) as X. rewrite !app_length in X. exact X. }
    destruct SK as (SK & LL).
    split.
    + pose proof (firstn_skipn (length (concat R) - length (more v)) (concat R)) as FS. rewrite SK in FS.
      rewrite <- FS in HMv. rewrite app_assoc in HMv. apply app_inv_tail in HMv. exact HMv.
    + intros f Hf. pose proof (f_equal (firstn (length (ejf s v))) R2) as X.
      rewrite firstn_app, Nat.sub_diag, firstn_all, firstn_O, app_nil_r, firstn_map in X.
      replace (length (concat R) - length (more v)) with (length (ejf s v)) in Hf by lia.
      assert (In (to_sflit c f) (ejf s v)) by (rewrite <- X; apply in_map; exact Hf).
      apply (tails_0_in _ _ (D3 v) H).
  - intros i. destruct (i_out _ _ _ _ _ _ I' i) as (oq & O1 & O2).
    pose proof (O i) as N1. unfold dn in N1. cbn [flat_map m_init outq chunk app] in N1. rewrite D4 in O2, N1.
    destruct oq; [|discriminate]. rewrite !app_nil_r in *. fold (oni c i). rewrite <- N1, <- O1.
    apply flat_map_in_ext. intros p H. f_equal. apply filter_In in H. destruct H as (H & Hi). apply Nat.eqb_eq in Hi. subst i.
    symmetry. apply nch_transfers. apply in_map_iff in H. destruct H as ((v & p0) & X & H). cbn in X. subst p0.
    eapply (in_dl_wf c ps more (fun v => proj1 (Hps v))); eauto.
Qed.

Lemma run_progress_wide : forall c input ps evs, good_mcfg c -> wide_input c input ps -> Forall ok_minstant evs ->
  (1 <= m_obdepth c)%nat -> (forall v p, In p (ps v) -> (length p <= m_ejdepth c)%nat) ->
  (forall v, (m_nvc c <= v)%nat -> ps v = []) ->
  mrounds (5 * length input + 1) evs ->
  exists s o, m_run c evs (m_init c input) = Some (s, o) /\
  exists dl : list (nat * list bflit),
    (forall v, exists rest part, ps v = map snd (filter (fun x => Nat.eqb (fst x) v) dl) ++ rest /\
       filter (on_vc v) input = concat (map snd (filter (fun x => Nat.eqb (fst x) v) dl)) ++ part /\
       (forall f, In f part -> b_tail f = false)) /\
    (forall i, flat_map (fun p => repeat (spec_out c p) (transfers c p)) (filter (fun p => Nat.eqb (pkt_iface c p) i) (map snd dl)) = delivers i o).
Proof.
  intros c input ps evs G (Hin & Hps) Ok Hob Hlen Hv MR.
  set (more := fun v => skipn (length (filter (on_vc v) input)) (concat (ps v))).
  assert (HM : forall v, filter (on_vc v) input ++ more v = concat (ps v)).
  { intros v. unfold more. destruct (Hps v) as (_ & mo & E). rewrite <- E, skipn_app, skipn_all, Nat.sub_diag. reflexivity. }
  pose proof (inv_init c ps more input Hin HM) as I.
  destruct (m_run_step c G ps more (fun v => proj1 (Hps v)) evs _ _ _ Ok I (fun _ => eq_refl))
    as (s & o & dl & od & E & I' & O & _ & _).
  assert (D : drained s).
  { refine (rounds_drain c G ps more (fun v => proj1 (Hps v)) Hob Hv Hlen _ evs MR Ok _ _ _ s o I (fun _ => eq_refl) E _).
    rewrite meas_init. lia. }
  exists s, o. split; auto. apply (run_rest_wide c input ps evs s o); auto; [split; auto|apply drained_rested; exact D].
Qed.

Lemma run_rest : forall c input ps evs s o, good_mcfg c -> good_input c input ps -> Forall ok_minstant evs ->
  m_run c evs (m_init c input) = Some (s, o) -> rested c s ->
  exists dl : list (nat * list bflit),
    (forall v, exists rest part, ps v = map snd (filter (fun x => Nat.eqb (fst x) v) dl) ++ rest /\
       filter (on_vc v) input = concat (map snd (filter (fun x => Nat.eqb (fst x) v) dl)) ++ part /\
       (forall f, In f part -> b_tail f = false)) /\
    (forall i, map (spec_out c) (filter (fun p => Nat.eqb (pkt_iface c p) i) (map snd dl)) = delivers i o).
Proof.
  intros c input ps evs s o G GI Ok E D.
  destruct (run_rest_wide c input ps evs s o G (good_wide _ _ _ GI) Ok E D) as (dl & D1 & D2).
  exists dl. split; [exact D1|]. intros i. rewrite <- (D2 i).
  symmetry. apply narrow_map. intros p Hp. apply in_map_iff in Hp. destruct Hp as ((v & p0) & X & Hp). cbn in X. subst p0.
  destruct GI as (_ & GI). destruct (GI v) as (W & _). rewrite Forall_forall in W. apply W.
  destruct (D1 v) as (re & pa & -> & _). apply in_or_app. left. apply in_map_iff. exists (v, p). split; [reflexivity|].
  apply filter_In. split; [exact Hp|]. cbn. apply Nat.eqb_refl.
Qed.

Lemma run_progress : forall c input ps evs, good_mcfg c -> good_input c input ps -> Forall ok_minstant evs ->
  (1 <= m_obdepth c)%nat -> (forall v p, In p (ps v) -> (length p <= m_ejdepth c)%nat) ->
  (forall v, (m_nvc c <= v)%nat -> ps v = []) ->
  mrounds (5 * length input + 1) evs ->
  exists s o, m_run c evs (m_init c input) = Some (s, o) /\
  exists dl : list (nat * list bflit),
    (forall v, exists rest part, ps v = map snd (filter (fun x => Nat.eqb (fst x) v) dl) ++ rest /\
       filter (on_vc v) input = concat (map snd (filter (fun x => Nat.eqb (fst x) v) dl)) ++ part /\
       (forall f, In f part -> b_tail f = false)) /\
    (forall i, map (spec_out c) (filter (fun p => Nat.eqb (pkt_iface c p) i) (map snd dl)) = delivers i o).
Proof.
  intros c input ps evs G GI Ok Hob Hlen Hv MR.
  destruct (run_progress_wide c input ps evs G (good_wide _ _ _ GI) Ok Hob Hlen Hv MR) as (s & o & E & dl & D1 & D2).
  exists s, o. split; [exact E|]. exists dl. split; [exact D1|]. intros i. rewrite <- (D2 i).
  symmetry. apply narrow_map. intros p Hp. apply in_map_iff in Hp. destruct Hp as ((v & p0) & X & Hp). cbn in X. subst p0.
  destruct GI as (_ & GI). destruct (GI v) as (W & _). rewrite Forall_forall in W. apply W.
  destruct (D1 v) as (re & pa & -> & _). apply in_or_app. left. apply in_map_iff. exists (v, p). split; [reflexivity|].
  apply filter_In. split; [exact Hp|]. cbn. apply Nat.eqb_refl.
Qed.

Lemma run_jam : forall c input ps evs, good_mcfg c -> wide_input c input ps ->
  (forall v p, In p (ps v) -> (m_ejdepth c < length p)%nat) ->
  exists s o, m_run c evs (m_init c input) = Some (s, o) /\ forall i, delivers i o = [].
Proof.
  intros c input ps evs G (Hin & Hps) HL.
  assert (HM : forall v, filter (on_vc v) input ++ skipn (length (filter (on_vc v) input)) (concat (ps v)) = concat (ps v)).
  { intros v. destruct (Hps v) as (_ & more & E). rewrite <- E, skipn_app, skipn_all, Nat.sub_diag. reflexivity. }
  pose proof (inv_init c ps (fun v => skipn (length (filter (on_vc v) input)) (concat (ps v))) input Hin HM) as I.
  destruct (jam_run c G ps (fun v => skipn (length (filter (on_vc v) input)) (concat (ps v))) (fun v => proj1 (Hps v)) HL evs (m_init c input)) as (s & o & E & _ & D).
  - split; [eauto|]. split; [reflexivity|]. intros u. cbn. lia.
  - exists s, o. auto.
Qed.

(** ** The output port, from any state *)

Definition pinv (c : mcfg) (s : mst) : Prop :=
  forall i a, port s i = Some a -> exists p r, outq s i = p :: r /\ a = axis_of c p.

Lemma out_one_port : forall c rdy i s s' o, pinv c s -> out_one c rdy i s = Some (s', o) ->
  pinv c s' /\
  (forall j a, port s j = Some a -> rdy j = false \/ j <> i -> port s' j = Some a) /\
  (forall j a, In (Deliver j a) o -> j = i /\ rdy j = true /\ port s j = Some a) /\
  (forall j, j <> i -> port s' j = port s j).
Proof.
  intros c rdy i s s' o W E. unfold out_one in E.
  destruct (match port s i with Some _ => _ | None => _ end) as [[[q ch] o']|] eqn:B; [|discriminate].
  inversion E; subst; clear E. unfold pinv. cbn [port outq]. sp.
  - intros j a. unfold fupd. destruct (Nat.eqb_spec j i) as [->|N]; [|apply W].
    destruct q as [|p r]; intros H; inversion H; subst. eauto.
  - intros j a P H. unfold fupd. destruct (Nat.eqb_spec j i) as [->|N]; [|exact P].
    destruct H as [H|H]; [|congruence]. rewrite P, H in B. inversion B; subst.
    destruct (W i a P) as (p & r & -> & ->). reflexivity.
  - intros j a Hin. destruct (port s i) as [a0|] eqn:P; [|inversion B; subst; contradiction].
    destruct (rdy i) eqn:Rd; [|inversion B; subst; contradiction].
    assert (o = [Deliver i a0]).
    { destruct (outq s i); [discriminate|]. destruct (Nat.eqb _ _); inversion B; reflexivity. }
    subst o. destruct Hin as [H|[]]. inversion H; subst. auto.
  - intros j N. apply fupd_other; auto.
Qed.

Lemma out_loop_port : forall c rdy l s s' o, NoDup l -> pinv c s -> out_loop c rdy l s = Some (s', o) ->
  pinv c s' /\
  (forall j a, port s j = Some a -> rdy j = false -> port s' j = Some a) /\
  (forall j a, In (Deliver j a) o -> In j l /\ rdy j = true /\ port s j = Some a).
Proof.
  intros c rdy l. induction l as [|i l IH]; intros s s' o ND W E; cbn in E.
  - inversion E; subst. sp; auto; contradiction.
  - inversion ND; subst.
    destruct (out_one c rdy i s) as [[s1 o1]|] eqn:E1; [|discriminate].
    destruct (out_loop c rdy l s1) as [[s2 o2]|] eqn:E2; [|discriminate]. inversion E; subst.
    destruct (out_one_port _ _ _ _ _ _ W E1) as (A1 & A2 & A3 & A4).
    destruct (IH _ _ _ H2 A1 E2) as (B1 & B2 & B3). sp; auto.
    intros j a Hin. apply in_app_or in Hin. destruct Hin as [Hin|Hin].
    + destruct (A3 _ _ Hin) as (-> & X & Y). sp; auto. left; reflexivity.
    + destruct (B3 _ _ Hin) as (X & Y & Z). split; [right; auto|]. split; auto.
      rewrite <- A4; auto. intros ->. contradiction.
Qed.

Lemma run_eject_frame : forall c av s s' o, run_eject c av s = Some (s', o) ->
  port s' = port s /\ outq s' = outq s /\ forall j a, ~ In (Deliver j a) o.
Proof.
  intros c av s s' o E. unfold run_eject in E.
  destruct (pendfl s); [|destruct av; [destruct (inq s)|]];
    try destruct (_ && _); try destruct (Nat.ltb _ _); inversion E; subst; cbn [port outq]; sp; auto;
    intros j a H; try contradiction; destruct H as [H|[]]; discriminate.
Qed.

Lemma run_depk_frame : forall c s s' o, run_depk c s = Some (s', o) ->
  port s' = port s /\ (forall i, exists r, outq s' i = outq s i ++ r) /\ forall j a, ~ In (Deliver j a) o.
Proof.
  intros c s s' o E. unfold run_depk in E. destruct (prioq s) as [|v0 q0]; [discriminate|].
  destruct (check _ _ _ _) as [ok0|]; [|discriminate].
  destruct (if depk s then _ else _) as [[[q ok] d]|]; [|discriminate].
  destruct (Nat.ltb d _); [|discriminate].
  destruct (_ && _).
  - destruct q as [|v q]; [discriminate|]. destruct (ejf s v) as [|f rest]; [discriminate|].
    destruct (f_tail f); [destruct (Nat.leb _ _); [|discriminate]|]; inversion E; subst; cbn [port outq]; sp; auto.
    + intros i. unfold fupd. destruct (Nat.eqb_spec i d) as [->|N]; [eauto|exists []; rewrite app_nil_r; auto].
    + intros j a [H|[]]. discriminate.
    + intros i. exists []. rewrite app_nil_r; auto.
    + intros j a [H|[]]. discriminate.
  - inversion E; subst; cbn [port outq]; sp; auto. intros i. exists []. rewrite app_nil_r; auto.
Qed.

Lemma thread_port : forall c ev t s s' o, pinv c s -> m_thread c ev t s = Some (s', o) ->
  pinv c s' /\
  (forall j a, port s j = Some a -> t <> TOut \/ mrdy ev j = false -> port s' j = Some a) /\
  (forall j a, In (Deliver j a) o -> t = TOut /\ mrdy ev j = true /\ port s j = Some a).
Proof.
  intros c ev t s s' o W E. destruct t; cbn [m_thread] in E.
  - destruct (run_eject_frame _ _ _ _ _ E) as (A & B & D). unfold pinv. rewrite A, B. sp; auto.
    intros j a H. destruct (D _ _ H).
  - destruct (run_depk_frame _ _ _ _ E) as (A & B & D). unfold pinv. rewrite A. sp; auto.
    + intros i a P. destruct (W i a P) as (p & r & X & Y). destruct (B i) as (r' & ->). rewrite X. cbn. eauto.
    + intros j a H. destruct (D _ _ H).
  - destruct (out_loop_port _ _ _ _ _ _ (seq_NoDup _ _) W E) as (A & B & D). sp; auto.
    + intros j a P [H|H]; [congruence|]. auto.
    + intros j a H. destruct (D _ _ H) as (_ & X & Y). auto.
Qed.

Lemma threads_port : forall c ev l s s' o, pinv c s -> m_threads c ev l s = Some (s', o) ->
  pinv c s' /\
  (forall j a, port s j = Some a -> ~ In TOut l \/ mrdy ev j = false ->
     port s' j = Some a /\ forall b, ~ In (Deliver j b) o).
Proof.
  intros c ev l. induction l as [|t l IH]; intros s s' o W E; cbn in E.
  - inversion E; subst. split; auto.
  - destruct (m_thread c ev t s) as [[s1 o1]|] eqn:E1; [|discriminate].
    destruct (m_threads c ev l s1) as [[s2 o2]|] eqn:E2; [|discriminate]. inversion E; subst.
    destruct (thread_port _ _ _ _ _ _ W E1) as (A1 & A2 & A3).
    destruct (IH _ _ _ A1 E2) as (B1 & B2). split; auto.
    intros j a P H. assert (P1 : port s1 j = Some a).
    { apply A2; auto. destruct H as [H|H]; auto. left. intros ->. apply H. left; reflexivity. }
    destruct (B2 j a P1) as (P2 & N).
    { destruct H as [H|H]; auto. left. intros X. apply H. right; auto. }
    split; auto. intros b Hin. apply in_app_or in Hin. destruct Hin as [Hin|Hin]; [|apply (N b Hin)].
    destruct (A3 _ _ Hin) as (-> & X & _). destruct H as [H|H]; [apply H; left; reflexivity|congruence].
Qed.

Lemma run_port : forall c evs s s' o, pinv c s -> m_run c evs s = Some (s', o) ->
  pinv c s' /\
  (forall j a, port s j = Some a ->
     (forall ev, In ev evs -> ~ In TOut (mths ev) \/ mrdy ev j = false) ->
     port s' j = Some a /\ forall b, ~ In (Deliver j b) o).
Proof.
  intros c evs. induction evs as [|ev evs IH]; intros s s' o W E; cbn in E.
  - inversion E; subst. split; auto.
  - destruct (m_step c ev s) as [[s1 o1]|] eqn:E1; [|discriminate].
    destruct (m_run c evs s1) as [[s2 o2]|] eqn:E2; [|discriminate]. inversion E; subst.
    unfold m_step in E1. destruct (m_threads c ev (mths ev) s) as [[s0 o0]|] eqn:E0; [|discriminate].
    inversion E1; subst.
    destruct (threads_port _ _ _ _ _ _ W E0) as (A1 & A2).
    assert (A1' : pinv c (commit s0)) by exact A1.
    destruct (IH _ _ _ A1' E2) as (B1 & B2). split; auto.
    intros j a P H. destruct (A2 j a P (H ev (or_introl eq_refl))) as (P0 & N0).
    destruct (B2 j a P0) as (P2 & N2); [intros; apply H; right; auto|].
    split; auto. intros b Hin. apply in_app_or in Hin. destruct Hin; [apply (N0 b)|apply (N2 b)]; auto.
Qed.

Lemma run_deliver_port : forall c evs s s' o, pinv c s -> m_run c evs s = Some (s', o) ->
  forall ev s1 o1 j a, m_step c ev s' = Some (s1, o1) -> NoDup (mths ev) -> In (Deliver j a) o1 ->
  port s' j = Some a /\ In TOut (mths ev) /\ mrdy ev j = true.
Proof.
  intros c evs s s' o W E ev s1 o1 j a E1 ND Hin.
  destruct (run_port _ _ _ _ _ W E) as (W' & _). clear W E. unfold m_step in E1.
  destruct (m_threads c ev (mths ev) s') as [[s0 o0]|] eqn:E0; [|discriminate]. inversion E1; subst. clear E1.
  revert s' W' o1 Hin E0. induction (mths ev) as [|t l IH]; intros s' W' o1 Hin E0; cbn in E0.
  - inversion E0; subst. contradiction.
  - inversion ND; subst.
    destruct (m_thread c ev t s') as [[sa oa]|] eqn:Ea; [|discriminate].
    destruct (m_threads c ev l sa) as [[sb ob]|] eqn:Eb; [|discriminate]. inversion E0; subst.
    destruct (thread_port _ _ _ _ _ _ W' Ea) as (A1 & A2 & A3).
    apply in_app_or in Hin. destruct Hin as [Hin|Hin].
    + destruct (A3 _ _ Hin) as (-> & X & Y). sp; auto. left; reflexivity.
    + destruct (IH H2 _ A1 _ Hin Eb) as (P & X & Y). split; [|split; auto; right; auto].
      destruct t; cbn [m_thread] in Ea.
      * destruct (run_eject_frame _ _ _ _ _ Ea) as (Z & _). congruence.
      * destruct (run_depk_frame _ _ _ _ Ea) as (Z & _). congruence.
      * contradiction.
Qed.
