From Coq Require Import ZArith Bool List Lia.
From Verif Require Import Bits BitsProofs AxisFormatModel AxisFormatProofs AxisSlaveModel AxisSlaveSpec.
Import ListNotations.
Local Open Scope Z_scope.

Section S.
Variable c : scfg.
Hypothesis G : good_scfg c.

Lemma nflits_pos : forall i, (i < s_nif c)%nat -> (0 < nflits c i)%nat.
Proof.
  intros i Hi. destruct G as (A & B & C & D). unfold nflits.
  pose proof (num_flits_bounds (s_w c) A C (s_dataw c i) (D i Hi)). lia.
Qed.

Definition all_flits (e : entry) : list sflit :=
  map (make_flit c e) (seq 0 (nflits c (e_iface e))).

Definition rest_flits (k : nat) (e : entry) : list sflit :=
  map (make_flit c e) (seq k (nflits c (e_iface e) - k)).

Definition opt_list {A} (o : option A) : list A := match o with Some x => [x] | None => [] end.

(** Flits of accepted transactions not yet given to BookSim, oldest first. *)
Definition pend (s : sst) : list sflit :=
  opt_list (tobe s) ++ injfifo s ++
  match infifo s with
  | [] => []
  | e :: r => rest_flits (cyc s) e ++ flat_map all_flits r
  end.

Definition inv (s : sst) : Prop :=
  (forall e, In e (infifo s) -> (e_iface e < s_nif c)%nat) /\
  match infifo s with
  | [] => cyc s = 0%nat
  | e :: _ => (cyc s < nflits c (e_iface e))%nat
  end.

Lemma combine_seq_map : forall A B (g : nat -> A) (h : nat * A -> B) n k,
  map h (combine (seq k n) (map g (seq k n))) = map (fun j => h (j, g j)) (seq k n).
Proof.
  intros A B g h n. induction n; intros; simpl; auto. f_equal. apply IHn.
Qed.

Lemma packet_of_flits : forall e, (e_iface e < s_nif c)%nat ->
  packet_of c e = map (to_bflit c) (all_flits e).
Proof.
  intros e He. unfold packet_of, all_flits, flit_payloads.
  rewrite !map_length, seq_length. fold (nflits c (e_iface e)).
  pose proof (nflits_pos _ He).
  rewrite combine_seq_map, map_map.
  apply map_ext_in. intros j Hj. apply in_seq in Hj.
  unfold to_bflit, make_flit. cbn -[Nat.eqb]. f_equal.
  destruct (Nat.eqb_spec j (nflits c (e_iface e) - 1)) as [->|Hn].
  - apply Nat.eqb_eq. lia.
  - apply Nat.eqb_neq. lia.
Qed.

Lemma rest_flits_0 : forall e, rest_flits 0 e = all_flits e.
Proof. intros. unfold rest_flits, all_flits. rewrite Nat.sub_0_r. reflexivity. Qed.

Lemma rest_flits_step : forall k e, (k < nflits c (e_iface e))%nat ->
  rest_flits k e = make_flit c e k :: rest_flits (S k) e.
Proof.
  intros k e H. unfold rest_flits.
  replace (nflits c (e_iface e) - k)%nat with (S (nflits c (e_iface e) - S k)) by lia.
  reflexivity.
Qed.

Lemma rest_flits_last : forall e, (0 < nflits c (e_iface e))%nat ->
  rest_flits (nflits c (e_iface e)) e = [].
Proof. intros. unfold rest_flits. rewrite Nat.sub_diag. reflexivity. Qed.

Lemma iface_take_in : forall i r n id e, iface_take i r n id = Some e ->
  (e_iface e < n)%nat /\ r = Some (e_iface e) /\ i (e_iface e) = Some (e_txn e) /\ e_id e = id.
Proof.
  intros i r n id e H. unfold iface_take in H.
  destruct (find _ _) as [j|] eqn:F; [|discriminate].
  apply find_some in F. destruct F as (F1 & F2). apply in_seq in F1.
  destruct (i j) as [t|] eqn:E; [|discriminate]. inversion H; subst; cbn.
  destruct r as [j'|]; cbn in F2; [|discriminate].
  rewrite andb_true_r in F2. apply Nat.eqb_eq in F2. subst. repeat split; auto. lia.
Qed.

Lemma iface_take_some : forall i j n id t, (j < n)%nat -> i j = Some t ->
  iface_take i (Some j) n id = Some {| e_txn := t; e_id := id; e_iface := j |}.
Proof.
  intros i j n id t Hj Ht. unfold iface_take.
  destruct (find _ _) as [k|] eqn:F.
  - apply find_some in F. destruct F as (F1 & F2).
    apply andb_prop in F2. destruct F2 as (F2 & _). apply Nat.eqb_eq in F2. subst k.
    rewrite Ht. reflexivity.
  - eapply find_none in F; [|apply in_seq; split; [lia|]; cbn; exact Hj].
    rewrite Nat.eqb_refl, Ht in F. discriminate.
Qed.

Lemma thread_step : forall ev rdy t s s' o, inv s -> run_thread c ev rdy t s = (s', o) ->
  inv s' /\
  injects o ++ map (to_bflit c) (pend s') =
  map (to_bflit c) (pend s) ++ flat_map (packet_of c) (accepts o).
Proof.
  intros ev rdy t s s' o (I1 & I2) R. destruct t; cbn [run_thread] in R.
  - unfold run_iface in R.
    destruct (iface_take (inp ev) rdy (s_nif c) (new_id ev)) as [e|] eqn:E; inversion R; subst; clear R.
    + apply iface_take_in in E. destruct E as (E & _).
      split.
      * split; cbn.
        -- intros x Hx. apply in_app_or in Hx. destruct Hx as [Hx|[<-|[]]]; auto.
        -- destruct (infifo s); cbn; auto.
           rewrite I2. apply nflits_pos; auto.
      * cbn. unfold pend. cbn. rewrite app_nil_r, packet_of_flits by auto.
        rewrite <- map_app. f_equal. rewrite <- !app_assoc. do 2 f_equal.
        destruct (infifo s) as [|e0 r]; cbn.
        -- rewrite I2, rest_flits_0. apply app_nil_r.
        -- rewrite flat_map_app. cbn. rewrite app_nil_r, app_assoc. reflexivity.
    + split; [split; cbn; auto|]. cbn. rewrite app_nil_r. reflexivity.
  - unfold run_pack in R. destruct (infifo s) as [|e r] eqn:F.
    + inversion R; subst; clear R. split; [split; cbn; auto|].
      cbn. rewrite app_nil_r. unfold pend. cbn. rewrite F. reflexivity.
    + assert (He : (e_iface e < s_nif c)%nat) by (apply I1; left; reflexivity).
      pose proof (nflits_pos _ He) as Hp.
      destruct (Nat.ltb_spec (length (injfifo s)) (s_depth c)).
      * inversion R; subst; clear R.
        destruct (Nat.eqb_spec (cyc s) (nflits c (e_iface e) - 1)) as [D|D].
        -- split.
           ++ split; cbn; [intros x Hx; apply I1; right; exact Hx|].
              destruct r as [|e1 r1]; auto. apply nflits_pos. apply I1. right; left; reflexivity.
           ++ cbn. rewrite app_nil_r. unfold pend. cbn. rewrite F. f_equal.
              f_equal. rewrite <- app_assoc. f_equal.
              rewrite rest_flits_step by lia.
              replace (S (cyc s)) with (nflits c (e_iface e)) by lia.
              rewrite rest_flits_last by lia. cbn. f_equal.
              destruct r; cbn; auto. rewrite rest_flits_0. reflexivity.
        -- split.
           ++ split; cbn; [exact I1|]. lia.
           ++ cbn. rewrite app_nil_r. unfold pend. cbn. rewrite F. f_equal. f_equal.
              rewrite <- app_assoc. f_equal.
              rewrite (rest_flits_step (cyc s)) by lia. reflexivity.
      * inversion R; subst; clear R. split; [split; cbn; auto|].
        cbn. rewrite app_nil_r. unfold pend. cbn. rewrite F. reflexivity.
  - unfold run_inj in R. destruct (tobe s) as [f|] eqn:T.
    + destruct (can ev); inversion R; subst; clear R; (split; [split; cbn; auto|]);
        cbn; rewrite app_nil_r; unfold pend; cbn; rewrite T; reflexivity.
    + destruct (injfifo s) as [|f q] eqn:Q.
      * inversion R; subst; clear R. split; [split; cbn; auto|].
        cbn. rewrite app_nil_r. unfold pend. cbn. rewrite T, Q. reflexivity.
      * destruct (can ev); inversion R; subst; clear R; (split; [split; cbn; auto|]);
          cbn; rewrite app_nil_r; unfold pend; cbn; rewrite T, Q; reflexivity.
Qed.

Lemma accepts_app : forall a b, accepts (a ++ b) = accepts a ++ accepts b.
Proof. intros. apply flat_map_app. Qed.
Lemma injects_app : forall a b, injects (a ++ b) = injects a ++ injects b.
Proof. intros. apply flat_map_app. Qed.

Lemma threads_step : forall ev rdy l s s' o, inv s -> run_threads c ev rdy l s = (s', o) ->
  inv s' /\
  injects o ++ map (to_bflit c) (pend s') =
  map (to_bflit c) (pend s) ++ flat_map (packet_of c) (accepts o).
Proof.
  intros ev rdy l. induction l as [|t l IH]; intros s s' o I R; cbn in R.
  - inversion R; subst. split; auto. cbn. rewrite app_nil_r. reflexivity.
  - destruct (run_thread c ev rdy t s) as [s1 o1] eqn:E1.
    destruct (run_threads c ev rdy l s1) as [s2 o2] eqn:E2. inversion R; subst.
    destruct (thread_step _ _ _ _ _ _ I E1) as (I1 & H1).
    destruct (IH _ _ _ I1 E2) as (I2 & H2). split; auto.
    rewrite injects_app, accepts_app, flat_map_app, <- app_assoc, H2, app_assoc, H1, app_assoc.
    reflexivity.
Qed.

Lemma step_step : forall ev s s' o, inv s -> s_step c ev s = (s', o) ->
  inv s' /\
  injects o ++ map (to_bflit c) (pend s') =
  map (to_bflit c) (pend s) ++ flat_map (packet_of c) (accepts o).
Proof.
  intros ev s s' o I R. unfold s_step in R.
  destruct (input_ready _ _ _) as [rdy q]. eapply threads_step in R; auto.
Qed.

Lemma run_step : forall evs s s' o, inv s -> s_run c evs s = (s', o) ->
  inv s' /\
  injects o ++ map (to_bflit c) (pend s') =
  map (to_bflit c) (pend s) ++ flat_map (packet_of c) (accepts o).
Proof.
  intros evs. induction evs as [|ev evs IH]; intros s s' o I R; cbn in R.
  - inversion R; subst. split; auto. cbn. rewrite app_nil_r. reflexivity.
  - destruct (s_step c ev s) as [s1 o1] eqn:E1.
    destruct (s_run c evs s1) as [s2 o2] eqn:E2. inversion R; subst.
    destruct (step_step _ _ _ _ I E1) as (I1 & H1).
    destruct (IH _ _ _ I1 E2) as (I2 & H2). split; auto.
    rewrite injects_app, accepts_app, flat_map_app, <- app_assoc, H2, app_assoc, H1, app_assoc.
    reflexivity.
Qed.

Lemma inv_init : inv (s_init c).
Proof. split; cbn; auto. intros e []. Qed.

Lemma exactly_once : forall evs s o, s_run c evs (s_init c) = (s, o) ->
  injects o ++ map (to_bflit c) (pend s) = flat_map (packet_of c) (accepts o).
Proof. intros evs s o R. apply run_step in R; [|apply inv_init]. destruct R as (_ & R). exact R. Qed.

(** ** Buffer bounds *)

Definition binv (s : sst) : Prop :=
  (length (infifo s) <= 2)%nat /\ (infull s = false -> length (infifo s) <= 1)%nat /\
  (length (injfifo s) <= s_depth c)%nat.

(** [taken] : InputInterface already ran in this instant. *)
Definition binv' (taken : bool) (rdy : option nat) (s : sst) : Prop :=
  (length (infifo s) <= 2)%nat /\ (infull s = false -> length (infifo s) <= 1)%nat /\
  (length (injfifo s) <= s_depth c)%nat /\
  (taken = false -> rdy <> None -> (length (infifo s) <= 1)%nat).

Lemma thread_binv : forall ev rdy t s s' o taken,
  (t = TIface -> taken = false) -> binv' taken rdy s -> run_thread c ev rdy t s = (s', o) ->
  binv' (taken || match t with TIface => true | _ => false end) rdy s'.
Proof.
  intros ev rdy t s s' o taken Ht (B1 & B2 & B3 & B4) R. destruct t; cbn [run_thread] in R.
  - unfold run_iface in R. rewrite (Ht eq_refl). cbn.
    destruct (iface_take (inp ev) rdy (s_nif c) (new_id ev)) as [e|] eqn:E; inversion R; subst; clear R.
    + apply iface_take_in in E. destruct E as (_ & E & _).
      assert (length (infifo s) <= 1)%nat by (apply B4; [auto|congruence]).
      unfold binv'; cbn [infifo infull injfifo]; rewrite ?app_length; cbn [length].
      repeat split; auto; try lia; try discriminate.
      intros L. destruct (length (infifo s)) as [|[|k]]; cbn in L; try discriminate; lia.
    + unfold binv'; cbn [infifo infull injfifo].
      repeat split; auto; try discriminate.
      intros L. destruct (length (infifo s)) as [|[|k]]; cbn in L; try discriminate; lia.
  - rewrite orb_false_r. unfold run_pack in R. destruct (infifo s) as [|e r] eqn:F.
    + inversion R; subst; clear R. repeat split; cbn; rewrite ?F; cbn; auto.
    + destruct (Nat.ltb_spec (length (injfifo s)) (s_depth c)); inversion R; subst; clear R.
      * destruct (Nat.eqb _ _); (repeat split; cbn in *; rewrite ?F, ?app_length; cbn in *; auto; try lia).
      * repeat split; cbn in *; rewrite ?F; cbn; auto.
  - rewrite orb_false_r. unfold run_inj in R. destruct (tobe s) as [f|] eqn:T.
    + destruct (can ev); inversion R; subst; clear R; repeat split; cbn; auto.
    + destruct (injfifo s) as [|f q] eqn:Q.
      * inversion R; subst; clear R. repeat split; cbn; auto; try lia.
      * cbn in B3. destruct (can ev); inversion R; subst; clear R; repeat split; cbn; auto; try lia.
Qed.

Lemma threads_binv : forall ev rdy l s s' o taken,
  NoDup l -> (In TIface l -> taken = false) -> binv' taken rdy s ->
  run_threads c ev rdy l s = (s', o) -> exists tk, binv' tk rdy s'.
Proof.
  intros ev rdy l. induction l as [|t l IH]; intros s s' o taken ND Ht B R; cbn in R.
  - inversion R; subst. exists taken. auto.
  - destruct (run_thread c ev rdy t s) as [s1 o1] eqn:E1.
    destruct (run_threads c ev rdy l s1) as [s2 o2] eqn:E2. inversion R; subst.
    inversion ND; subst.
    apply (IH _ _ _ (taken || match t with TIface => true | _ => false end)) in E2; auto.
    + intros Hin. rewrite (Ht (or_intror Hin)). destruct t; auto. contradiction.
    + eapply thread_binv; eauto. intros ->. apply Ht. left; reflexivity.
Qed.

Lemma step_binv : forall ev s s' o, ok_instant ev -> binv s -> s_step c ev s = (s', o) -> binv s'.
Proof.
  intros ev s s' o Ok (B1 & B2 & B3) R. unfold s_step, input_ready in R.
  destruct (ready_scan _ _ _ _) as [g q].
  apply (threads_binv _ _ _ _ _ _ false) in R; auto.
  - destruct R as (tk & R1 & R2 & R3 & _). repeat split; auto.
  - repeat split; cbn; auto. intros _ H. destruct (infull s); [congruence|]. auto.
Qed.

Lemma run_binv : forall evs s s' o, Forall ok_instant evs -> binv s -> s_run c evs s = (s', o) -> binv s'.
Proof.
  intros evs. induction evs as [|ev evs IH]; intros s s' o F B R; cbn in R.
  - inversion R; subst; auto.
  - destruct (s_step c ev s) as [s1 o1] eqn:E1.
    destruct (s_run c evs s1) as [s2 o2] eqn:E2. inversion R; subst. inversion F; subst.
    eapply IH; [auto| |exact E2]. eapply step_binv; eauto.
Qed.

Lemma binv_init : binv (s_init c).
Proof. repeat split; cbn; lia. Qed.

Lemma bounds : forall evs s o, Forall ok_instant evs -> s_run c evs (s_init c) = (s, o) ->
  (length (infifo s) <= 2)%nat /\ (length (injfifo s) <= s_depth c)%nat.
Proof. intros evs s o F R. apply run_binv in R; auto using binv_init. destruct R as (?&?&?). auto. Qed.

(** ** Progress *)

Definition na (s : sst) : nat := length (opt_list (tobe s)).
Definition nb (s : sst) : nat := length (injfifo s).
Definition nr (s : sst) : nat :=
  match infifo s with
  | [] => 0%nat
  | e :: r => (nflits c (e_iface e) - cyc s + length (flat_map all_flits r))%nat
  end.

Lemma pend_length : forall s, length (pend s) = (na s + nb s + nr s)%nat.
Proof.
  intros s. unfold pend, na, nb, nr. rewrite !app_length. destruct (infifo s); cbn; [lia|].
  rewrite app_length. unfold rest_flits. rewrite map_length, seq_length. lia.
Qed.

(** Weight of the oldest [d] pending flits. *)
Definition pot (d : nat) (s : sst) : nat :=
  (Nat.min d (na s) + 2 * Nat.min (d - na s) (nb s) + 3 * Nat.min (d - na s - nb s) (nr s))%nat.

Definition idle (s : sst) : Prop := na s = 0%nat /\ nb s = 0%nat.

Definition good_move (t : thread) (ev : instant) (d : nat) (s s' : sst) (d' : nat) : Prop :=
  (d' <= length (pend s'))%nat /\ (pot d' s' <= pot d s)%nat /\
  ((pot d' s' < pot d s)%nat \/
   (d' = d /\ ((0 < d)%nat -> (idle s <-> idle s') /\
    (t = TPack -> ~ idle s) /\
    (t = TInj -> can ev = true -> idle s)))).

Lemma all_flits_length : forall e, length (all_flits e) = nflits c (e_iface e).
Proof. intros. unfold all_flits. rewrite map_length, seq_length. reflexivity. Qed.

Ltac solve_move a b :=
  repeat split; try lia;
  try (destruct (Nat.le_gt_cases a b);
    [right; split; [lia|]; intros; repeat split; intros; try discriminate; lia | left; lia]).

Lemma thread_move : forall ev rdy t s s' o d, (1 <= s_depth c)%nat -> inv s ->
  run_thread c ev rdy t s = (s', o) -> (d <= length (pend s))%nat ->
  good_move t ev d s s' (d - length (injects o)).
Proof.
  intros ev rdy t s s' o d HD (I1 & I2) R Hd. unfold good_move. rewrite pend_length in *.
  unfold pot, idle in *. destruct t; cbn [run_thread] in R.
  - unfold run_iface in R.
    destruct (iface_take (inp ev) rdy (s_nif c) (new_id ev)) as [e|] eqn:E; inversion R; subst; clear R.
    + assert (N1 : forall b, nr {| infifo := infifo s ++ [e]; infull := b;
                  cyc := cyc s; injfull := injfull s; injfifo := injfifo s; tobe := tobe s; prio := prio s |}
                  = (nr s + nflits c (e_iface e))%nat).
      { intros b. unfold nr. cbn. destruct (infifo s) as [|e0 r]; cbn.
        - rewrite I2. lia.
        - rewrite flat_map_app, app_length. cbn. rewrite app_nil_r, all_flits_length. lia. }
      rewrite N1. unfold na, nb in *. cbn [tobe injfifo injects flat_map app length accepts] in *.
      repeat split; try lia. right; split; [lia|]; intros; repeat split; intros; try discriminate; lia.
    + unfold na, nb, nr in *. cbn [infifo cyc tobe injfifo injects flat_map app length accepts] in *.
      repeat split; try lia. right; split; [lia|]; intros; repeat split; intros; try discriminate; lia.
  - unfold run_pack in R. destruct (infifo s) as [|e r] eqn:F.
    + inversion R; subst; clear R.
      unfold na, nb, nr in *. cbn [infifo cyc tobe injfifo injects flat_map app length accepts] in *.
      rewrite F in *.
      repeat split; try lia. right; split; [lia|]; intros; repeat split; intros; try discriminate; lia.
    + assert (He : (e_iface e < s_nif c)%nat) by (apply I1; left; reflexivity).
      pose proof (nflits_pos _ He) as Hp.
      destruct (Nat.ltb_spec (length (injfifo s)) (s_depth c)).
      * inversion R; subst; clear R.
        destruct (Nat.eqb_spec (cyc s) (nflits c (e_iface e) - 1)) as [D|D];
          unfold na, nb, nr in *; cbn [infifo cyc tobe injfifo injects flat_map app length accepts] in *;
          rewrite F in *; rewrite ?app_length; cbn [length] in *.
        -- destruct r as [|e1 r1]; cbn [flat_map] in *; rewrite ?app_length, ?all_flits_length in *; cbn [length] in *.
           ++ solve_move d (length (opt_list (tobe s)) + length (injfifo s))%nat.
           ++ solve_move d (length (opt_list (tobe s)) + length (injfifo s))%nat.
        -- solve_move d (length (opt_list (tobe s)) + length (injfifo s))%nat.
      * inversion R; subst; clear R.
        unfold na, nb, nr in *. cbn [infifo cyc tobe injfifo injects flat_map app length accepts] in *.
        rewrite F in *.
        repeat split; try lia. right; split; [lia|]; intros; repeat split; intros; try discriminate; lia.
  - unfold run_inj in R. destruct (tobe s) as [f|] eqn:T.
    + destruct (can ev) eqn:C; inversion R; subst; clear R;
        unfold na, nb, nr in *; cbn [infifo cyc tobe injfifo injects flat_map app length accepts opt_list] in *;
        rewrite T in *; cbn [opt_list length] in *.
      * solve_move d 0%nat.
      * solve_move d (3 * d)%nat.
    + destruct (injfifo s) as [|f q] eqn:Q.
      * inversion R; subst; clear R;
        unfold na, nb, nr in *; cbn [infifo cyc tobe injfifo injects flat_map app length accepts opt_list] in *;
        rewrite T, Q in *; cbn [opt_list length] in *.
        repeat split; try lia. right; split; [lia|]; intros; repeat split; intros; try discriminate; lia.
      * destruct (can ev) eqn:C; inversion R; subst; clear R;
        unfold na, nb, nr in *; cbn [infifo cyc tobe injfifo injects flat_map app length accepts opt_list] in *;
        rewrite T, Q in *; cbn [opt_list length] in *; solve_move d 0%nat.
Qed.

(** Summary of a stretch of execution: [P] says a packetisation edge occurred, [J] an
    injection edge with room. *)
Definition good_span (P J : Prop) (d : nat) (s s' : sst) (d' : nat) : Prop :=
  (d' <= length (pend s'))%nat /\ (pot d' s' <= pot d s)%nat /\
  ((pot d' s' < pot d s)%nat \/
   (d' = d /\ ((0 < d)%nat -> (idle s <-> idle s') /\
    (P -> ~ idle s) /\ (J -> idle s)))).

Lemma span_trans : forall (P J P1 J1 P2 J2 : Prop) d s d1 s1 d2 s2,
  (P -> P1 \/ P2) -> (J -> J1 \/ J2) ->
  good_span P1 J1 d s s1 d1 -> good_span P2 J2 d1 s1 s2 d2 -> good_span P J d s s2 d2.
Proof.
  intros P J P1 J1 P2 J2 d s d1 s1 d2 s2 HP HJ (A1 & A2 & A3) (B1 & B2 & B3).
  unfold good_span. repeat split; try lia.
  destruct A3 as [A3|(A3 & A4)]; [left; lia|].
  destruct B3 as [B3|(B3 & B4)]; [left; lia|].
  right. subst d1 d2. split; auto. intros D. specialize (A4 D). specialize (B4 D). tauto.
Qed.

Lemma span_refl : forall d s, (d <= length (pend s))%nat -> good_span False False d s s d.
Proof. intros d s H. repeat split; auto; try lia. right. tauto. Qed.

Lemma threads_span : forall ev rdy, (1 <= s_depth c)%nat -> forall l s s' o d, inv s ->
  run_threads c ev rdy l s = (s', o) -> (d <= length (pend s))%nat ->
  good_span (In TPack l) (In TInj l /\ can ev = true) d s s' (d - length (injects o)).
Proof.
  intros ev rdy HD l. induction l as [|t l IH]; intros s s' o d I R Hd; cbn in R.
  - inversion R; subst. cbn. rewrite Nat.sub_0_r.
    eapply span_trans; [| |apply span_refl; eauto|apply span_refl; eauto]; cbn; tauto.
  - destruct (run_thread c ev rdy t s) as [s1 o1] eqn:E1.
    destruct (run_threads c ev rdy l s1) as [s2 o2] eqn:E2. inversion R; subst; clear R.
    pose proof (thread_step _ _ _ _ _ _ I E1) as (I1 & _).
    pose proof (thread_move _ _ _ _ _ _ _ HD I E1 Hd) as M.
    assert (M0 := M). destruct M0 as (M0 & _).
    specialize (IH _ _ _ _ I1 E2 M0).
    rewrite injects_app, app_length, Nat.sub_add_distr.
    eapply (span_trans _ _ (t = TPack) (t = TInj /\ can ev = true)); [| | |exact IH].
    + intros [H|H]; auto.
    + intros [[H|H] C]; auto.
    + destruct M as (Ma & Mb & Mc). repeat split; auto.
      destruct Mc as [Mc|(Mc & Md)]; auto. right. split; auto. intros D. specialize (Md D). tauto.
Qed.

Lemma pend_prio : forall s q, pend {| infifo := infifo s; infull := infull s; cyc := cyc s;
  injfull := injfull s; injfifo := injfifo s; tobe := tobe s; prio := q |} = pend s.
Proof. reflexivity. Qed.

Lemma step_span : (1 <= s_depth c)%nat -> forall ev s s' o d, inv s ->
  s_step c ev s = (s', o) -> (d <= length (pend s))%nat ->
  good_span (In TPack (ths ev)) (In TInj (ths ev) /\ can ev = true) d s s' (d - length (injects o)).
Proof.
  intros HD ev s s' o d I R Hd. unfold s_step in R.
  destruct (input_ready _ _ _) as [rdy q].
  refine (threads_span ev rdy HD _ _ _ _ _ _ R _); assumption.
Qed.

Definition has_pack (evs : list instant) : Prop := exists ev, In ev evs /\ In TPack (ths ev).
Definition has_inj (evs : list instant) : Prop :=
  exists ev, In ev evs /\ In TInj (ths ev) /\ can ev = true.

Lemma run_span : (1 <= s_depth c)%nat -> forall evs s s' o d, inv s ->
  s_run c evs s = (s', o) -> (d <= length (pend s))%nat ->
  good_span (has_pack evs) (has_inj evs) d s s' (d - length (injects o)).
Proof.
  intros HD evs. induction evs as [|ev evs IH]; intros s s' o d I R Hd; cbn in R.
  - inversion R; subst. cbn. rewrite Nat.sub_0_r.
    eapply span_trans; [| |apply span_refl; eauto|apply span_refl; eauto].
    + intros (ev & [] & _).
    + intros (ev & [] & _).
  - destruct (s_step c ev s) as [s1 o1] eqn:E1.
    destruct (s_run c evs s1) as [s2 o2] eqn:E2. inversion R; subst; clear R.
    pose proof (step_step _ _ _ _ I E1) as (I1 & _).
    pose proof (step_span HD _ _ _ _ _ I E1 Hd) as M.
    assert (M0 := M). destruct M0 as (M0 & _).
    specialize (IH _ _ _ _ I1 E2 M0).
    rewrite injects_app, app_length, Nat.sub_add_distr.
    eapply span_trans; [| |exact M|exact IH].
    + intros (e & [->|H] & H2); [left|right]; auto. exists e; auto.
    + intros (e & [->|H] & H2 & H3); [left|right]; auto. exists e; auto.
Qed.

Lemma s_run_app : forall a b s, s_run c (a ++ b) s =
  let '(s1, o1) := s_run c a s in let '(s2, o2) := s_run c b s1 in (s2, o1 ++ o2).
Proof.
  induction a as [|x a IH]; intros b s; cbn.
  - destruct (s_run c b s) as [s2 o2]. reflexivity.
  - destruct (s_step c x s) as [s1 o1]. rewrite IH.
    destruct (s_run c a s1) as [s2 o2]. destruct (s_run c b s2) as [s3 o3].
    rewrite app_assoc. reflexivity.
Qed.

Lemma pot_zero : forall d s, (d <= length (pend s))%nat -> pot d s = 0%nat -> d = 0%nat.
Proof. intros d s H. rewrite pend_length in H. unfold pot. lia. Qed.

Lemma rounds_drain : (1 <= s_depth c)%nat -> forall n evs, rounds n evs -> forall s s' o d, inv s ->
  s_run c evs s = (s', o) -> (d <= length (pend s))%nat -> (pot d s <= n)%nat ->
  (d <= length (injects o))%nat.
Proof.
  intros HD n evs H. induction H as [evs|n seg evs (e1 & X1 & Y1) (e2 & X2 & Y2 & Z2) H IH]; intros s s' o d I R Hd HP.
  - apply pot_zero in Hd; lia.
  - rewrite s_run_app in R. destruct (s_run c seg s) as [s1 o1] eqn:E1.
    destruct (s_run c evs s1) as [s2 o2] eqn:E2. inversion R; subst; clear R.
    pose proof (run_step _ _ _ _ I E1) as (I1 & _).
    pose proof (run_span HD _ _ _ _ _ I E1 Hd) as (M1 & M2 & M3).
    rewrite injects_app, app_length.
    destruct M3 as [M3|(M3 & M4)].
    + specialize (IH _ _ _ _ I1 E2 M1). lia.
    + destruct d; [lia|]. destruct (M4 ltac:(lia)) as (_ & M5 & M6).
      exfalso. apply M5; [exists e1; auto|]. apply M6. exists e2; auto.
Qed.

Lemma pot_le : forall d s, (pot d s <= 3 * d)%nat.
Proof. intros. unfold pot. lia. Qed.

Lemma progress : (1 <= s_depth c)%nat -> forall evs1 evs2 s1 o1 s2 o2 n,
  s_run c evs1 (s_init c) = (s1, o1) -> s_run c evs2 s1 = (s2, o2) ->
  rounds n evs2 -> (3 * length (flat_map (packet_of c) (accepts o1)) <= n)%nat ->
  exists more, injects (o1 ++ o2) = flat_map (packet_of c) (accepts o1) ++ more.
Proof.
  intros HD evs1 evs2 s1 o1 s2 o2 n R1 R2 Rn Hn.
  pose proof (run_step _ _ _ _ inv_init R1) as (I1 & E1). cbn in E1.
  pose proof (run_step _ _ _ _ I1 R2) as (_ & E2).
  assert (L : (length (pend s1) <= length (injects o2))%nat).
  { eapply rounds_drain; eauto. eapply Nat.le_trans; [apply pot_le|].
    rewrite <- E1, app_length, map_length in Hn. lia. }
  rewrite injects_app, <- E1.
  assert (exists more, injects o2 = map (to_bflit c) (pend s1) ++ more) as (more & ->).
  { rewrite <- (firstn_skipn (length (pend s1)) (injects o2)).
    exists (skipn (length (pend s1)) (injects o2)). f_equal.
    assert (X : firstn (length (pend s1)) (injects o2 ++ map (to_bflit c) (pend s2)) =
                firstn (length (pend s1)) (map (to_bflit c) (pend s1) ++ flat_map (packet_of c) (accepts o2)))
      by (f_equal; exact E2).
    rewrite !firstn_app, map_length, Nat.sub_diag in X.
    replace (length (pend s1) - length (injects o2))%nat with 0%nat in X by lia.
    rewrite !firstn_O, !app_nil_r in X. rewrite X, firstn_all2; [reflexivity|].
    rewrite map_length. lia. }
  exists more. apply app_assoc.
Qed.

(** ** Arbitration *)

Lemma seq_snoc : forall k, seq 0 k ++ [k] = seq 0 (S k).
Proof. intros. rewrite seq_S. reflexivity. Qed.

Lemma realign_seq : forall j k m, (j <= m)%nat ->
  realign m (seq k j ++ seq 0 k) = seq 0 (k + j).
Proof.
  induction j; intros k m H.
  - rewrite Nat.add_0_r. destruct k as [|k].
    + clear. induction m; cbn; auto.
    + destruct m; cbn; auto.
  - destruct k as [|k].
    + cbn [seq app]. rewrite app_nil_r. destruct m; [lia|]. reflexivity.
    + destruct m; [lia|]. cbn [seq app realign rotate].
      change (0%nat :: seq 1 k) with (seq 0 (S k)).
      rewrite <- app_assoc, seq_snoc.
      replace (S k + S j)%nat with (S (S k) + j)%nat by lia. apply IHj. lia.
Qed.

Lemma ready_scan_seq : forall full valid j k, exists k' j', (k' + j' = k + j)%nat /\ (j' <= j)%nat /\
  ready_scan full valid j (seq k j ++ seq 0 k) =
  ((if full then None else find valid (seq k j)), seq k' j' ++ seq 0 k').
Proof.
  intros full valid j. induction j; intros k.
  - exists k, 0%nat. repeat split; auto. cbn. destruct full; reflexivity.
  - cbn [ready_scan seq app find].
    destruct full; cbn [negb andb].
    + destruct (IHj (S k)) as (k' & j' & H1 & H2 & H3). exists k', j'. repeat split; try lia.
      cbn [rotate]. rewrite <- app_assoc, seq_snoc. exact H3.
    + destruct (valid k) eqn:V.
      * exists k, (S j). repeat split; auto.
      * destruct (IHj (S k)) as (k' & j' & H1 & H2 & H3). exists k', j'. repeat split; try lia.
        cbn [rotate]. rewrite <- app_assoc, seq_snoc. exact H3.
Qed.

Lemma input_ready_seq : forall valid s, prio s = seq 0 (s_nif c) ->
  input_ready c valid s =
  ((if infull s || injfull s then None else find valid (seq 0 (s_nif c))), seq 0 (s_nif c)).
Proof.
  intros valid s P. unfold input_ready. rewrite P.
  destruct (ready_scan_seq (injfull s) valid (s_nif c) 0) as (k & j & H1 & H2 & H3).
  cbn [seq] in H3. rewrite app_nil_r in H3. rewrite H3, realign_seq by lia.
  rewrite H1. cbn [plus]. f_equal. destruct (infull s), (injfull s); reflexivity.
Qed.

Lemma thread_prio : forall ev rdy t s s' o, run_thread c ev rdy t s = (s', o) -> prio s' = prio s.
Proof.
  intros ev rdy t s s' o R. destruct t; cbn [run_thread] in R.
  - unfold run_iface in R. destruct (iface_take _ _ _ _); inversion R; reflexivity.
  - unfold run_pack in R. destruct (infifo s); [|destruct (Nat.ltb _ _)]; inversion R; reflexivity.
  - unfold run_inj in R.
    destruct (match tobe s with Some f => (Some f, injfifo s) | None => _ end) as [[f|] q];
      [destruct (can ev)|]; inversion R; reflexivity.
Qed.

Lemma threads_prio : forall ev rdy l s s' o, run_threads c ev rdy l s = (s', o) -> prio s' = prio s.
Proof.
  intros ev rdy l. induction l as [|t l IH]; intros s s' o R; cbn in R.
  - inversion R; reflexivity.
  - destruct (run_thread c ev rdy t s) as [s1 o1] eqn:E1.
    destruct (run_threads c ev rdy l s1) as [s2 o2] eqn:E2. inversion R; subst.
    rewrite (IH _ _ _ E2). eapply thread_prio; eauto.
Qed.

Lemma step_prio : forall ev s s' o, prio s = seq 0 (s_nif c) -> s_step c ev s = (s', o) ->
  prio s' = seq 0 (s_nif c).
Proof.
  intros ev s s' o P R. unfold s_step in R. rewrite input_ready_seq in R by auto.
  apply threads_prio in R. exact R.
Qed.

Lemma run_prio : forall evs s s' o, prio s = seq 0 (s_nif c) -> s_run c evs s = (s', o) ->
  prio s' = seq 0 (s_nif c).
Proof.
  intros evs. induction evs as [|ev evs IH]; intros s s' o P R; cbn in R.
  - inversion R; subst; auto.
  - destruct (s_step c ev s) as [s1 o1] eqn:E1.
    destruct (s_run c evs s1) as [s2 o2] eqn:E2. inversion R; subst.
    eapply IH; [|eauto]. eapply step_prio; eauto.
Qed.

Lemma threads_accept : forall ev rdy l s s' o e, run_threads c ev rdy l s = (s', o) ->
  In e (accepts o) -> iface_take (inp ev) rdy (s_nif c) (new_id ev) = Some e.
Proof.
  intros ev rdy l. induction l as [|t l IH]; intros s s' o e R H; cbn in R.
  - inversion R; subst. destruct H.
  - destruct (run_thread c ev rdy t s) as [s1 o1] eqn:E1.
    destruct (run_threads c ev rdy l s1) as [s2 o2] eqn:E2. inversion R; subst.
    rewrite accepts_app in H. apply in_app_or in H. destruct H as [H|H]; [|eauto].
    destruct t; cbn [run_thread] in E1.
    + unfold run_iface in E1. destruct (iface_take _ _ _ _); inversion E1; subst; cbn in H; try tauto.
      destruct H as [->|[]]. reflexivity.
    + unfold run_pack in E1. destruct (infifo s); [|destruct (Nat.ltb _ _)]; inversion E1; subst; destruct H.
    + unfold run_inj in E1.
      destruct (match tobe s with Some f => (Some f, injfifo s) | None => _ end) as [[f|] q];
      [destruct (can ev)|]; inversion E1; subst; destruct H.
Qed.

Lemma threads_accept_conv : forall ev rdy l s s' o e, run_threads c ev rdy l s = (s', o) ->
  In TIface l -> iface_take (inp ev) rdy (s_nif c) (new_id ev) = Some e -> In e (accepts o).
Proof.
  intros ev rdy l. induction l as [|t l IH]; intros s s' o e R H T; cbn in R.
  - destruct H.
  - destruct (run_thread c ev rdy t s) as [s1 o1] eqn:E1.
    destruct (run_threads c ev rdy l s1) as [s2 o2] eqn:E2. inversion R; subst.
    rewrite accepts_app. apply in_or_app. destruct H as [->|H]; [|eauto].
    left. cbn [run_thread] in E1. unfold run_iface in E1. rewrite T in E1. inversion E1; subst.
    cbn. auto.
Qed.

Lemma find_seq_lowest : forall f n k i, find f (seq k n) = Some i ->
  f i = true /\ (k <= i < k + n)%nat /\ forall j, (k <= j < i)%nat -> f j = false.
Proof.
  intros f n. induction n; intros k i H; cbn in H; [discriminate|].
  destruct (f k) eqn:F.
  - inversion H; subst. repeat split; auto; lia.
  - destruct (IHn _ _ H) as (A & B & C). repeat split; auto; try lia.
    intros j Hj. destruct (Nat.eq_dec j k); [subst; auto|]. apply C. lia.
Qed.

(** An accepted transaction comes from the lowest-numbered interface with tvalid high. *)
Lemma accept_lowest : forall ev s s' o e, prio s = seq 0 (s_nif c) -> s_step c ev s = (s', o) ->
  In e (accepts o) ->
  (e_iface e < s_nif c)%nat /\ inp ev (e_iface e) = Some (e_txn e) /\
  forall j, (j < e_iface e)%nat -> inp ev j = None.
Proof.
  intros ev s s' o e P R H. unfold s_step in R. rewrite input_ready_seq in R by auto.
  eapply threads_accept in R; eauto. apply iface_take_in in R. destruct R as (A & B & C & _).
  split; auto. split; auto. intros j Hj.
  destruct (infull s || injfull s); [discriminate|].
  apply find_seq_lowest in B. destruct B as (_ & _ & B).
  specialize (B j ltac:(lia)). destruct (inp ev j); [discriminate|reflexivity].
Qed.

(** The lowest-numbered requester is accepted at the next node clock edge at which neither
    FIFO was full at its last clock edge. *)
Lemma lowest_served : forall ev s s' o i t, prio s = seq 0 (s_nif c) -> s_step c ev s = (s', o) ->
  In TIface (ths ev) -> infull s = false -> injfull s = false ->
  (i < s_nif c)%nat -> inp ev i = Some t -> (forall j, (j < i)%nat -> inp ev j = None) ->
  In {| e_txn := t; e_id := new_id ev; e_iface := i |} (accepts o).
Proof.
  intros ev s s' o i t P R HT F1 F2 Hi Ht Hl. unfold s_step in R.
  rewrite input_ready_seq in R by auto. rewrite F1, F2 in R. cbn [orb] in R.
  destruct (find _ _) as [k|] eqn:F in R.
  - apply find_seq_lowest in F. destruct F as (A & B & C).
    assert (k = i).
    { destruct (lt_eq_lt_dec k i) as [[L|L]|L]; auto.
      - rewrite Hl in A by auto. discriminate A.
      - specialize (C i ltac:(lia)). rewrite Ht in C. discriminate C. }
    subst k. eapply threads_accept_conv; eauto. apply iface_take_some; auto.
  - eapply find_none in F; [|apply in_seq; split; [lia|]; cbn; exact Hi].
    rewrite Ht in F. discriminate F.
Qed.

Lemma run_starves : forall evs s s' o, prio s = seq 0 (s_nif c) ->
  (forall ev, In ev evs -> inp ev 0%nat <> None) -> s_run c evs s = (s', o) ->
  forall e, In e (accepts o) -> e_iface e = 0%nat.
Proof.
  intros evs. induction evs as [|ev evs IH]; intros s s' o P HA R e H; cbn in R.
  - inversion R; subst. destruct H.
  - destruct (s_step c ev s) as [s1 o1] eqn:E1.
    destruct (s_run c evs s1) as [s2 o2] eqn:E2. inversion R; subst.
    rewrite accepts_app in H. apply in_app_or in H. destruct H as [H|H].
    + pose proof (accept_lowest _ _ _ _ _ P E1 H) as (_ & _ & X).
      destruct (e_iface e); auto. exfalso. apply (HA ev); [left; auto|]. apply X. lia.
    + refine (IH _ _ _ _ _ E2 e H).
      * eapply step_prio; eauto.
      * intros; apply HA. right; auto.
Qed.

(** ** Facts about the packet specification *)

Lemma packet_length : forall e, (e_iface e < s_nif c)%nat ->
  length (packet_of c e) = nflits c (e_iface e).
Proof. intros e H. rewrite packet_of_flits by auto. unfold all_flits. rewrite !map_length, seq_length. reflexivity. Qed.

Lemma packet_data : forall e,
  map b_data (packet_of c e) =
  flit_payloads (s_w c) (s_dataw c (e_iface e))
    (pack (s_w c) (t_last (e_txn e)) (t_user (e_txn e)) (t_data (e_txn e))).
Proof.
  intros e. unfold packet_of. rewrite map_map. cbn [b_data].
  generalize (flit_payloads (s_w c) (s_dataw c (e_iface e))
    (pack (s_w c) (t_last (e_txn e)) (t_user (e_txn e)) (t_data (e_txn e)))) as l.
  intros l. generalize 0%nat. induction l; intros k; cbn; auto. f_equal. apply IHl.
Qed.

Lemma packet_payload : forall e, (e_iface e < s_nif c)%nat ->
  0 <= t_user (e_txn e) < 2 ^ userw (s_w c) -> 0 <= t_data (e_txn e) < 2 ^ s_dataw c (e_iface e) ->
  unpack (s_w c) (reassemble (s_w c) (map b_data (packet_of c e))) =
  (t_last (e_txn e), t_user (e_txn e), t_data (e_txn e)).
Proof.
  intros e He Hu Hd. destruct G as (A & B & C & D). rewrite packet_data.
  apply roundtrip_exact; auto.
Qed.

Lemma packet_shape : forall e, (e_iface e < s_nif c)%nat ->
  exists n, length (packet_of c e) = S n /\
  forall j f, nth_error (packet_of c e) j = Some f ->
    (b_head f = true <-> j = 0%nat) /\ (b_tail f = true <-> j = n) /\
    b_pid f = e_id e /\ b_type f = s_type c (e_iface e) /\
    b_src f = s_node c /\ b_iface f = iface_of_tid (s_w c) (t_tid (e_txn e)) /\
    b_dst f = to_booksim_dest (s_w c) (s_rad c) (s_portal c) (t_dest (e_txn e)).
Proof.
  intros e He. pose proof (nflits_pos _ He) as Hp.
  exists (nflits c (e_iface e) - 1)%nat. split; [rewrite packet_length by auto; lia|].
  intros j f H. rewrite packet_of_flits in H by auto. unfold all_flits in H. rewrite map_map in H.
  assert (Hj : (j < nflits c (e_iface e))%nat).
  { assert (X : nth_error (map (fun x => to_bflit c (make_flit c e x)) (seq 0 (nflits c (e_iface e)))) j <> None) by congruence.
    apply nth_error_Some in X. rewrite map_length, seq_length in X. exact X. }
  rewrite nth_error_map in H.
  rewrite (nth_error_nth' _ 0%nat) in H by (rewrite seq_length; exact Hj).
  rewrite seq_nth in H by exact Hj. cbn [option_map plus] in H. inversion H; subst f; clear H.
  unfold to_bflit, make_flit; cbn [b_head b_tail b_pid b_type b_src b_iface b_dst f_head f_tail f_pid f_type f_iface f_dest].
  rewrite !Nat.eqb_eq. repeat split; auto.
Qed.

Lemma threads_ids : forall ev rdy l s s' o, NoDup l -> run_threads c ev rdy l s = (s', o) ->
  (length (accepts o) <= 1)%nat.
Proof.
  intros ev rdy l s s' o ND R.
  assert (X : (In TIface l \/ accepts o = []) /\ (length (accepts o) <= 1)%nat); [|tauto].
  revert s s' o R. induction l as [|t l IH]; intros s s' o R; cbn in R.
  - inversion R; subst. cbn. auto.
  - inversion ND; subst. specialize (IH H2).
    destruct (run_thread c ev rdy t s) as [s1 o1] eqn:E1.
    destruct (run_threads c ev rdy l s1) as [s2 o2] eqn:E2. inversion R; subst.
    destruct (IH _ _ _ E2) as (I1 & I2). rewrite accepts_app, app_length.
    assert (A : (t = TIface /\ (length (accepts o1) <= 1)%nat) \/ accepts o1 = []).
    { destruct t; cbn [run_thread] in E1; [left; split; auto|right|right].
      - unfold run_iface in E1. destruct (iface_take _ _ _ _); inversion E1; subst; cbn; lia.
      - unfold run_pack in E1. destruct (infifo s); [|destruct (Nat.ltb _ _)]; inversion E1; reflexivity.
      - unfold run_inj in E1.
        destruct (match tobe s with Some f => (Some f, injfifo s) | None => _ end) as [[f|] q];
        [destruct (can ev)|]; inversion E1; reflexivity. }
    destruct A as [(-> & A)|A].
    + destruct I1 as [I1|I1]; [contradiction|]. rewrite I1. cbn. split; [auto|lia].
    + rewrite A. cbn. split; [|lia]. destruct I1 as [I1|I1]; auto.
Qed.

Lemma one_accept : forall ev s s' o, ok_instant ev -> s_step c ev s = (s', o) ->
  (length (accepts o) <= 1)%nat.
Proof.
  intros ev s s' o Ok R. unfold s_step in R. destruct (input_ready _ _ _) as [rdy q].
  eapply threads_ids; eauto.
Qed.

Lemma exactly_once_full : forall evs s o, s_run c evs (s_init c) = (s, o) ->
  exists rest, flat_map (packet_of c) (accepts o) = injects o ++ rest /\
    (infifo s = [] -> injfifo s = [] -> tobe s = None -> rest = []).
Proof.
  intros evs s o R. exists (map (to_bflit c) (pend s)). split.
  - symmetry. eapply exactly_once; eauto.
  - intros A B C. unfold pend. rewrite A, B, C. reflexivity.
Qed.

Lemma run_accept_lowest : forall evs ev s s' o o' e,
  s_run c evs (s_init c) = (s, o) -> s_step c ev s = (s', o') -> In e (accepts o') ->
  (e_iface e < s_nif c)%nat /\ inp ev (e_iface e) = Some (e_txn e) /\
  forall j, (j < e_iface e)%nat -> inp ev j = None.
Proof. intros. eapply accept_lowest; eauto. eapply run_prio; eauto. reflexivity. Qed.

Lemma run_lowest_served : forall evs ev s s' o o' i t,
  s_run c evs (s_init c) = (s, o) -> s_step c ev s = (s', o') ->
  In TIface (ths ev) -> infull s = false -> injfull s = false ->
  (i < s_nif c)%nat -> inp ev i = Some t -> (forall j, (j < i)%nat -> inp ev j = None) ->
  In {| e_txn := t; e_id := new_id ev; e_iface := i |} (accepts o').
Proof. intros. eapply lowest_served; eauto. eapply run_prio; eauto. reflexivity. Qed.

Lemma run_starves_init : forall evs s o, (forall ev, In ev evs -> inp ev 0%nat <> None) ->
  s_run c evs (s_init c) = (s, o) -> forall e, In e (accepts o) -> e_iface e = 0%nat.
Proof. intros evs s o H R. eapply run_starves; eauto. reflexivity. Qed.

End S.

(** Interface 1 requests forever, the node, packetiser and NoC all make progress in every
    instant, and interface 1 is never accepted. *)
Definition starve_evs (n : nat) : list instant :=
  repeat {| ths := [TIface; TPack; TInj]; inp := fun _ => Some (ex_txn 7); new_id := 0; can := true |} n.

Lemma starvation : forall n, exists evs, length evs = n /\
  (forall ev, In ev evs -> ok_instant ev /\ inp ev 1%nat <> None /\
     ths ev = [TIface; TPack; TInj] /\ can ev = true) /\
  forall s o, s_run ex_scfg evs (s_init ex_scfg) = (s, o) ->
  forall e, In e (accepts o) -> e_iface e <> 1%nat.
Proof.
  intros n. exists (starve_evs n). unfold starve_evs. split; [apply repeat_length|]. split.
  - intros ev H. apply repeat_spec in H. subst. cbn. repeat split; try discriminate.
    unfold ok_instant. cbn. repeat constructor; cbn; intuition discriminate.
  - intros s o R e H X.
    apply (run_starves_init ex_scfg) with (evs := starve_evs n) (s := s) in H; auto.
    + congruence.
    + intros ev Hin. unfold starve_evs in Hin. apply repeat_spec in Hin. subst. cbn. discriminate.
Qed.
