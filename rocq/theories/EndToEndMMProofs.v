From Coq Require Import ZArith Bool List Lia.
From Verif Require Import Bits BitsProofs VcModel AddrModel AximmFormatModel AximmFormatProofs AximmInModel AximmSpec AximmInProofs
  AximmOutModel AximmOutSpec StreamSpec StreamProofs EndToEndMMSpec.
From Verif Require AximmOutProofs.
Import ListNotations.
Local Open Scope Z_scope.

Definition tn (t : xtype) : nat := match t with AR => 0 | AW => 1 | W => 2 | R => 3 | B => 4 end%nat.
Lemma tn_cases : forall v, (exists t, tn t = v) \/ (5 <= v)%nat.
Proof.
  intros [|[|[|[|[|v]]]]]; [left; exists AR|left; exists AW|left; exists W|left; exists R|left; exists B|right; lia]; reflexivity.
Qed.
Lemma tn_inj : forall a b, tn a = tn b -> a = b.
Proof. intros [] []; cbn; congruence. Qed.
Lemma teqb_tn : forall a b, teqb a b = Nat.eqb (tn a) (tn b).
Proof. intros [] []; reflexivity. Qed.
Lemma teqb_eq : forall a b, teqb a b = true -> a = b.
Proof. intros [] []; cbn; congruence. Qed.
Lemma teqb_refl : forall a, teqb a a = true.
Proof. intros []; reflexivity. Qed.

(** Flits handed to the NoC carry the node of the sender. *)
Lemma put_app : forall a b, put (a ++ b) = put a ++ put b.
Proof. intros. unfold put. apply flat_map_app. Qed.
Lemma put_injs : forall o, map xb_flit (put o) = injs o.
Proof. induction o as [|[t i|f] o IH]; cbn; auto. f_equal. exact IH. Qed.
Lemma thread_src : forall c ev old t s s' o, run_xthread c ev old t s = Some (s', o) -> Forall (fun f => xb_src f = xc_node c) (put o).
Proof.
  intros c ev old t s s' o H. destruct t; cbn [run_xthread] in H.
  - injection H as <- <-. induction (handshakes c ev old); cbn; auto.
  - destruct (packetise c old) as [[[[fs cy] n] aw]|]; [|discriminate]. injection H as <- <-. constructor.
  - destruct (match itobe s with Some f => (Some f, injq s) | None => match injq s with [] => (None, []) | f :: q' => (Some f, q') end end) as [[f|] q].
    + destruct (x_can ev); injection H as <- <-; repeat constructor.
    + injection H as <- <-. constructor.
Qed.
Lemma threads_src : forall c ev old ts s s' o, run_xthreads c ev old ts s = Some (s', o) -> Forall (fun f => xb_src f = xc_node c) (put o).
Proof.
  intros c ev old ts. induction ts as [|t ts IH]; intros s s' o H; cbn [run_xthreads] in H.
  - injection H as <- <-. constructor.
  - destruct (run_xthread c ev old t s) as [[s1 o1]|] eqn:E1; [|discriminate].
    destruct (run_xthreads c ev old ts s1) as [[s2 o2]|] eqn:E2; [|discriminate]. injection H as <- <-.
    rewrite put_app. apply Forall_app. split; [eapply thread_src|eapply IH]; eauto.
Qed.
Lemma run_src : forall c evs s s' o, x_run c s evs = Some (s', o) -> Forall (fun f => xb_src f = xc_node c) (put o).
Proof.
  intros c evs. induction evs as [|ev evs IH]; intros s s' o H; cbn [x_run] in H.
  - injection H as <- <-. constructor.
  - destruct (x_step c s ev) as [[s1 o1]|] eqn:E1; [|discriminate].
    destruct (x_run c s1 evs) as [[s2 o2]|] eqn:E2; [|discriminate]. injection H as <- <-.
    rewrite put_app. apply Forall_app. split; [|eapply IH; eauto].
    unfold x_step in E1. destruct (settle c ev s); [|discriminate]. eapply threads_src; eauto.
Qed.

Definition pka (c : xcfg) (a : sent) : list xflit := packet_of c (sd_aw a) (sd_txn a) (sd_id a).
Lemma packets_ann : forall c l aw, packets c aw l = flat_map (pka c) (annotate c aw l).
Proof. intros c. induction l as [|[t i] l IH]; intros aw; cbn; auto. rewrite IH. reflexivity. Qed.

Definition ok_sent (c : xcfg) (a : sent) : Prop :=
  ok_txn (sd_txn a) /\ (sd_aw a = 0 \/ exists x, 0 <= x < 2 ^ 64 /\ sd_aw a = node_of c x).
Lemma ann_ok : forall c l aw, Forall (fun x => ok_txn (fst x)) l -> (aw = 0 \/ exists x, 0 <= x < 2 ^ 64 /\ aw = node_of c x) ->
  Forall (ok_sent c) (annotate c aw l).
Proof.
  intros c. induction l as [|[t i] l IH]; intros aw HF Ha; cbn [annotate]; [constructor|].
  apply Forall_cons_iff in HF. destruct HF as [H1 H2]. constructor; [split; cbn [sd_txn sd_aw]; auto|].
  apply IH; auto. destruct t; cbn [next_aw]; auto. right. exists (h_addr h). split; auto.
Qed.

Lemma dest_ok : forall c a, good_xcfg c -> 64 <= x_userw (xc_w c) -> ok_sent c a ->
  i_dest (capture_of c (sd_aw a) (sd_txn a) (sd_id a)) = dest_of c a.
Proof.
  intros c [aw t i] HC HU (H1 & H2). cbn [sd_aw sd_txn sd_id] in *. unfold dest_of. cbn [sd_txn sd_aw].
  assert (E : forall u, trunc 64 (trunc (x_userw (xc_w c)) u) = u mod 2 ^ 64).
  { intros v. rewrite !trunc_mod by lia. rewrite <- Znumtheory.Zmod_div_mod; try lia.
    exists (2 ^ (x_userw (xc_w c) - 64)). rewrite <- Z.pow_add_r by lia. f_equal. lia. }
  destruct t; cbn [capture_of cap_addr cap_w cap_r cap_b i_dest] in *.
  - apply (dest_small c HC). exact H1.
  - apply (dest_small c HC). exact H1.
  - destruct H2 as [->|(x & Hx & ->)]; [reflexivity|]. apply trunc_node; auto.
  - rewrite E. apply (dest_small c HC). apply Z.mod_pos_bound. reflexivity.
  - rewrite E. apply (dest_small c HC). apply Z.mod_pos_bound. reflexivity.
Qed.

Section P.
Variables (y : ycfg) (cs : Z -> xcfg) (sevs : Z -> list xinstant) (tr : Z -> list xobs) (here : Z -> bool).
Hypothesis OK : forall k, xsender_ok y k (cs k).
Hypothesis SENDS : xsends cs sevs tr.
Let acc k := accepted (cs k) (tr k).
Hypothesis FIT : forall k a, In a (acc k) -> here (dest_of (cs k) a) = true -> xfits (cs k) (sd_txn a).

Definition mkb (k : Z) (f : xflit) : xbflit := {| xb_src := k; xb_flit := f |}.
Definition pkb (v : nat) (k : Z) (a : sent) : list xbflit := map (mkb k) (pka (cs k) a).
Definition xmine (k : Z) (v : nat) : list sent :=
  filter (fun a => Nat.eqb (tn (kind (sd_txn a))) v && (out_type (y_side y) (kind (sd_txn a)) && here (dest_of (cs k) a))) (acc k).

Lemma xmine_type : forall k t, out_type (y_side y) t = true -> xmine k (tn t) = filter (xmeant y here (cs k) t) (acc k).
Proof.
  intros k t Ht. unfold xmine. apply filter_ext. intros a. unfold xmeant. rewrite teqb_tn.
  destruct (Nat.eqb_spec (tn (kind (sd_txn a))) (tn t)) as [E|E]; auto. apply tn_inj in E. rewrite E, Ht. reflexivity.
Qed.
Lemma xmine_none : forall k t, out_type (y_side y) t = false -> xmine k (tn t) = [].
Proof.
  intros k t Ht. unfold xmine. induction (acc k) as [|a l IH]; cbn [filter]; auto.
  destruct (Nat.eqb_spec (tn (kind (sd_txn a))) (tn t)) as [E|E]; auto. apply tn_inj in E. rewrite E, Ht. exact IH.
Qed.
Lemma xmine_5 : forall k v, (5 <= v)%nat -> xmine k v = [].
Proof.
  intros k v Hv. unfold xmine. induction (acc k) as [|a l IH]; cbn [filter]; auto.
  destruct (Nat.eqb_spec (tn (kind (sd_txn a))) v) as [E|E]; auto. destruct (kind (sd_txn a)); cbn [tn] in E; lia.
Qed.

Lemma acc_ok : forall k, Forall (ok_sent (cs k)) (acc k).
Proof.
  intros k. destruct (SENDS k) as (H1 & H2 & s & H3). apply ann_ok; auto. eapply accs_ok; eauto.
Qed.

Lemma put_prefix : forall k, prefix (put (tr k)) (flat_map (fun a => map (mkb k) (pka (cs k) a)) (acc k)) /\
  (injs (tr k) = packets (cs k) 0 (accs (tr k)) -> put (tr k) = flat_map (fun a => map (mkb k) (pka (cs k) a)) (acc k)).
Proof.
  intros k. destruct (SENDS k) as (H1 & H2 & s & H3). destruct (OK k) as (HC & N & _).
  assert (E : put (tr k) = map (mkb k) (injs (tr k))).
  { rewrite <- put_injs. pose proof (run_src _ _ _ _ _ H3) as HS. rewrite N in HS. clear -HS.
    induction HS as [|f l Hf HS IH]; cbn [map]; auto. rewrite <- IH. f_equal. destruct f; cbn in *. subst. reflexivity. }
  assert (E2 : flat_map (fun a => map (mkb k) (pka (cs k) a)) (acc k) = map (mkb k) (packets (cs k) 0 (accs (tr k)))).
  { rewrite packets_ann. unfold acc, accepted. generalize (annotate (cs k) 0 (accs (tr k))). intros l.
    induction l as [|a l IH]; cbn [flat_map map]; auto. rewrite map_app, <- IH. reflexivity. }
  rewrite E, E2. split.
  - apply prefix_map. destruct (exactly_once (cs k) HC (sevs k) s (tr k) H1 H2 H3) as (late & HL). exists late. symmetry. exact HL.
  - intros ->. reflexivity.
Qed.

Lemma pka_packet : forall k a, packet xf_tail (pka (cs k) a) /\ (forall f, In f (pka (cs k) a) -> xf_type f = kind (sd_txn a) /\
    xf_dest f = i_dest (capture_of (cs k) (sd_aw a) (sd_txn a) (sd_id a)) /\
    xf_vc f = trunc (xc_vcidw (cs k)) (fst (xc_vc (cs k) (type_num (kind (sd_txn a))))) /\
    xf_pid f = xpid (xc_w (cs k)) (capture_of (cs k) (sd_aw a) (sd_txn a) (sd_id a))).
Proof.
  intros k a. destruct (OK k) as (HC & _). destruct (packet_of_packet (cs k) (sd_aw a) (sd_txn a) (sd_id a) HC) as (p & _ & P1 & P2 & _).
  unfold pka. split; [split; [exact P1|]|].
  - intros j f Hj. destruct (P2 j f Hj) as (_ & T & _). rewrite T. apply Nat.eqb_eq.
  - intros f Hf. apply In_nth_error in Hf. destruct Hf as (j & Hj). destruct (P2 j f Hj) as (_ & _ & A & B & C & D). auto.
Qed.

Lemma pkb_packet : forall k v a, packet btail (pkb v k a) /\ forall f, In f (pkb v k a) -> xb_src f = k.
Proof.
  intros k v a. destruct (pka_packet k a) as ((P1 & P2) & _). unfold pkb. split; [split|].
  - destruct (pka (cs k) a); [congruence|discriminate].
  - intros j f H. rewrite nth_error_map in H. destruct (nth_error (pka (cs k) a) j) as [g|] eqn:Hg; [|discriminate].
    injection H as <-. rewrite map_length. apply P2. exact Hg.
  - intros f H. apply in_map_iff in H. destruct H as (g & <- & _). reflexivity.
Qed.

Lemma sent_xmine : forall k t, out_type (y_side y) t = true ->
  filter (fun f => btype t f && here (xf_dest (xb_flit f))) (flat_map (fun a => map (mkb k) (pka (cs k) a)) (acc k)) =
  concat (map (pkb (tn t) k) (xmine k (tn t))).
Proof.
  intros k t Ht. rewrite (xmine_type k t Ht). rewrite (filter_flat_map _ _ _ _ (xmeant y here (cs k) t)).
  - rewrite flat_map_concat_map. reflexivity.
  - intros a f Ha Hf. apply in_map_iff in Hf. destruct Hf as (g & <- & Hg). destruct (pka_packet k a) as (_ & P).
    destruct (P g Hg) as (A & B & _). unfold btype, of_type, xmeant, mkb. cbn [xb_flit]. rewrite A, B.
    destruct (OK k) as (HC & _ & _ & HU & _). rewrite dest_ok; auto. pose proof (acc_ok k) as F. rewrite Forall_forall in F. auto.
Qed.

Lemma xmine_acc : forall k v a, In a (xmine k v) -> In a (acc k) /\ tn (kind (sd_txn a)) = v /\
  out_type (y_side y) (kind (sd_txn a)) = true /\ xfits (cs k) (sd_txn a).
Proof.
  intros k v a H. apply filter_In in H. destruct H as [H1 H2]. apply andb_prop in H2. destruct H2 as [H2 H3]. apply andb_prop in H3.
  destruct H3 as [H3 H4]. apply Nat.eqb_eq in H2. auto.
Qed.

Lemma pka_wf : forall k a, wf_xpacket (y_w y) (kind (sd_txn a)) (pka (cs k) a).
Proof.
  intros k a. destruct (pka_packet k a) as ((P1 & P2) & P3). destruct (OK k) as (HC & _ & W & _).
  split; [exact P1|]. split; [exact P2|]. split; [intros f Hf; apply P3; exact Hf|].
  destruct (packet_of_packet (cs k) (sd_aw a) (sd_txn a) (sd_id a) HC) as (p & _ & _ & _ & L).
  apply (f_equal (@length _)) in L. fold (pka (cs k) a) in L. unfold xpayloads in L. rewrite !map_length, seq_length in L. rewrite L.
  destruct HC as [(G1 & G2 & G3 & G4) D _ _ _ _]. rewrite <- W. rewrite xnum_flits_want.
  destruct (flits_for_bounds (xc_w (cs k)) G1 (want (xc_w (cs k)) (xc_dw (cs k)) (kind (sd_txn a)))) as (B1 & B2 & B3).
  { unfold want. destruct (kind (sd_txn a)); lia. }
  rewrite Nat2Z.inj_sub, Z2Nat.id by lia. change (Z.of_nat 1) with 1.
  assert (want (xc_w (cs k)) (xc_dw (cs k)) (kind (sd_txn a)) <= xpayloadw (xc_w (cs k)))
    by (unfold want, xpayloadw, respw; destruct (kind (sd_txn a)); lia).
  lia.
Qed.

Lemma pka_contents : forall k v a, In a (xmine k v) -> xcontents (y_w y) (pka (cs k) a) = arrives (cs k) (sd_txn a).
Proof.
  intros k v a Ha. apply xmine_acc in Ha. destruct Ha as (_ & _ & _ & F). destruct (OK k) as (HC & _ & W & _).
  destruct (pka_packet k a) as ((P1 & _) & P3).
  destruct (packet_of_packet (cs k) (sd_aw a) (sd_txn a) (sd_id a) HC) as (p & Ep & _ & _ & L). fold (pka (cs k) a) in L.
  assert (CA : carry (xc_w (cs k)) (xc_dw (cs k)) (capture_of (cs k) (sd_aw a) (sd_txn a) (sd_id a)) =
    Some (xpid (xc_w (cs k)) (capture_of (cs k) (sd_aw a) (sd_txn a) (sd_id a)), xreassemble (xc_w (cs k)) (map xf_payload (pka (cs k) a)))).
  { unfold carry. rewrite Ep, L. cbn [option_map]. replace (i_type (capture_of (cs k) (sd_aw a) (sd_txn a) (sd_id a))) with (kind (sd_txn a));
    [reflexivity|]. destruct (sd_txn a); reflexivity. }
  unfold xcontents, ptype. destruct (pka (cs k) a) as [|f r] eqn:Ek; [congruence|].
  destruct (P3 f (or_introl eq_refl)) as (T & _ & _ & I). rewrite T, I, <- W. rewrite <- Ek in *. clear Ek f r T I P1 P3 L Ep W.
  set (vv := xreassemble (xc_w (cs k)) (map xf_payload (pka (cs k) a))) in *. clearbody vv.
  pose proof (gx_w _ HC) as GW. pose proof (gx_dw _ HC) as GD.
  destruct (sd_txn a) as [h|h|w|x|x]; cbn [kind capture_of xfits arrives] in *.
  - destruct (addr_arrives (xc_w (cs k)) GW (xc_dw (cs k)) AR h (sd_id a) regs0 F (or_introl eq_refl)) as (v' & V1 & V2 & _).
    rewrite CA in V1. injection V1 as V1 V3. subst v'. rewrite V1, V2. reflexivity.
  - destruct (addr_arrives (xc_w (cs k)) GW (xc_dw (cs k)) AW h (sd_id a) regs0 F (or_intror eq_refl)) as (v' & V1 & V2 & _).
    rewrite CA in V1. injection V1 as V1 V3. subst v'. rewrite V1, V2. reflexivity.
  - destruct (w_arrives (xc_w (cs k)) GW (xc_dw (cs k)) w (sd_aw a) (sd_id a) regs0 GD F) as (v' & V1 & V2).
    rewrite CA in V1. injection V1 as V1 V3. subst v'. rewrite V1, V2. reflexivity.
  - destruct (r_arrives (xc_w (cs k)) GW (xc_dw (cs k)) x (sd_id a) regs0 GD F) as (v' & V1 & V2).
    rewrite CA in V1. injection V1 as V1 V3. subst v'. rewrite V1, V2. reflexivity.
  - destruct F as (F & M). destruct (b_arrives (xc_w (cs k)) GW (xc_dw (cs k)) x (sd_id a) regs0 F M) as (v' & V1 & V2).
    rewrite CA in V1. injection V1 as V1 V3. subst v'. rewrite V1, V2. reflexivity.
Qed.

Section N.
Variable input : list xbflit.
Hypothesis NOC : xnoc y here tr input.
Let yinput := map xb_flit input.
Definition typed (v : nat) (f : xbflit) : bool := Nat.eqb (tn (xf_type (xb_flit f))) v.

Lemma typed_btype : forall t l, filter (typed (tn t)) l = filter (btype t) l.
Proof. intros t l. apply filter_ext. intros f. unfold typed, btype, of_type. rewrite teqb_tn. reflexivity. Qed.
Lemma typed_none : forall v, (forall t, tn t = v -> out_type (y_side y) t = false) -> filter (typed v) input = [].
Proof.
  intros v Hv. destruct (filter (typed v) input) as [|f r] eqn:E; auto. exfalso.
  assert (In f (filter (typed v) input)) as Hf by (rewrite E; left; reflexivity). apply filter_In in Hf. destruct Hf as [Hf Hv2].
  apply (proj1 NOC) in Hf. unfold typed in Hv2. apply Nat.eqb_eq in Hv2. rewrite (Hv _ Hv2) in Hf. discriminate.
Qed.
Lemma flits_type : forall t l, filter (of_type t) (map xb_flit l) = map xb_flit (filter (btype t) l).
Proof.
  intros t l. induction l as [|f l IH]; cbn [map filter]; auto. unfold btype at 1.
  destruct (of_type t (xb_flit f)); cbn [map]; rewrite IH; reflexivity.
Qed.
Lemma yinput_type : forall t, filter (of_type t) yinput = map xb_flit (filter (typed (tn t)) input).
Proof. intros t. unfold yinput. rewrite typed_btype. apply flits_type. Qed.
Lemma pkb_flits : forall v k a, map xb_flit (pkb v k a) = pka (cs k) a.
Proof. intros. unfold pkb. rewrite map_map. apply map_id. Qed.
Lemma concat_pkb : forall v (l : list (Z * sent)), map xb_flit (concat (map (fun q => pkb v (fst q) (snd q)) l)) =
  concat (map (fun q => pka (cs (fst q)) (snd q)) l).
Proof. intros v l. induction l as [|q l IH]; cbn [map concat]; auto. rewrite map_app, pkb_flits, IH. reflexivity. Qed.

Lemma xarrivals : exists Q : nat -> list (Z * sent),
  (forall v q, In q (Q v) -> In (snd q) (xmine (fst q) v)) /\
  good_xinput y yinput (fun t => map (fun q => pka (cs (fst q)) (snd q)) (Q (tn t))) /\
  (forall k v, prefix (map snd (filter (fun q => Z.eqb (fst q) k) (Q v))) (xmine k v)) /\
  (xnoc_empty y here tr input -> (forall k, injs (tr k) = packets (cs k) 0 (accs (tr k))) -> forall v,
    map xb_flit (filter (typed v) input) = concat (map (fun q => pka (cs (fst q)) (snd q)) (Q v)) /\
    forall k, map snd (filter (fun q => Z.eqb (fst q) k) (Q v)) = xmine k v).
Proof.
  pose proof NOC as (N1 & N2 & N3).
  assert (ARR : forall k v, prefix (filter (from xb_src k) (filter (typed v) input)) (concat (map (pkb v k) (xmine k v)))).
  { intros k v. destruct (tn_cases v) as [(t & <-)|Hv].
    - destruct (out_type (y_side y) t) eqn:Ht.
      + rewrite typed_btype, <- sent_xmine by auto. eapply prefix_trans; [apply N3; auto|]. apply prefix_filter. apply put_prefix.
      + rewrite typed_none; [apply prefix_nil|]. intros t' E. apply tn_inj in E. congruence.
    - rewrite typed_none; [apply prefix_nil|]. intros t' E. destruct t'; cbn [tn] in E; lia. }
  destruct (routed _ _ btail xb_src pkb xmine (fun v => filter (typed v) input) 5) as (Q & Q1 & Q2 & Q3 & Q4).
  - intros k v a _. apply pkb_packet.
  - intros v. destruct (tn_cases v) as [(t & <-)|Hv]; [rewrite typed_btype; apply N2|].
    rewrite typed_none; [intros a f g b E; destruct a; discriminate|]. intros t' E. destruct t'; cbn [tn] in E; lia.
  - intros v Hv. apply typed_none. intros t' E. destruct t'; cbn [tn] in E; lia.
  - exact ARR.
  - assert (QI : forall v q, In q (Q v) -> In (snd q) (xmine (fst q) v)).
    { intros v q Hq. destruct (Q2 (fst q) v) as (later & E). rewrite E. apply in_or_app. left.
      apply in_map_iff. exists q. split; auto. apply filter_In. split; auto. apply Z.eqb_refl. }
    exists Q. split; [exact QI|]. split; [|split; [exact Q2|]].
    + split.
      * intros f Hf. apply in_map_iff in Hf. destruct Hf as (g & <- & Hg). pose proof (N1 g Hg) as Ht. split; [exact Ht|].
        set (t := xf_type (xb_flit g)) in *. destruct (ARR (xb_src g) (tn t)) as (later & E).
        assert (HI : In g (filter (from xb_src (xb_src g)) (filter (typed (tn t)) input))).
        { apply filter_In. split; [apply filter_In; split; auto|]; unfold from, typed; [apply Nat.eqb_refl|apply Z.eqb_refl]. }
        assert (HI2 : In g (concat (map (pkb (tn t) (xb_src g)) (xmine (xb_src g) (tn t))))) by (rewrite E; apply in_or_app; auto).
        apply in_concat in HI2. destruct HI2 as (p & Hp & Hgp). apply in_map_iff in Hp. destruct Hp as (a & <- & Ha).
        apply xmine_acc in Ha. destruct Ha as (_ & Tk & _). apply tn_inj in Tk.
        unfold pkb in Hgp. apply in_map_iff in Hgp. destruct Hgp as (h & Eg & Hh). destruct (pka_packet (xb_src g) a) as (_ & P).
        destruct (P h Hh) as (_ & _ & V & _). replace (xb_flit g) with h by (rewrite <- Eg; reflexivity). rewrite V, Tk.
        destruct (OK (xb_src g)) as (_ & _ & _ & _ & VC). apply VC. exact Ht.
      * intros t. split; [|split].
        -- apply Forall_forall. intros p Hp. apply in_map_iff in Hp. destruct Hp as (q & <- & Hq). apply QI in Hq.
           apply xmine_acc in Hq. destruct Hq as (_ & Tk & _). apply tn_inj in Tk. rewrite <- Tk. apply pka_wf.
        -- intros Ht. rewrite (Q3 (tn t)); [reflexivity|]. apply typed_none. intros t' E. apply tn_inj in E. congruence.
        -- destruct (Q1 (tn t)) as (more & E). exists (map xb_flit more). rewrite yinput_type, <- map_app, <- E. apply concat_pkb.
    + intros HN HI v.
      assert (FULL : forall k v, filter (from xb_src k) (filter (typed v) input) = concat (map (pkb v k) (xmine k v))).
      { intros k u. destruct (tn_cases u) as [(t & <-)|Hv].
        - destruct (out_type (y_side y) t) eqn:Ht.
          + rewrite typed_btype, <- sent_xmine by auto. rewrite (HN k t Ht). destruct (put_prefix k) as (_ & E). rewrite (E (HI k)). reflexivity.
          + rewrite typed_none, xmine_none; auto. intros t' E. apply tn_inj in E. congruence.
        - rewrite typed_none, xmine_5; auto. intros t' E. destruct t'; cbn [tn] in E; lia. }
      destruct (Q4 FULL v) as (E1 & E2). split; [|exact E2]. rewrite E1. apply concat_pkb.
Qed.

(** Labels for the merge. *)
Definition label (p : list xflit) : nat * list xflit := (tn (ptype p), p).
Lemma label_filter : forall t dl, map snd (filter (fun x => Nat.eqb (fst x) (tn t)) (map label dl)) = filter (is_type t) dl.
Proof.
  intros t dl. induction dl as [|p dl IH]; cbn [map filter]; auto. unfold is_type at 1. rewrite teqb_tn. cbn [label fst].
  destruct (Nat.eqb (tn (ptype p)) (tn t)); cbn [map snd]; rewrite IH; reflexivity.
Qed.
Lemma label_other : forall v dl, (5 <= v)%nat -> filter (fun x => Nat.eqb (fst x) v) (map label dl) = [].
Proof.
  intros v dl Hv. induction dl as [|p dl IH]; cbn [map filter]; auto. cbn [label fst].
  destruct (Nat.eqb_spec (tn (ptype p)) v) as [E|E]; auto. destruct (ptype p); cbn [tn] in E; lia.
Qed.

Lemma hist_of : forall (Q : nat -> list (Z * sent)) dl,
  (forall v q, In q (Q v) -> In (snd q) (xmine (fst q) v)) ->
  (forall t, prefix (filter (is_type t) dl) (map (fun q => pka (cs (fst q)) (snd q)) (Q (tn t)))) ->
  exists hist : list (nat * (Z * sent)), map (fun h => pka (cs (fst (snd h))) (snd (snd h))) hist = dl /\
    (forall v, prefix (map snd (filter (fun x => Nat.eqb (fst x) v) hist)) (Q v)) /\
    (forall h, In h hist -> In (snd (snd h)) (xmine (fst (snd h)) (fst h))).
Proof.
  intros Q dl QI H.
  destruct (merge _ _ (fun (_ : nat) q => pka (cs (fst q)) (snd q)) (map label dl) Q) as (hist & H1 & H2).
  { intros v. destruct (tn_cases v) as [(t & <-)|Hv]; [rewrite label_filter; apply H|rewrite label_other by auto; apply prefix_nil]. }
  exists hist. split; [|split; [exact H2|]].
  - apply (f_equal (map snd)) in H1. rewrite !map_map in H1. cbn [snd label] in H1. rewrite map_id in H1. exact H1.
  - intros h Hh. apply QI. destruct (H2 (fst h)) as (later & E). rewrite E. apply in_or_app. left.
    apply in_map. apply filter_In. split; auto. apply Nat.eqb_refl.
Qed.

Lemma xpart_split : forall k t (hist : list (nat * (Z * sent))),
  (forall h, In h hist -> In (snd (snd h)) (xmine (fst (snd h)) (fst h))) ->
  xpart k t (map snd hist) = map snd (filter (fun q => Z.eqb (fst q) k) (map snd (filter (fun x => Nat.eqb (fst x) (tn t)) hist))).
Proof.
  intros k t hist H. unfold xpart. induction hist as [|h hist IH]; cbn [map filter]; auto.
  pose proof (H h (or_introl eq_refl)) as Hh. apply xmine_acc in Hh. destruct Hh as (_ & Tk & _).
  rewrite teqb_tn, Tk. destruct (Nat.eqb (fst h) (tn t)); cbn [map filter snd].
  - rewrite andb_true_r. destruct (Z.eqb (fst (snd h)) k); cbn [map]; rewrite IH by (intros; apply H; right; auto); reflexivity.
  - rewrite andb_false_r. apply IH. intros; apply H; right; auto.
Qed.

Lemma hist_shown : forall (hist : list (nat * (Z * sent))),
  (forall h, In h hist -> In (snd (snd h)) (xmine (fst (snd h)) (fst h))) ->
  map (xcontents (y_w y)) (map (fun h => pka (cs (fst (snd h))) (snd (snd h))) hist) =
  map (fun h => arrives (cs (fst h)) (sd_txn (snd h))) (map snd hist).
Proof.
  intros hist H. rewrite !map_map. apply map_ext_in. intros h Hh. apply (pka_contents _ _ _ (H h Hh)).
Qed.

Lemma xe2e : forall yevs, Forall ok_yinstant yevs ->
  exists s o, y_run y yevs (y_init y yinput) = Some (s, o) /\
  exists hist : list (Z * sent),
    (forall k t, out_type (y_side y) t = true -> prefix (xpart k t hist) (filter (xmeant y here (cs k) t) (acc k))) /\
    prefix (shown o) (map (fun h => arrives (cs (fst h)) (sd_txn (snd h))) hist).
Proof.
  intros yevs HY. destruct xarrivals as (Q & QI & GI & Q2 & _).
  destruct (AximmOutProofs.run_safe y yinput _ yevs GI HY) as (s & o & R & dl & rest & D1 & D2). exists s, o. split; auto.
  destruct (hist_of Q dl QI) as (hist & H1 & H2 & H3). { intros t. destruct (D1 t) as (later & E). exists later. exact E. }
  exists (map snd hist). split.
  - intros k t Ht. rewrite <- xmine_type by auto. eapply prefix_trans; [|apply Q2]. rewrite xpart_split by auto.
    apply prefix_map, prefix_filter. apply H2.
  - exists rest. rewrite <- D2, <- H1. symmetry. apply hist_shown. exact H3.
Qed.

(** Everything sent has arrived and the receiver is at rest. *)
Lemma xe2e_rest : forall yevs s o, Forall ok_yinstant yevs ->
  (forall k, injs (tr k) = packets (cs k) 0 (accs (tr k))) -> xnoc_empty y here tr input ->
  y_run y yevs (y_init y yinput) = Some (s, o) -> AximmOutProofs.drained y s ->
  exists hist : list (Z * sent),
    (forall k t, out_type (y_side y) t = true -> xpart k t hist = filter (xmeant y here (cs k) t) (acc k)) /\
    shown o = map (fun h => arrives (cs (fst h)) (sd_txn (snd h))) hist.
Proof.
  intros yevs s o HY ALL NE R DR. destruct xarrivals as (Q & QI & GI & Q2 & Q4). specialize (Q4 NE ALL).
  destruct (AximmOutProofs.run_rest y yinput _ yevs s o GI HY R DR) as (dl & D1 & D2).
  destruct (hist_of Q dl QI) as (hist & H1 & H2 & H3). { intros t. destruct (D1 t) as (later & pt & E & _). exists later. exact E. }
  exists (map snd hist). split.
  2:{ rewrite <- D2, <- H1. apply hist_shown. exact H3. }
  assert (HE : forall t, map snd (filter (fun x => Nat.eqb (fst x) (tn t)) hist) = Q (tn t)).
  { intros t. apply prefix_length; [apply H2|]. destruct (D1 t) as (rest & pt & E & E2 & NT & _).
    destruct (Q4 (tn t)) as (E3 & _).
    assert (RN : rest = []).
    { apply (no_tail_no_packet _ xf_tail).
      - assert (FA : Forall (packet xf_tail) (map (fun q => pka (cs (fst q)) (snd q)) (Q (tn t)))).
        { apply Forall_forall. intros p Hp. apply in_map_iff in Hp. destruct Hp as (q & <- & Hq). apply pka_packet. }
        rewrite E in FA. apply Forall_app in FA. apply FA.
      - rewrite yinput_type, E3, E, concat_app in E2. apply app_inv_head in E2. rewrite E2. exact NT. }
    rewrite RN, app_nil_r in E. apply (f_equal (@length _)) in E. rewrite !map_length in E |- *. rewrite E, <- H1.
    clear -H3 OK SENDS FIT. induction hist as [|h hist IH]; cbn [map filter fst]; auto.
    pose proof (H3 h (or_introl eq_refl)) as Hh. apply xmine_acc in Hh. destruct Hh as (_ & Tk & _).
    assert (TT : is_type t (pka (cs (fst (snd h))) (snd (snd h))) = Nat.eqb (fst h) (tn t)).
    { unfold is_type. rewrite teqb_tn. rewrite <- Tk. f_equal. f_equal. unfold ptype. destruct (pka_packet (fst (snd h)) (snd (snd h))) as ((P1 & _) & P).
      destruct (pka (cs (fst (snd h))) (snd (snd h))) as [|f r]; [congruence|]. apply P. left. reflexivity. }
    rewrite TT. destruct (Nat.eqb (fst h) (tn t)); cbn [length]; rewrite IH by (intros; apply H3; right; auto); reflexivity. }
  intros k t Ht. rewrite xpart_split, HE, <- xmine_type by auto. apply Q4.
Qed.

Lemma xe2e_all : forall yevs, Forall ok_yinstant yevs ->
  (forall k a, In a (acc k) -> here (dest_of (cs k) a) = true ->
     xnum_flits (xc_w (cs k)) (xc_dw (cs k)) (kind (sd_txn a)) <= Z.of_nat (y_depth y)) ->
  (forall k, injs (tr k) = packets (cs k) 0 (accs (tr k))) -> xnoc_empty y here tr input ->
  yrounds (6 * length input + 1) yevs ->
  exists s o, y_run y yevs (y_init y yinput) = Some (s, o) /\
  exists hist : list (Z * sent),
    (forall k t, out_type (y_side y) t = true -> xpart k t hist = filter (xmeant y here (cs k) t) (acc k)) /\
    shown o = map (fun h => arrives (cs (fst h)) (sd_txn (snd h))) hist.
Proof.
  intros yevs HY DEP ALL NE YR. destruct xarrivals as (Q & QI & GI & Q2 & Q4). specialize (Q4 NE ALL).
  destruct (AximmOutProofs.run_progress y yinput _ yevs GI HY) as (s & o & R & dl & D1 & D2).
  { intros t p Hp. apply in_map_iff in Hp. destruct Hp as (q & <- & Hq). apply QI in Hq. apply filter_In in Hq. destruct Hq as [Hq1 Hq2].
    apply andb_prop in Hq2. destruct Hq2 as [_ Hq2]. apply andb_prop in Hq2. destruct Hq2 as [_ Hq2]. specialize (DEP _ _ Hq1 Hq2).
    destruct (OK (fst q)) as (HC & _). destruct (packet_of_packet (cs (fst q)) (sd_aw (snd q)) (sd_txn (snd q)) (sd_id (snd q)) HC) as (p & _ & _ & _ & L).
    apply (f_equal (@length _)) in L. fold (pka (cs (fst q)) (snd q)) in L. unfold xpayloads in L. rewrite !map_length, seq_length in L. rewrite L. lia. }
  { unfold yinput. rewrite map_length. exact YR. }
  exists s, o. split; auto.
  destruct (hist_of Q dl QI) as (hist & H1 & H2 & H3). { intros t. destruct (D1 t) as (later & pt & E & _). exists later. exact E. }
  exists (map snd hist). split.
  2:{ rewrite <- D2, <- H1. apply hist_shown. exact H3. }
  assert (HE : forall t, map snd (filter (fun x => Nat.eqb (fst x) (tn t)) hist) = Q (tn t)).
  { intros t. apply prefix_length; [apply H2|]. destruct (D1 t) as (rest & pt & E & E2 & NT).
    destruct (Q4 (tn t)) as (E3 & _).
    assert (RN : rest = []).
    { apply (no_tail_no_packet _ xf_tail).
      - assert (FA : Forall (packet xf_tail) (map (fun q => pka (cs (fst q)) (snd q)) (Q (tn t)))).
        { apply Forall_forall. intros p Hp. apply in_map_iff in Hp. destruct Hp as (q & <- & Hq). apply pka_packet. }
        rewrite E in FA. apply Forall_app in FA. apply FA.
      - rewrite yinput_type, E3, E, concat_app in E2. apply app_inv_head in E2. rewrite E2. exact NT. }
    rewrite RN, app_nil_r in E. apply (f_equal (@length _)) in E. rewrite !map_length in E |- *. rewrite E, <- H1.
    clear -H3 OK SENDS FIT. induction hist as [|h hist IH]; cbn [map filter fst]; auto.
    pose proof (H3 h (or_introl eq_refl)) as Hh. apply xmine_acc in Hh. destruct Hh as (_ & Tk & _).
    assert (TT : is_type t (pka (cs (fst (snd h))) (snd (snd h))) = Nat.eqb (fst h) (tn t)).
    { unfold is_type. rewrite teqb_tn. rewrite <- Tk. f_equal. f_equal. unfold ptype. destruct (pka_packet (fst (snd h)) (snd (snd h))) as ((P1 & _) & P).
      destruct (pka (cs (fst (snd h))) (snd (snd h))) as [|f r]; [congruence|]. apply P. left. reflexivity. }
    rewrite TT. destruct (Nat.eqb (fst h) (tn t)); cbn [length]; rewrite IH by (intros; apply H3; right; auto); reflexivity. }
  intros k t Ht. rewrite xpart_split, HE, <- xmine_type by auto. apply Q4.
Qed.
End N.
End P.
