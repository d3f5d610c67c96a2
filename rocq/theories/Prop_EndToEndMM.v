(** C75 : AXI-MM transactions handed over by any number of senders reach the receiver's module. *)
From Coq Require Import ZArith Bool List Lia.
From Verif Require Import Bits VcModel AddrModel AximmFormatModel AximmInModel AximmSpec AximmOutModel AximmOutSpec
  StreamSpec StreamProofs EndToEndMMSpec EndToEndMMProofs Prop_AximmIn Prop_AximmOut.
Import ListNotations.
Local Open Scope Z_scope.

(** C75. Requests to a master adapter and responses to a slave adapter alike.  There is a history
    of transactions with their senders: its part of one sender and type is the first part of what
    that sender accepted of this type for this receiver, in order, and what the module is shown is
    the first part of the history as it [arrives]. *)
Theorem C75_end_to_end : forall y cs sevs tr here input yevs,
  (forall k, xsender_ok y k (cs k)) -> xsends cs sevs tr ->
  (forall k a, In a (accepted (cs k) (tr k)) -> here (dest_of (cs k) a) = true -> xfits (cs k) (sd_txn a)) ->
  xnoc y here tr input -> Forall ok_yinstant yevs ->
  exists s o, y_run y yevs (y_init y (map xb_flit input)) = Some (s, o) /\
  exists hist : list (Z * sent),
    (forall k t, out_type (y_side y) t = true ->
       prefix (xpart k t hist) (filter (xmeant y here (cs k) t) (accepted (cs k) (tr k)))) /\
    prefix (shown o) (map (fun h => arrives (cs (fst h)) (sd_txn (snd h))) hist).
Proof. intros. apply (xe2e y cs sevs tr here); auto. Qed.
Print Assumptions C75_end_to_end.

(** C75. When all accepted transactions have been put into the NoC, the NoC is empty, and enough
    rounds have passed, all of them have been shown, each once. *)
Theorem C75_all_arrive : forall y cs sevs tr here input yevs,
  (forall k, xsender_ok y k (cs k)) -> xsends cs sevs tr ->
  (forall k a, In a (accepted (cs k) (tr k)) -> here (dest_of (cs k) a) = true -> xfits (cs k) (sd_txn a)) ->
  xnoc y here tr input -> Forall ok_yinstant yevs ->
  (forall k a, In a (accepted (cs k) (tr k)) -> here (dest_of (cs k) a) = true ->
     xnum_flits (xc_w (cs k)) (xc_dw (cs k)) (kind (sd_txn a)) <= Z.of_nat (y_depth y)) ->
  (forall k, injs (tr k) = packets (cs k) 0 (accs (tr k))) -> xnoc_empty y here tr input ->
  yrounds (6 * length input + 1) yevs ->
  exists s o, y_run y yevs (y_init y (map xb_flit input)) = Some (s, o) /\
  exists hist : list (Z * sent),
    (forall k t, out_type (y_side y) t = true ->
       xpart k t hist = filter (xmeant y here (cs k) t) (accepted (cs k) (tr k))) /\
    shown o = map (fun h => arrives (cs (fst h)) (sd_txn (snd h))) hist.
Proof. intros. apply (xe2e_all y cs sevs tr here); auto. Qed.
Print Assumptions C75_all_arrive.

(** Node 3 sends a write burst to node 9, node 5 a read request; the flits of the three types
    are interleaved on arrival. *)
Definition zcs (k : Z) : xcfg :=
  {| xc_side := Slave; xc_w := repo_xwidths; xc_vcidw := 3; xc_vc := configured [(0, 0); (1, 1); (2, 2); (3, 3); (4, 4)];
     xc_node := k; xc_dw := 512; xc_ratio := 2; xc_depth := 16 |}.
Definition zsevs (k : Z) : list xinstant :=
  let drain := concat (repeat [at_ [TNode; TAdapt; TNoc] [] 0; at_ [TAdapt; TNoc] [] 0] 8) in
  if k =? 3 then
    [at_ [TNode; TAdapt] [XAW (req 9 1)] 10; at_ [TAdapt] [XAW (req 9 1)] 0;
     at_ [TAdapt; TNode] [XW (beat 77 true)] 11; at_ [TNoc] [] 0; at_ [TAdapt] [XW (beat 77 true)] 0;
     at_ [TNode; TAdapt; TNoc] [XW (beat 77 true)] 12; at_ [TAdapt] [] 0] ++ drain
  else if k =? 5 then [at_ [TNode; TAdapt] [XAR (req 9 4)] 20; at_ [TAdapt] [] 0] ++ drain
  else [].
Definition ztr (k : Z) : list xobs := match x_run (zcs k) x_init (zsevs k) with Some (_, o) => o | None => [] end.
Definition zhere (d : Z) : bool := d =? 9.
Definition zy : ycfg := ex_ycfg Master 8.
Definition zinput : list xbflit :=
  match put (ztr 5), put (ztr 3) with
  | [a0; a1], b0 :: b1 :: w0 :: w => a0 :: b0 :: b1 :: w0 :: a1 :: w
  | _, _ => []
  end.
Definition zyevs : list yinstant := concat (repeat ex_yround 73).

Lemma z_other : forall k, k <> 3 -> k <> 5 -> zsevs k = [].
Proof. intros k A B. unfold zsevs. destruct (Z.eqb_spec k 3); [congruence|]. destruct (Z.eqb_spec k 5); [congruence|]. reflexivity. Qed.
Lemma z_cases : forall P : Z -> Prop, P 3 -> P 5 -> (forall k, k <> 3 -> k <> 5 -> P k) -> forall k, P k.
Proof. intros P A B C k. destruct (Z.eq_dec k 3) as [->|N]; auto. destruct (Z.eq_dec k 5) as [->|N2]; auto. Qed.
Lemma z_otr : forall k, k <> 3 -> k <> 5 -> ztr k = [].
Proof. intros k A B. unfold ztr. rewrite (z_other k A B). reflexivity. Qed.

Lemma z_senders : forall k, xsender_ok zy k (zcs k).
Proof.
  intros k. split; [|split; [reflexivity|split; [reflexivity|split; [vm_compute; congruence|]]]].
  - constructor; try (vm_compute; intuition congruence). intros t; destruct t; vm_compute; congruence.
  - intros [] H; vm_compute in H |- *; congruence.
Qed.

Lemma z_sends : xsends zcs zsevs ztr.
Proof.
  unfold xsends. apply (z_cases (fun k => Forall ok_xinstant (zsevs k) /\ clocked (xc_ratio (zcs k)) None (zsevs k) /\
    exists s, x_run (zcs k) x_init (zsevs k) = Some (s, ztr k))).
  - split; [unfold zsevs; cbn [Z.eqb Pos.eqb repeat concat app]; instants|]. split; [vm_compute; intuition congruence|].
    unfold ztr. assert (E : match x_run (zcs 3) x_init (zsevs 3) with Some _ => true | None => false end = true) by (vm_compute; reflexivity).
    destruct (x_run (zcs 3) x_init (zsevs 3)) as [[s o]|]; [exists s; reflexivity|discriminate].
  - split; [unfold zsevs; cbn [Z.eqb Pos.eqb repeat concat app]; instants|]. split; [vm_compute; intuition congruence|].
    unfold ztr. assert (E : match x_run (zcs 5) x_init (zsevs 5) with Some _ => true | None => false end = true) by (vm_compute; reflexivity).
    destruct (x_run (zcs 5) x_init (zsevs 5)) as [[s o]|]; [exists s; reflexivity|discriminate].
  - intros k A B. unfold ztr. rewrite (z_other k A B). split; [constructor|]. split; [exact I|]. eexists. reflexivity.
Qed.

Lemma z_accs3 : accs (ztr 3) = [(XAW (req 9 1), 10); (XW (beat 77 true), 12)].
Proof. vm_compute. reflexivity. Qed.
Lemma z_accs5 : accs (ztr 5) = [(XAR (req 9 4), 20)].
Proof. vm_compute. reflexivity. Qed.

Lemma z_fits : forall k a, In a (accepted (zcs k) (ztr k)) -> xfits (zcs k) (sd_txn a) /\
  xnum_flits (xc_w (zcs k)) (xc_dw (zcs k)) (kind (sd_txn a)) <= Z.of_nat (y_depth zy).
Proof.
  apply (z_cases (fun k => forall a, In a (accepted (zcs k) (ztr k)) -> xfits (zcs k) (sd_txn a) /\
    xnum_flits (xc_w (zcs k)) (xc_dw (zcs k)) (kind (sd_txn a)) <= Z.of_nat (y_depth zy))).
  - intros a. unfold accepted. rewrite z_accs3. cbn [annotate]. intros [<-|[<-|[]]]; vm_compute; intuition congruence.
  - intros a. unfold accepted. rewrite z_accs5. cbn [annotate]. intros [<-|[]]; vm_compute; intuition congruence.
  - intros k A B a. rewrite (z_otr k A B). intros [].
Qed.

Lemma z_arrive : xnoc_empty zy zhere ztr zinput.
Proof.
  unfold xnoc_empty. apply (z_cases (fun k => forall t, out_type (y_side zy) t = true ->
     filter (from xb_src k) (filter (btype t) zinput) = filter (fun f => btype t f && zhere (xf_dest (xb_flit f))) (put (ztr k)))).
  - intros [] H; vm_compute; try reflexivity; discriminate H.
  - intros [] H; vm_compute; try reflexivity; discriminate H.
  - intros k A B t Ht. rewrite (z_otr k A B). cbn [put flat_map filter].
    assert (H : forall f, In f zinput -> xb_src f = 3 \/ xb_src f = 5).
    { assert (E : forallb (fun f => (xb_src f =? 3) || (xb_src f =? 5)) zinput = true) by (vm_compute; reflexivity).
      rewrite forallb_forall in E. intros f Hf. specialize (E f Hf). apply orb_prop in E. destruct E as [E|E]; [left|right]; apply Z.eqb_eq; exact E. }
    revert H. generalize zinput. intros l. induction l as [|f l IH]; intros H; cbn [filter]; auto.
    assert (X : filter (from xb_src k) (filter (btype t) l) = []) by (apply IH; intros g Hg; apply H; right; auto).
    destruct (btype t f); auto. cbn [filter]. unfold from at 1. destruct (Z.eqb_spec (xb_src f) k) as [E|E]; auto.
    destruct (H f (or_introl eq_refl)); congruence.
Qed.

Lemma z_noc : xnoc zy zhere ztr zinput.
Proof.
  split; [|split].
  - assert (E : forallb (fun f => out_type (y_side zy) (xf_type (xb_flit f))) zinput = true) by (vm_compute; reflexivity).
    rewrite forallb_forall in E. exact E.
  - intros []; apply wormb_ok; vm_compute; reflexivity.
  - intros k t Ht. exists []. rewrite app_nil_r. symmetry. apply z_arrive. exact Ht.
Qed.

Example C75_end_to_end_ex :
  (forall k, xsender_ok zy k (zcs k)) /\ xsends zcs zsevs ztr /\
  (forall k a, In a (accepted (zcs k) (ztr k)) -> zhere (dest_of (zcs k) a) = true -> xfits (zcs k) (sd_txn a)) /\
  xnoc zy zhere ztr zinput /\ Forall ok_yinstant zyevs /\
  shown_of (y_run zy zyevs (y_init zy (map xb_flit zinput))) =
  Some [arrives (zcs 3) (XAW (req 9 1)); arrives (zcs 5) (XAR (req 9 4)); XW (beat 77 true)].
Proof.
  split; [exact z_senders|]. split; [exact z_sends|]. split; [intros k a H _; apply z_fits; exact H|]. split; [exact z_noc|].
  split; [apply ex_ok_rounds|]. vm_compute. reflexivity.
Qed.

Example C75_all_arrive_ex :
  (forall k a, In a (accepted (zcs k) (ztr k)) -> zhere (dest_of (zcs k) a) = true ->
     xnum_flits (xc_w (zcs k)) (xc_dw (zcs k)) (kind (sd_txn a)) <= Z.of_nat (y_depth zy)) /\
  (forall k, injs (ztr k) = packets (zcs k) 0 (accs (ztr k))) /\ xnoc_empty zy zhere ztr zinput /\
  length zinput = 12%nat /\ yrounds (6 * length zinput + 1) zyevs.
Proof.
  split; [intros k a H _; apply z_fits; exact H|]. split.
  - apply (z_cases (fun k => injs (ztr k) = packets (zcs k) 0 (accs (ztr k)))); [vm_compute; reflexivity|vm_compute; reflexivity|].
    intros k A B. rewrite (z_otr k A B). reflexivity.
  - split; [exact z_arrive|]. assert (E : length zinput = 12%nat) by (vm_compute; reflexivity). split; [exact E|]. rewrite E. apply ex_yrounds.
Qed.
