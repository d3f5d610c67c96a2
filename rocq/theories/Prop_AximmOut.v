(** C71-C74: the output side of the AXI-MM adapters. *)
From Coq Require Import ZArith Bool List Lia.
From Verif Require Import Bits VcModel AximmFormatModel AximmInModel AximmOutModel AximmOutSpec AximmOutProofs.
Import ListNotations.
Local Open Scope Z_scope.

(** C71: the module sees packets one by one, whole, and those of each type in arrival order. *)
Theorem C71_whole_once_in_order : forall c input ps evs, good_xinput c input ps -> Forall ok_yinstant evs ->
  exists s o, y_run c evs (y_init c input) = Some (s, o) /\
  exists dl rest, (forall t, exists later, ps t = filter (is_type t) dl ++ later) /\
    map (xcontents (y_w c)) dl = shown o ++ rest.
Proof. exact run_safe. Qed.
Print Assumptions C71_whole_once_in_order.

(** Configurations: one virtual channel per type, or (the last two types) two of them. *)
Definition ex_ycfg (k : xside) (depth : nat) : ycfg :=
  {| y_side := k; y_w := repo_xwidths; y_vcidw := 3; y_vc := configured [(0, 0); (1, 1); (2, 2); (3, 3); (4, 4)];
     y_depth := depth |}.
Definition ex_ycfg2 (k : xside) (depth : nat) : ycfg :=
  {| y_side := k; y_w := repo_xwidths; y_vcidw := 3; y_vc := configured [(0, 0); (1, 1); (2, 2); (3, 4); (5, 6)];
     y_depth := depth |}.
Definition xfl (t : xtype) (vc pid : Z) (h l : bool) (d : Z) : xflit :=
  {| xf_head := h; xf_tail := l; xf_type := t; xf_vc := vc; xf_dest := 1; xf_iface := t; xf_pid := pid;
     xf_sid := 0; xf_payload := d |}.
(** Two read responses of two flits, and write responses of one, flit by flit interleaved. *)
Definition pR (pid d : Z) : list xflit := [xfl R 3 pid true false d; xfl R 3 pid false true (d + 1)].
Definition pB (pid d : Z) : list xflit := [xfl B 4 pid true true d].
Definition ex_yinput : list xflit :=
  [xfl R 3 20 true false 100; xfl B 4 30 true true 7; xfl R 3 20 false true 101;
   xfl R 3 21 true false 200; xfl B 4 31 true true 8; xfl R 3 21 false true 201].
Definition ex_yps (t : xtype) : list (list xflit) :=
  match t with R => [pR 20 100; pR 21 200] | B => [pB 30 7; pB 31 8] | _ => [] end.
Definition all_ready (_ : xtype) : bool := true.
Definition yat (l : list ythread) (r : xtype -> bool) : yinstant := {| y_ths := l; y_avail := true; y_rdy := r |}.
Definition ex_yround : list yinstant := [yat [TEj] all_ready; yat [TDe; TOu] all_ready].

Lemma ex_wfp : forall t pid d, wf_xpacket repo_xwidths R (pR pid d) /\ (t = B -> wf_xpacket repo_xwidths B (pB pid d)).
Proof.
  intros t pid d. split; [|intros _]; (split; [discriminate|]; split; [|split; [|vm_compute; reflexivity]]).
  - intros [|[|j]] f H; cbn in H; try (destruct j; discriminate); injection H as <-; cbn; split; intros; congruence || discriminate.
  - intros f [<-|[<-|[]]]; reflexivity.
  - intros [|j] f H; cbn in H; try (destruct j; discriminate); injection H as <-; cbn; split; intros; congruence || discriminate.
  - intros f [<-|[]]; reflexivity.
Qed.

Lemma ex_good_xinput : forall depth, good_xinput (ex_ycfg Slave depth) ex_yinput ex_yps.
Proof.
  intros depth. split.
  - intros f H. cbn in H. repeat destruct H as [<-|H]; try contradiction; vm_compute; auto.
  - intros t. split; [|split].
    + destruct t; try apply Forall_nil; cbn [ex_yps]; repeat apply Forall_cons; try apply Forall_nil;
        try apply (ex_wfp B); reflexivity.
    + destruct t; cbn; intros H; reflexivity || discriminate.
    + exists []. destruct t; reflexivity.
Qed.

Ltac distinct := repeat (apply Forall_cons; [cbv [ok_yinstant yat y_ths];
  repeat (apply NoDup_cons; [cbn; intuition congruence|]); apply NoDup_nil|]); apply Forall_nil.

Lemma ex_ok_rounds : forall n, Forall ok_yinstant (concat (repeat ex_yround n)).
Proof.
  induction n as [|n IH]; [apply Forall_nil|]. cbn [repeat concat]. apply Forall_app. split; [|exact IH].
  unfold ex_yround. distinct.
Qed.
Lemma ex_yrounds : forall n, yrounds n (concat (repeat ex_yround n)).
Proof.
  induction n as [|n IH]; [constructor|]. cbn [repeat concat]. constructor; [| | |exact IH].
  - exists (yat [TEj] all_ready). cbn. auto.
  - exists (yat [TDe; TOu] all_ready). cbn. auto.
  - exists (yat [TDe; TOu] all_ready). cbn. auto.
Qed.

Definition shown_of (x : option (yst * list yobs)) : option (list xtxn) := option_map (fun '(_, o) => shown o) x.
Definition taken_of (x : option (yst * list yobs)) : option (list xtxn) := option_map (fun '(_, o) => taken o) x.

Example C71_whole_once_in_order_ex :
  let c := ex_ycfg Slave 8 in
  good_xinput c ex_yinput ex_yps /\ Forall ok_yinstant (concat (repeat ex_yround 12)) /\
  option_map (map chan_of) (shown_of (y_run c (concat (repeat ex_yround 12)) (y_init c ex_yinput))) = Some [B; R; B; R].
Proof. split; [apply ex_good_xinput|]. split; [apply ex_ok_rounds|]. vm_compute. reflexivity. Qed.

(** C71: all packets that arrived whole are shown after enough clock edges, if they fit the FIFOs. *)
Theorem C71_all_shown : forall c input ps evs, good_xinput c input ps -> Forall ok_yinstant evs ->
  (forall t p, In p (ps t) -> (length p <= y_depth c)%nat) ->
  yrounds (6 * length input + 1) evs ->
  exists s o, y_run c evs (y_init c input) = Some (s, o) /\
  exists dl, (forall t, exists rest part, ps t = filter (is_type t) dl ++ rest /\
      filter (of_type t) input = concat (filter (is_type t) dl) ++ part /\ forall f, In f part -> xf_tail f = false) /\
    map (xcontents (y_w c)) dl = shown o.
Proof. exact run_progress. Qed.
Print Assumptions C71_all_shown.

Example C71_all_shown_ex :
  let c := ex_ycfg Slave 8 in
  good_xinput c ex_yinput ex_yps /\ Forall ok_yinstant (concat (repeat ex_yround 37)) /\
  (forall t p, In p (ex_yps t) -> (length p <= y_depth c)%nat) /\
  yrounds (6 * length ex_yinput + 1) (concat (repeat ex_yround 37)).
Proof.
  split; [apply ex_good_xinput|]. split; [apply ex_ok_rounds|]. split; [|apply ex_yrounds].
  intros t p H. destruct t; cbn in H; repeat destruct H as [<-|H]; try contradiction; cbn; lia.
Qed.

(** C71: one FIFO per type, not per virtual channel: with two channels per type, two packets whose
    flits interleave on the two channels, each channel in order, are mixed into one transaction. *)
Definition ex_mixed : list xflit :=
  [xfl R 3 20 true false 100; xfl R 4 21 true false 200; xfl R 3 20 false true 101; xfl R 4 21 false true 201].
Theorem C71_two_channels_refuted :
  ~ (forall c input (pv : Z -> list (list xflit)) evs s o,
       (forall f, In f input -> out_type (y_side c) (xf_type f) = true /\ fifo_of_vc c (xf_vc f) = Some (num (xf_type f))) ->
       (forall v, concat (pv v) = filter (fun f => xf_vc f =? v) input) ->
       (forall v p, In p (pv v) -> exists t, wf_xpacket (y_w c) t p) ->
       Forall ok_yinstant evs -> y_run c evs (y_init c input) = Some (s, o) ->
       forall x, In x (shown o) -> exists v p, In p (pv v) /\ x = xcontents (y_w c) p).
Proof.
  intros H.
  set (pv := fun v : Z => if v =? 3 then [pR 20 100] else if v =? 4 then
     [[xfl R 4 21 true false 200; xfl R 4 21 false true 201]] else []).
  set (evs := concat (repeat ex_yround 12)).
  assert (L : match y_run (ex_ycfg2 Slave 8) evs (y_init (ex_ycfg2 Slave 8) ex_mixed) with
              | Some (_, o) => match shown o with
                  | XR h :: _ => r_id h = 20 /\ XR h <> xcontents repo_xwidths (pR 20 100) | _ => False end
              | None => False end) by (vm_compute; split; [reflexivity|discriminate]).
  destruct (y_run (ex_ycfg2 Slave 8) evs (y_init (ex_ycfg2 Slave 8) ex_mixed)) as [[s o]|] eqn:E; [|contradiction].
  destruct (shown o) as [|[| | |h|] r] eqn:So; try contradiction.
  destruct (H (ex_ycfg2 Slave 8) ex_mixed pv evs s o) with (x := XR h) as (v & p & P1 & P2).
  - intros f Hf. cbn in Hf. repeat destruct Hf as [<-|Hf]; try contradiction; vm_compute; auto.
  - intros v. unfold pv, ex_mixed, xfl. cbn [filter xf_vc]. destruct (Z.eqb_spec v 3) as [Ev|N3].
    + subst v. reflexivity.
    + destruct (Z.eqb_spec v 4) as [Ev|N4]; [subst v; reflexivity|].
      destruct (Z.eqb_spec 3 v); [congruence|]. destruct (Z.eqb_spec 4 v); [congruence|]. reflexivity.
  - intros v p Hp. exists R. unfold pv in Hp. destruct (v =? 3); [|destruct (v =? 4); [|destruct Hp]];
      destruct Hp as [<-|[]]; [apply (ex_wfp R)|].
    split; [discriminate|]; split; [|split; [|vm_compute; reflexivity]].
    + intros [|[|j]] f Hf; cbn in Hf; try (destruct j; discriminate); injection Hf as <-; cbn; split; intros; congruence || discriminate.
    + intros f [<-|[<-|[]]]; reflexivity.
  - apply ex_ok_rounds.
  - exact E.
  - rewrite So. left. reflexivity.
  - destruct L as [L1 L2]. unfold pv in P1. destruct (v =? 3).
    + destruct P1 as [<-|[]]. contradiction.
    + destruct (v =? 4); [|destruct P1]. destruct P1 as [<-|[]].
      assert (X : match xcontents repo_xwidths [xfl R 4 21 true false 200; xfl R 4 21 false true 201] with XR h => r_id h = 21 | _ => False end)
        by (vm_compute; reflexivity).
      change (y_w (ex_ycfg2 Slave 8)) with repo_xwidths in P2. rewrite <- P2 in X. congruence.
Qed.
Print Assumptions C71_two_channels_refuted.

(** C72: a transaction stands for one node edge; it is taken there if ready is still high. *)
Theorem C72_one_edge : forall c ev s s' o, ok_yinstant ev -> In TOu (y_ths ev) -> y_step c ev s = Some (s', o) ->
  shown o = (match yport s with Some t => [t] | None => [] end) /\
  taken o = (match yport s with Some t => if y_rdy ev (chan_of t) then [t] else [] | None => [] end) /\
  (forall x, yport s' = Some x -> y_rdy ev (chan_of x) = true).
Proof.
  intros c ev s s' o H1 H2 H3. destruct (edge_clears c ev s s' o H1 H2 H3) as (A & B & C).
  rewrite A, B. split; [|split; [|exact C]]; destruct (yport s) as [t|]; auto.
Qed.
Print Assumptions C72_one_edge.

(** The signals at the module just before a transaction stands at its interface. *)
Definition ex_before : list yinstant := concat (repeat ex_yround 4).
Example C72_one_edge_ex :
  let c := ex_ycfg Slave 8 in
  match y_run c ex_before (y_init c ex_yinput) with
  | Some (s, _) => yport s <> None /\
      match y_step c (yat [TOu] (fun _ => false)) s with
      | Some (s', o) => length (shown o) = 1%nat /\ taken o = [] /\ yport s' = None | None => False end
  | None => False
  end.
Proof. vm_compute. repeat split; discriminate. Qed.

(** C72: if no ready signal falls, every transaction shown is taken. *)
Theorem C72_steady_taken : forall c input evs s o, Forall ok_yinstant evs -> steady (fun _ => false) evs ->
  y_run c evs (y_init c input) = Some (s, o) -> taken o = shown o.
Proof.
  intros c input evs s o Ok St E. apply (run_steady c evs (fun _ => false) (y_init c input) s o Ok St); auto.
  discriminate.
Qed.
Print Assumptions C72_steady_taken.

Example C72_steady_taken_ex :
  let c := ex_ycfg Slave 8 in
  let evs := yat [TOu] (fun _ => false) :: concat (repeat ex_yround 12) in
  Forall ok_yinstant evs /\ steady (fun _ => false) evs /\
  option_map (@length _) (taken_of (y_run c evs (y_init c ex_yinput))) = Some 4%nat.
Proof.
  split; [apply Forall_cons; [repeat (apply NoDup_cons; [cbn; intuition congruence|]); apply NoDup_nil|apply ex_ok_rounds]|]. split; vm_compute; intuition congruence.
Qed.

(** C72: a ready signal that falls for one edge loses a transaction for good. *)
Theorem C72_ready_falls_refuted :
  ~ (forall c input ps evs s o, good_xinput c input ps -> Forall ok_yinstant evs ->
       (forall t p, In p (ps t) -> (length p <= y_depth c)%nat) ->
       (exists pre post, evs = pre ++ post /\ yrounds (6 * length input + 1) post) ->
       y_run c evs (y_init c input) = Some (s, o) -> taken o = shown o).
Proof.
  intros H.
  set (c := ex_ycfg Slave 8). set (pre := ex_before ++ [yat [TOu] (fun _ => false)]).
  set (evs := pre ++ concat (repeat ex_yround 37)).
  assert (L : match y_run c evs (y_init c ex_yinput) with
              | Some (_, o) => length (shown o) = 4%nat /\ length (taken o) = 3%nat | None => False end)
    by (vm_compute; auto).
  destruct (y_run c evs (y_init c ex_yinput)) as [[s o]|] eqn:E; [|contradiction]. destruct L as [L1 L2].
  assert (X : taken o = shown o).
  { apply (H c ex_yinput ex_yps evs s o); auto.
    - apply ex_good_xinput.
    - unfold evs, pre. apply Forall_app. split; [|apply ex_ok_rounds]. apply Forall_app. split; [apply (ex_ok_rounds 4)|distinct].
    - intros t p Hp. destruct t; cbn in Hp; repeat destruct Hp as [<-|Hp]; try contradiction; cbn; lia.
    - exists pre, (concat (repeat ex_yround 37)). split; [reflexivity|]. apply ex_yrounds. }
  rewrite X in L2. congruence.
Qed.
Print Assumptions C72_ready_falls_refuted.

(** C73: packets longer than the ejection FIFO are never shown. *)
Theorem C73_long_packet_stuck : forall c input ps evs, good_xinput c input ps -> Forall ok_yinstant evs ->
  (forall t p, In p (ps t) -> (y_depth c < length p)%nat) ->
  exists s o, y_run c evs (y_init c input) = Some (s, o) /\ shown o = [].
Proof. exact run_jam. Qed.
Print Assumptions C73_long_packet_stuck.

Definition ex_long (t : xtype) : list (list xflit) := match t with R => [pR 20 100; pR 21 200] | _ => [] end.
Example C73_long_packet_stuck_ex :
  let c := ex_ycfg Slave 1 in
  good_xinput c (pR 20 100 ++ pR 21 200) ex_long /\ Forall ok_yinstant (concat (repeat ex_yround 30)) /\
  (forall t p, In p (ex_long t) -> (y_depth c < length p)%nat).
Proof.
  split; [|split; [apply ex_ok_rounds|]].
  - split.
    + intros f H. cbn in H. repeat destruct H as [<-|H]; try contradiction; vm_compute; auto.
    + intros t. split; [|split].
      * destruct t; try apply Forall_nil; cbn [ex_long]; repeat apply Forall_cons; try apply Forall_nil; apply (ex_wfp R).
      * destruct t; cbn; intros H; reflexivity || discriminate.
      * exists []. destruct t; reflexivity.
  - intros t p H. destruct t; cbn in H; repeat destruct H as [<-|H]; try contradiction; cbn; lia.
Qed.

(** C74: while the packet next in turn waits for its ready signal, nothing of any type is shown. *)
Theorem C74_head_blocks : forall c evs s s' o f r, Forall ok_yinstant evs ->
  yhold s = Some (f :: r) -> yport s = None ->
  (forall ev, In ev evs -> y_rdy ev (xf_type f) = false) -> y_run c evs s = Some (s', o) -> shown o = [].
Proof. exact run_blocked. Qed.
Print Assumptions C74_head_blocks.

(** A write response waits; two read responses have arrived, the manager is ready for them. *)
Definition ready_R (t : xtype) : bool := match t with R => true | _ => false end.
Definition ex_blocked : list yinstant := concat (repeat [yat [TEj] ready_R; yat [TDe; TOu] ready_R] 40).
Example C74_head_blocks_ex :
  let c := ex_ycfg Slave 8 in
  match y_run c (concat (repeat [yat [TEj] ready_R; yat [TDe; TOu] ready_R] 6)) (y_init c ex_yinput) with
  | Some (s, _) => option_map ptype (yhold s) = Some B /\ yport s = None
  | None => False
  end.
Proof. vm_compute. auto. Qed.

Lemma ex_ok_blocked : Forall ok_yinstant ex_blocked.
Proof.
  apply Forall_forall. intros ev Hev. unfold ex_blocked in Hev. apply in_concat in Hev. destruct Hev as (l & Hl & He).
  apply repeat_spec in Hl. subst l. destruct He as [<-|[<-|[]]]; cbv [ok_yinstant yat y_ths];
    repeat (apply NoDup_cons; [cbn; intuition congruence|]); apply NoDup_nil.
Qed.

(** C74: so a manager that is always ready for read data does not get all that has arrived. *)
Theorem C74_independent_channels_refuted :
  ~ (forall c input ps evs, good_xinput c input ps -> Forall ok_yinstant evs ->
       (forall t p, In p (ps t) -> (length p <= y_depth c)%nat) ->
       (forall ev, In ev evs -> y_rdy ev R = true) ->
       (exists n, (6 * length input + 1 <= n)%nat /\ evs = concat (repeat [yat [TEj] ready_R; yat [TDe; TOu] ready_R] n)) ->
       exists s o, y_run c evs (y_init c input) = Some (s, o) /\
         (length (filter (fun x => teqb (chan_of x) R) (shown o)) = length (ps R))%nat).
Proof.
  intros H. set (c := ex_ycfg Slave 8).
  destruct (H c ex_yinput ex_yps ex_blocked) as (s & o & E & N).
  - apply ex_good_xinput.
  - exact ex_ok_blocked.
  - intros t p Hp. destruct t; cbn in Hp; repeat destruct Hp as [<-|Hp]; try contradiction; cbn; lia.
  - intros ev Hev. unfold ex_blocked in Hev. apply in_concat in Hev. destruct Hev as (l & Hl & He).
    apply repeat_spec in Hl. subst l. destruct He as [<-|[<-|[]]]; reflexivity.
  - exists 40%nat. split; [vm_compute; lia|reflexivity].
  - assert (L : option_map (fun l => length (filter (fun x => teqb (chan_of x) R) l)) (shown_of (y_run c ex_blocked (y_init c ex_yinput))) = Some 0%nat)
      by (vm_compute; reflexivity).
    rewrite E in L. cbn [shown_of option_map] in L. rewrite N in L. discriminate.
Qed.
Print Assumptions C74_independent_channels_refuted.
