(** Modules that talk through AXI-MM adapters and a mesh: what one module sends another receives.  Nothing is assumed about the network: adapters (C69 to C75), terminals (C82), routers and channels (C76 to C83)
    are all the models of the code. *)
From Coq Require Import ZArith Arith Bool List Lia.
From Verif Require Import VcModel AximmFormatModel AximmInModel AximmSpec AximmOutModel AximmOutSpec EndToEndMMSpec Prop_AximmIn FlitCode Fupd AllocModel AllocSpec BufferModel RouteModel ChannelModel CreditModel
  IqRouterModel IqRouterSpec NetModel NetSpec NetMeshModel NetMeshSpec StreamSpec TermModel TermSpec XSysModel XSysSpec XSysProofs.
From Verif Require Prop_IqRouter Prop_Term.
Import ListNotations.
Open Scope nat_scope.

(** ** C85: on a mesh with dimension-order routing, with an AXI-MM slave or an AXI-MM master adapter on every node, every execution succeeds, and for every node there is a history of transactions, each with
    its sender, such that the part of one sender and type is the first part of what that sender's module handed over of this type for this node, in order, and what the module sees on its channels is the first part
    of the history, as it [arrives].  If nothing is under way any more, there is a history that has all of it, and the module has seen all of it, each transaction once. *)
Theorem C85_system : forall P mesh nl k n b rd cd ob buf_size vc_buf_size ch cs ys gs, (1 <= k)%Z -> buf_size <> 0%Z -> 0 < bc_vcs b ->
  new_private (bc_vcs b) buf_size vc_buf_size (bc_wait b) = Some (b, P) ->
  let w := cube mesh nl k n b rd cd ob in let rf := routes_of (dim_order_mesh k n (k ^ Z.of_nat n)) (xsys_traffic ch) in
  xfitting (w_nodes w) (bc_vcs b) (if buf_size <? 0 then vc_buf_size else buf_size / Z.of_nat (bc_vcs b))%Z ch cs ys ->
  Forall (good_xginst w cs ys) gs -> xtake_turns (w_nodes w) (flat_map xg_acts gs) -> xclocks (w_nodes w) cs gs ->
  exists (s : xsys P) o, xsys_run w rf cs ys gs (xsys0 w ys) = Some (s, o) /\ forall d, d < w_nodes w ->
    (exists hist : list (Z * sent),
      (forall q t, out_type (y_side (ys d)) t = true -> prefix (xpart q t hist) (filter (xmeant (ys d) (at_node d) (cs q) t) (xsent_by (w_nodes w) cs q o))) /\
      prefix (xseen_at d o) (map (fun h => arrives (cs (fst h)) (sd_txn (snd h))) hist)) /\
    (xat_rest w ys (flat_map xg_acts gs) s -> exists hist : list (Z * sent),
      (forall q t, out_type (y_side (ys d)) t = true -> xpart q t hist = filter (xmeant (ys d) (at_node d) (cs q) t) (xsent_by (w_nodes w) cs q o)) /\
      xseen_at d o = map (fun h => arrives (cs (fst h)) (sd_txn (snd h))) hist).
Proof.
  intros P mesh nl k n b rd cd ob bz vz ch cs ys gs K Hb Hv EP w rf FT G TT CK.
  destruct (xdelivered P mesh nl k n b rd cd ob bz vz ch cs ys K Hb Hv EP FT gs G TT CK) as [s [o [E H]]]. exists s, o. split; auto. intros d Hd. destruct (H d Hd) as [hist [H1 [H2 H3]]]. split; eauto.
Qed.
Print Assumptions C85_system.

(** ** C86: an adapter takes a packet apart once all of it has arrived, and only then tells the router that it has room again.  So if the packets of a type have more flits than a virtual channel of a router's
    buffer, no module ever sees a transaction of this type, in no execution and however long it goes on. *)
Theorem C86_too_long : forall P mesh nl k n b rd cd ob buf_size vc_buf_size ch cs ys gs d t, (1 <= k)%Z -> buf_size <> 0%Z -> 0 < bc_vcs b ->
  new_private (bc_vcs b) buf_size vc_buf_size (bc_wait b) = Some (b, P) ->
  let w := cube mesh nl k n b rd cd ob in let rf := routes_of (dim_order_mesh k n (k ^ Z.of_nat n)) (xsys_traffic ch) in
  let room := (if buf_size <? 0 then vc_buf_size else buf_size / Z.of_nat (bc_vcs b))%Z in
  xfitting (w_nodes w) (bc_vcs b) room ch cs ys -> Forall (good_xginst w cs ys) gs -> xtake_turns (w_nodes w) (flat_map xg_acts gs) -> xclocks (w_nodes w) cs gs ->
  d < w_nodes w -> out_type (y_side (ys d)) t = true -> (forall q, (0 <= q < Z.of_nat (w_nodes w))%Z -> (room < xnum_flits (xc_w (cs q)) (xc_dw (cs q)) t)%Z) ->
  exists (s : xsys P) o, xsys_run w rf cs ys gs (xsys0 w ys) = Some (s, o) /\ forall a, In a (xseen_at d o) -> kind a <> t.
Proof.
  intros P mesh nl k n b rd cd ob bz vz ch cs ys gs d t K Hb Hv EP w rf room FT G TT CK Hd Ht L.
  exact (xstuck P mesh nl k n b rd cd ob bz vz ch cs ys K Hb Hv EP FT d t Hd Ht L gs G TT CK).
Qed.
Print Assumptions C86_too_long.

(** ** Examples *)
(** Nodes 0 and 1 have slave adapters (their modules send requests), node 2 a master adapter; every type has its own channel. *)
Definition ux_side (k : Z) : xside := if Z.eqb k 2 then Master else Slave.
Definition ux_cs (k : Z) : xcfg :=
  {| xc_side := ux_side k; xc_w := repo_xwidths; xc_vcidw := 3; xc_vc := configured [(0, 0); (1, 1); (2, 2); (3, 3); (4, 4)]%Z; xc_node := k; xc_dw := 512; xc_ratio := 2; xc_depth := 16 |}.
Definition ux_ys (ej : nat) (d : nat) : ycfg := {| y_side := ux_side (Z.of_nat d); y_w := repo_xwidths; y_vcidw := 3; y_vc := configured [(0, 0); (1, 1); (2, 2); (3, 3); (4, 4)]%Z; y_depth := ej |}.
Definition ux_ch (t : xtype) : nat := Z.to_nat (type_num t).
Definition ux_bs (slots : Z) : bcfg := {| bc_vcs := 5; bc_size := 5 * slots; bc_wait := false |}.
Definition ux_ws (slots : Z) : netcfg := cube true true 3 1 (ux_bs slots) true 1 (-1).
Definition ux_b : bcfg := ux_bs 8.
Definition ux_w : netcfg := ux_ws 8.
Definition ux_rf : nat -> nat -> flit -> list oelem := routes_of (dim_order_mesh 3 1 (3 ^ Z.of_nat 1)) (xsys_traffic ux_ch).
Lemma ux_fit : forall ej sl, (sl <= Z.of_nat ej)%Z -> xfitting 3 5 sl ux_ch ux_cs (ux_ys ej).
Proof.
  intros ej sl Hs. constructor.
  - intros d k _. split; [|split; [reflexivity|split; [reflexivity|split; [vm_compute; congruence|]]]].
    + constructor; try (vm_compute; intuition congruence). intros t; destruct t; vm_compute; congruence.
    + intros t H. cbn [ux_ys y_side] in H. unfold fifo_of_vc. cbn [ux_ys y_side]. destruct (ux_side (Z.of_nat d)); destruct t; cbn in H; try discriminate; vm_compute; reflexivity.
  - intros d _. reflexivity.
  - intros k t _. destruct t; vm_compute; split; auto; lia.
  - reflexivity.
  - intros. exact Hs.
Qed.
(** What the modules send. *)
Definition ux_req (d id : Z) : addr_ch := {| h_id := id; h_addr := (d * 2 ^ 57 + 64)%Z; h_len := 1; h_size := 6; h_burst := 1; h_user := (3 * 2 ^ 57)%Z |}.
Definition ux_all : list (nat * xtxn) :=
  [(0, XAR (ux_req 2 1)); (0, XAW (ux_req 2 2)); (0, XW (beat 77 true)); (1, XAR (ux_req 2 3));
   (2, XR {| r_id := 1; r_data := 500; r_resp := 0; r_last := true; r_user := 5 |}); (2, XB {| rb_id := 2; rb_resp := 1; rb_user := (2 ^ 57)%Z |})].
Definition ux_want := list nat.
Definition ux_off (a : ux_want) (n : nat) : offers := Prop_AximmIn.offer (flat_map (fun i => match nth_error ux_all i with Some (m, t) => if Nat.eqb m n then [t] else [] | None => [] end) a).
Definition ux_inst (l : list xact) (a : ux_want) (t : Z) : xginst :=
  {| xg_acts := l; xg_off := ux_off a; xg_id := fun n => (10 * t + Z.of_nat n)%Z; xg_wake := fun _ => false; xg_rdy := fun _ _ => true; xg_now := fun _ => t; xg_clk := Prop_Term.tx_clk t |}.
(** An edge of all clocks of the modules and adapters, one of the adapters only, and one of the NoC. *)
Definition ux_node (a : ux_want) (t : Z) : xginst := ux_inst (flat_map (fun n => [XO n TOu; XI n TNode; XI n TAdapt; XO n TDe]) [0; 1; 2]) a t.
Definition ux_adapt (a : ux_want) (t : Z) : xginst := ux_inst (flat_map (fun n => [XI n TAdapt; XO n TDe]) [2; 1; 0]) a t.
Definition ux_noc (a : ux_want) (t : Z) : xginst := ux_inst (flat_map (fun n => [XO n TEj; XI n TNoc]) [0; 1; 2] ++ [XTick]) a t.
Definition ux_round (a : ux_want) (t : Z) : list xginst := [ux_node a t; ux_noc a (t + 1); ux_adapt a (t + 2); ux_noc a (t + 3)]%Z.
Definition ux_gs : list xginst :=
  ux_round [0; 1; 3; 4] 0 ++ ux_round [1; 4] 4 ++ ux_round [1; 5] 8 ++ ux_round [2; 5] 12 ++ ux_round [2; 5] 16 ++ ux_round [5] 20 ++ flat_map (fun t => ux_round [] (24 + 4 * Z.of_nat t)%Z) (seq 0 20).
Definition ux_id (t : xtxn) : xtype * Z := (kind t, match t with XAR h | XAW h => h_id h | XW x => w_data x | XR x => r_data x | XB x => rb_id x end).
Definition ux_look {P} (r : option (xsys P * list xsobs)) :=
  match r with
  | Some (_, o) => Some (map (fun q => map (fun a => ux_id (sd_txn a)) (xsent_by 3 ux_cs (Z.of_nat q) o)) (seq 0 3), map (fun d => map ux_id (xseen_at d o)) (seq 0 3))
  | None => None
  end.
Definition ux_okact (a : xact) : bool := match a with XI m _ | XO m _ => Nat.ltb m 3 | XTick => true end.
Definition ux_same (x y : xact) : {x = y} + {x <> y}.
Proof. repeat decide equality. Defined.
Lemma offer_in : forall k l t, stands k (Prop_AximmIn.offer l) t -> In t l.
Proof.
  intros k l t. unfold Prop_AximmIn.offer.
  assert (X : forall l o, stands k (fold_left (fun o t => match t with
    | XAR h => {| of_ar := Some h; of_aw := of_aw o; of_w := of_w o; of_r := of_r o; of_b := of_b o |}
    | XAW h => {| of_ar := of_ar o; of_aw := Some h; of_w := of_w o; of_r := of_r o; of_b := of_b o |}
    | XW h => {| of_ar := of_ar o; of_aw := of_aw o; of_w := Some h; of_r := of_r o; of_b := of_b o |}
    | XR h => {| of_ar := of_ar o; of_aw := of_aw o; of_w := of_w o; of_r := Some h; of_b := of_b o |}
    | XB h => {| of_ar := of_ar o; of_aw := of_aw o; of_w := of_w o; of_r := of_r o; of_b := Some h |} end) l o) t -> In t l \/ stands k o t).
  { clear l. induction l as [|x l IH]; intros o H; cbn [fold_left] in H; [right; exact H|]. destruct (IH _ H) as [Q|Q]; [left; right; exact Q|].
    destruct x; destruct t; destruct k; cbn [stands of_ar of_aw of_w of_r of_b] in Q; try contradiction; try (right; exact Q); injection Q as <-; left; left; reflexivity. }
  intros H. destruct (X _ _ H) as [Q|Q]; auto. destruct t; destruct k; cbn in Q; contradiction || discriminate.
Qed.
Lemma ux_sent : forall ej n t, In (n, t) ux_all -> xfits (ux_cs (Z.of_nat n)) t /\ (forall d, names (ux_cs (Z.of_nat n)) t = Some d -> (0 <= d < 3)%Z /\ y_side (ux_ys ej (Z.to_nat d)) <> xc_side (ux_cs (Z.of_nat n))) /\
  match t with XAR h | XAW h => (0 <= h_addr h < 2 ^ 64)%Z | _ => True end.
Proof.
  intros ej n t H. unfold ux_all in H. repeat (destruct H as [H|H]; [injection H as <- <-; split; [|split]|]); try destruct H.
  all: try (vm_compute; intuition congruence).
  all: intros d E; vm_compute in E; try discriminate; injection E as <-; split; [lia|vm_compute; discriminate].
Qed.
Lemma ux_good : forall sl ej l a t, forallb ux_okact l = true -> nodup ux_same l = l -> good_xginst (ux_ws sl) ux_cs (ux_ys ej) (ux_inst l a t).
Proof.
  intros sl ej l a t Hl Nd. constructor; cbn [xg_acts xg_off xg_clk ux_inst].
  - rewrite <- Nd. apply NoDup_nodup.
  - intros y Hy. rewrite forallb_forall in Hl. specialize (Hl y Hy). change (w_nodes (ux_ws sl)) with 3. destruct y; cbn [ux_okact] in Hl; auto; apply Nat.ltb_lt; exact Hl.
  - intros n _. assert (X : forall k x, stands k (ux_off a n) x -> In (n, x) ux_all).
    { intros k x H. apply offer_in in H. apply in_flat_map in H. destruct H as [i [_ H]]. destruct (nth_error ux_all i) as [[m y]|] eqn:E; [|destruct H]. destruct (Nat.eqb_spec m n) as [->|]; [|destruct H]. destruct H as [->|[]]. eapply nth_error_In; eauto. }
    split; [split; intros h H|].
    + apply (ux_sent ej n (XAR h)). apply (X Slave). exact H.
    + apply (ux_sent ej n (XAW h)). apply (X Slave). exact H.
    + intros x H. change (Z.of_nat (w_nodes (ux_ws sl))) with 3%Z. destruct (ux_sent ej n x (X _ _ H)) as (A & B & _). auto.
  - intros. apply Prop_IqRouter.greedy_ok.
  - intros. apply Prop_IqRouter.greedy_ok.
Qed.
Lemma ux_rounds : forall sl ej a t, Forall (good_xginst (ux_ws sl) ux_cs (ux_ys ej)) (ux_round a t).
Proof. intros sl ej a t. unfold ux_round. repeat apply Forall_cons; try apply Forall_nil; apply ux_good; reflexivity. Qed.
Lemma ux_gs_good : forall sl ej, Forall (good_xginst (ux_ws sl) ux_cs (ux_ys ej)) ux_gs.
Proof. intros sl ej. unfold ux_gs. do 6 (apply Forall_app; split; [apply ux_rounds|]). apply Forall_flat_map. apply Forall_forall. intros t _. apply ux_rounds. Qed.
Definition xturnsb (N : nat) (l : list xact) : bool := forallb (fun n => Prop_Term.alternateb (xinj_acts n l) && Prop_Term.alternateb (xej_acts n l)) (seq 0 N).
Lemma xturnsb_ok : forall N l, xturnsb N l = true -> xtake_turns N l.
Proof.
  intros N l H n Hn. unfold xturnsb in H. rewrite forallb_forall in H. specialize (H n ltac:(apply in_seq; lia)). apply andb_true_iff in H. destruct H. split; apply Prop_Term.alternateb_ok; auto.
Qed.
Lemma ux_clocks : xclocks 3 ux_cs ux_gs.
Proof. intros n Hn. destruct n as [|[|[|n]]]; [| | |lia]; vm_compute; intuition congruence. Qed.
Definition nilb {A} (l : list A) : bool := match l with [] => true | _ => false end.
Definition noneb {A} (o : option A) : bool := match o with None => true | _ => false end.
Definition xrestb {P} (w : netcfg) (ys : nat -> ycfg) (l : list xact) (s : xsys P) : bool :=
  nilb (inside w (tm_net (q_t s))) &&
  forallb (fun n => negb (valid (nd (q_in s n))) && nilb (injq (q_in s n)) && noneb (itobe (q_in s n)) && noneb (tm_inj (q_t s) n) && (last (xej_acts n l) false || noneb (ch_out (n_f (tm_net (q_t s)) (Ej n)))) &&
    forallb (fun v => nilb (yej (q_out s n) v)) (seq 0 (ntypes (ys n))) && nilb (youtq (q_out s n)) && noneb (yhold (q_out s n)) && noneb (yport (q_out s n))) (seq 0 (w_nodes w)).
Lemma nilb_ok : forall A (l : list A), nilb l = true -> l = []. Proof. intros A [|]; [auto|discriminate]. Qed.
Lemma noneb_ok : forall A (l : option A), noneb l = true -> l = None. Proof. intros A [|]; [discriminate|auto]. Qed.
Lemma xrestb_ok : forall P w ys l (s : xsys P), xrestb w ys l s = true -> xat_rest w ys l s.
Proof.
  intros P w ys l s H. unfold xrestb in H. apply andb_true_iff in H. destruct H as [H1 H2]. rewrite forallb_forall in H2.
  assert (X : forall n, n < w_nodes w -> (valid (nd (q_in s n)) = false /\ injq (q_in s n) = [] /\ itobe (q_in s n) = None) /\ (tm_inj (q_t s) n = None /\ (last (xej_acts n l) false = true \/ ch_out (n_f (tm_net (q_t s)) (Ej n)) = None)) /\
    ((forall v, v < ntypes (ys n) -> yej (q_out s n) v = []) /\ youtq (q_out s n) = [] /\ yhold (q_out s n) = None /\ yport (q_out s n) = None)).
  { intros n Hn. specialize (H2 n ltac:(apply in_seq; lia)). do 8 (apply andb_true_iff in H2; let A := fresh "A" in destruct H2 as [H2 A]). rewrite forallb_forall in A2. apply orb_true_iff in A3.
    split; [split; [apply negb_true_iff; auto|split; [apply nilb_ok; auto|apply noneb_ok; auto]]|]. split; [split; [apply noneb_ok; auto|destruct A3; [left; auto|right; apply noneb_ok; auto]]|].
    split; [intros v Hv; apply nilb_ok, A2, in_seq; lia|]. split; [apply nilb_ok; auto|]. split; apply noneb_ok; auto. }
  split; [intros n Hn; apply (X n Hn)|]. split; [apply nilb_ok; auto|]. split; intros n Hn; apply (X n Hn).
Qed.

(** A row of three nodes with data of 512 bits.  Node 0 reads from and writes to node 2, node 1 reads from node 2, and node 2 answers node 0 with data and node 1 with a response. *)
Example C85_system_ex : new_private (bc_vcs ux_b) (-1) 8 (bc_wait ux_b) = Some (ux_b, private_policy 8) /\ xfitting (w_nodes ux_w) (bc_vcs ux_b) 8 ux_ch ux_cs (ux_ys 8) /\
  Forall (good_xginst ux_w ux_cs (ux_ys 8)) ux_gs /\ xtake_turns (w_nodes ux_w) (flat_map xg_acts ux_gs) /\ xclocks (w_nodes ux_w) ux_cs ux_gs /\
  let r := xsys_run ux_w ux_rf ux_cs (ux_ys 8) ux_gs (xsys0 (P := private_policy 8) ux_w (ux_ys 8)) in
  ux_look r = Some ([[(AR, 1); (AW, 2); (W, 77)]; [(AR, 3)]; [(R, 500); (B, 2)]], [[(R, 500)]; [(B, 2)]; [(AR, 3); (AR, 1); (AW, 2); (W, 77)]])%Z /\
  match r with Some (s, _) => xat_rest ux_w (ux_ys 8) (flat_map xg_acts ux_gs) s | None => False end.
Proof.
  split; [reflexivity|]. split; [apply ux_fit; lia|]. split; [apply ux_gs_good|]. split; [apply xturnsb_ok; vm_compute; reflexivity|]. split; [apply ux_clocks|]. cbv zeta. split; [vm_compute; reflexivity|].
  assert (R : match xsys_run ux_w ux_rf ux_cs (ux_ys 8) ux_gs (xsys0 (P := private_policy 8) ux_w (ux_ys 8)) with Some (s, _) => xrestb ux_w (ux_ys 8) (flat_map xg_acts ux_gs) s | None => false end = true) by (vm_compute; reflexivity).
  destruct (xsys_run _ _ _ _ _ _) as [[s o]|]; [|discriminate]. apply xrestb_ok. exact R.
Qed.

(** The same network with room for seven flits in a virtual channel: the write data and the read data are packets of eight flits and never arrive; all else does.  The modules go on for as long again. *)
Definition ux_more : list xginst := ux_gs ++ flat_map (fun t => ux_round [] (104 + 4 * Z.of_nat t)%Z) (seq 0 26).
Example C86_too_long_ex : new_private (bc_vcs (ux_bs 7)) (-1) 7 (bc_wait (ux_bs 7)) = Some (ux_bs 7, private_policy 7) /\ xfitting (w_nodes (ux_ws 7)) (bc_vcs (ux_bs 7)) 7 ux_ch ux_cs (ux_ys 7) /\
  Forall (good_xginst (ux_ws 7) ux_cs (ux_ys 7)) ux_more /\ xtake_turns (w_nodes (ux_ws 7)) (flat_map xg_acts ux_more) /\ xclocks (w_nodes (ux_ws 7)) ux_cs ux_more /\
  map (fun t => xnum_flits (xc_w (ux_cs 0)) (xc_dw (ux_cs 0)) t) [AR; AW; W; R; B] = [2; 2; 8; 8; 1]%Z /\
  ux_look (xsys_run (ux_ws 7) ux_rf ux_cs (ux_ys 7) ux_more (xsys0 (P := private_policy 7) (ux_ws 7) (ux_ys 7))) =
    Some ([[(AR, 1); (AW, 2); (W, 77)]; [(AR, 3)]; [(R, 500); (B, 2)]], [[]; [(B, 2)]; [(AR, 3); (AR, 1); (AW, 2)]])%Z.
Proof.
  split; [reflexivity|]. split; [apply ux_fit; lia|]. split; [apply Forall_app; split; [apply ux_gs_good|]; apply Forall_flat_map; apply Forall_forall; intros t _; apply ux_rounds|].
  split; [apply xturnsb_ok; vm_compute; reflexivity|]. split; [intros n Hn; destruct n as [|[|[|n]]]; [| | |change (w_nodes (ux_ws 7)) with 3 in Hn; lia]; vm_compute; intuition congruence|].
  split; vm_compute; reflexivity.
Qed.
