(** C112-C113: the trees of fixed size (topologies "qtree" and "tree4") with the routing functions "nca" and "anca". *)
From Coq Require Import ZArith Arith Bool List Lia Permutation.
From Verif Require Import Prop_IqRouter Fupd ArbiterModel AllocModel AllocSpec BufferModel BufferSpec RouteModel ChannelModel IqRouterModel IqRouterSpec IqRouterProofs NetModel NetSpec NetProofs NetSum NetOrder NetMeshModel NetMeshSpec
  NetMeshProofs Prop_Net NetProgressSpec NetStuck NetProgress NetMore Prop_NetProgress RouteNetSpec RouteNetProofs FlyProofs Prop_Fly FatTreeProofs TreeModel TreeSpec TreeProofs.
Import ListNotations.
Open Scope nat_scope.

(** ** What the computations give *)
Lemma q_di : degs qt_size qt_deg qt_ins = true. Proof. vm_compute. reflexivity. Qed.
Lemma q_do : degs qt_size qt_deg qt_outs = true. Proof. vm_compute. reflexivity. Qed.
Lemma q_ai : all_in (full Inj (4 ^ 3) qt_chans) qt_ins = true. Proof. vm_compute. reflexivity. Qed.
Lemma q_ao : all_in (full Ej (4 ^ 3) qt_chans) qt_outs = true. Proof. vm_compute. reflexivity. Qed.
Definition q_ports (r d : nat) : list Z := [qt_port r d].
Lemma q_go : chk_go qt_size (4 ^ 3) qt_deg qt_ins qt_outs q_ports qt_okb qt_left = true. Proof. vm_compute. reflexivity. Qed.
Lemma q_ra : chk_rank qt_size (4 ^ 3) qt_ins qt_outs qt_okb qt_rank = true. Proof. vm_compute. reflexivity. Qed.
Lemma f_di : degs t4_size t4_deg t4_ins = true. Proof. vm_compute. reflexivity. Qed.
Lemma f_do : degs t4_size t4_deg t4_outs = true. Proof. vm_compute. reflexivity. Qed.
Lemma f_ai : all_in (full Inj (4 ^ 3) t4_chans) t4_ins = true. Proof. vm_compute. reflexivity. Qed.
Lemma f_ao : all_in (full Ej (4 ^ 3) t4_chans) t4_outs = true. Proof. vm_compute. reflexivity. Qed.
Definition f_ports (r d : nat) : list Z := map (t4_port r d 0) [0; 1; 2; 3] ++ [t4_port r d 1 0].
Lemma f_go : chk_go t4_size (4 ^ 3) t4_deg t4_ins t4_outs f_ports t4_okb t4_left = true. Proof. vm_compute. reflexivity. Qed.
Lemma f_ra : chk_rank t4_size (4 ^ 3) t4_ins t4_outs t4_okb t4_rank = true. Proof. vm_compute. reflexivity. Qed.
Lemma q_wired : forall b rd cd ob, wired (qtree b rd cd ob).
Proof. intros b rd cd ob. apply (t_wired _ _ _ _ _ _ b rd cd ob q_di q_do q_ai q_ao). Qed.
Lemma f_wired : forall b rd cd ob, wired (tree4 b rd cd ob).
Proof. intros b rd cd ob. apply (t_wired _ _ _ _ _ _ b rd cd ob f_di f_do f_ai f_ao). Qed.
Lemma q_gives : forall r d bb ee es, es = qtree_nca r d bb ee -> exists p, In p (q_ports r d) /\ es = [add_range p bb ee].
Proof. intros r d bb ee es ->. exists (qt_port r d). split; [left; reflexivity|reflexivity]. Qed.
Lemma f_port : forall r d x y, x < 2 -> y < 4 -> In (t4_port r d x y) (f_ports r d).
Proof.
  intros r d x y Hx Hy. unfold f_ports, t4_port. destruct (nth r t4_ids 0 / 16 =? 0)%Z; [destruct x as [|[|x]]; [left; reflexivity|do 4 right; left; reflexivity|lia]|].
  destruct (nth r t4_ids 0 / 16 =? 1)%Z; [destruct (Z.of_nat d / 4 / 4 =? _)%Z; [left; reflexivity|destruct y as [|[|[|[|y]]]]; [left|right; left|do 2 right; left|do 3 right; left|lia]; reflexivity]|].
  destruct (Z.of_nat d / 4 =? _)%Z; [left; reflexivity|destruct x as [|[|x]]; [left; reflexivity|do 4 right; left; reflexivity|lia]].
Qed.
(** At a router that is not at the top, [anca] gives one port, the first one of those that lead up if the packet has to go up. *)
Lemma anca_is : forall r d x bb ee, x < 2 -> exists x', x' < 2 /\ (4 <= r < 28 -> x' = 0) /\ tree4_anca r d x bb ee = [add_range (t4_port r d x' 0) bb ee].
Proof.
  intros r d x bb ee Hx. unfold tree4_anca, t4_range, t4_port. destruct (nth r t4_ids 0 / 16 =? 0)%Z eqn:E0.
  - exists x. split; auto. split; [|cbn [fst snd seq map]; rewrite Z.add_0_r; reflexivity]. intros Hr. exfalso.
    assert (X : forallb (fun r => negb (nth r t4_ids 0 / 16 =? 0)%Z) (seq 4 24) = true) by (vm_compute; reflexivity). rewrite forallb_forall in X. specialize (X r ltac:(apply in_seq; lia)). rewrite E0 in X. discriminate.
  - exists 0. split; [lia|]. split; auto. destruct (nth r t4_ids 0 / 16 =? 1)%Z; [destruct (Z.of_nat d / 4 / 4 =? _)%Z|destruct (Z.of_nat d / 4 =? _)%Z]; cbn [fst snd seq map]; rewrite ?Z.add_0_r; reflexivity.
Qed.
Lemma f_gives : forall r d bb ee es, (exists x y, x < 2 /\ y < 4 /\ es = tree4_nca r d x y bb ee) \/ (exists x, x < 2 /\ es = tree4_anca r d x bb ee) -> exists p, In p (f_ports r d) /\ es = [add_range p bb ee].
Proof.
  intros r d bb ee es [[x [y [Hx [Hy ->]]]]|[x [Hx ->]]].
  - exists (t4_port r d x y). split; [apply f_port; auto|reflexivity].
  - destruct (anca_is r d x bb ee Hx) as [x' [Hx' [_ ->]]]. exists (t4_port r d x' 0). split; [apply f_port; auto; lia|reflexivity].
Qed.
Lemma way_node : forall a, a < 64 -> In (Inj a) (full Inj (4 ^ 3) qt_chans) /\ In (Inj a) (full Inj (4 ^ 3) t4_chans).
Proof. intros a Ha. split; apply full_node; auto; try discriminate; intros; congruence. Qed.

(** ** C112: the qtree has a router at the top, four below it and sixteen leaves with four nodes each; channels connect each router with the four below it, in both directions, with latency 1. *)
Theorem C112_wired : forall b rd cd ob, let w := qtree b rd cd ob in
  wired w /\ w_n w = 21 /\ w_nodes w = 64 /\ w_chans w = 40 /\ (forall r, r < 21 -> c_in (w_cfg w r) = (if r <? 1 then 4 else 5) /\ c_outs (w_cfg w r) = (if r <? 1 then 4 else 5)) /\ (forall c, w_fd w c = 1%Z /\ w_cd w c = 1%Z) /\
  (forall r p, r < 5 -> p < 4 -> exists c c', w_src w (Ch c) = Some (r, p) /\ w_snk w (Ch c) = Some (4 * r + 1 + p, 4) /\ w_src w (Ch c') = Some (4 * r + 1 + p, 4) /\ w_snk w (Ch c') = Some (r, p)) /\
  (forall m, m < 64 -> w_snk w (Inj m) = Some (5 + m / 4, m mod 4) /\ w_src w (Ej m) = Some (5 + m / 4, m mod 4)).
Proof.
  intros b rd cd ob w. split; [apply q_wired|]. do 3 (split; [reflexivity|]). split; [|split; [auto|split]].
  - intros r Hr. assert (X : forallb (fun r => Nat.eqb (qt_deg r) (if r <? 1 then 4 else 5)) (seq 0 21) = true) by (vm_compute; reflexivity). rewrite forallb_forall in X. specialize (X r ltac:(apply in_seq; lia)). apply Nat.eqb_eq in X. split; exact X.
  - intros r p Hr Hp. set (k := 4 * r + p). exists (20 + k), k.
    assert (X : forallb (fun r => forallb (fun p => Nat.ltb r 21 && Nat.ltb (4 * r + 1 + p) 21 && Nat.ltb p (qt_deg r) && Nat.ltb 4 (qt_deg (4 * r + 1 + p)) && cid_eqb (tab qt_outs r p) (Ch (20 + (4 * r + p))) && cid_eqb (tab qt_ins (4 * r + 1 + p) 4) (Ch (20 + (4 * r + p))) && cid_eqb (tab qt_outs (4 * r + 1 + p) 4) (Ch (4 * r + p)) && cid_eqb (tab qt_ins r p) (Ch (4 * r + p))) (seq 0 4)) (seq 0 5) = true) by (vm_compute; reflexivity).
    rewrite forallb_forall in X. specialize (X r ltac:(apply in_seq; lia)). rewrite forallb_forall in X. specialize (X p ltac:(apply in_seq; lia)). fold k in X. rewrite !andb_true_iff in X. destruct X as [[[[[[[X1 X2] X3] X4] X5] X6] X7] X8]. apply Nat.ltb_lt in X1, X2, X3, X4. apply cid_eqb_eq in X5, X6, X7, X8.
    split; [|split; [|split]]; [apply (t_src _ _ _ _ qt_ins _ b rd cd ob q_do q_ao)|apply (t_snk _ _ _ _ _ qt_outs b rd cd ob q_di q_ai)|apply (t_src _ _ _ _ qt_ins _ b rd cd ob q_do q_ao)|apply (t_snk _ _ _ _ _ qt_outs b rd cd ob q_di q_ai)]; auto.
  - intros m Hm. assert (X : forallb (fun m => Nat.ltb (5 + m / 4) 21 && Nat.ltb (m mod 4) (qt_deg (5 + m / 4)) && cid_eqb (tab qt_ins (5 + m / 4) (m mod 4)) (Inj m) && cid_eqb (tab qt_outs (5 + m / 4) (m mod 4)) (Ej m)) (seq 0 64) = true) by (vm_compute; reflexivity).
    rewrite forallb_forall in X. specialize (X m ltac:(apply in_seq; lia)). rewrite !andb_true_iff in X. destruct X as [[[X1 X2] X3] X4]. apply Nat.ltb_lt in X1, X2. apply cid_eqb_eq in X3, X4. split; [apply (t_snk _ _ _ _ _ qt_outs b rd cd ob q_di q_ai)|apply (t_src _ _ _ _ qt_ins _ b rd cd ob q_do q_ao)]; auto.
Qed.
Print Assumptions C112_wired.
(** A packet goes up to the first router above both nodes, then down. *)
Theorem C112_way : forall b rd cd ob a d lo hi, a < 64 -> d < 64 -> goes (qtree b rd cd ob) (fun r es => es = qtree_nca r d lo hi) lo hi d (Inj a) (way_len a d).
Proof.
  intros b rd cd ob a d lo hi Ha Hd. pose proof (t_goes _ _ _ _ _ _ b rd cd ob q_di q_do q_ai q_ao q_ports qt_okb qt_left q_go) as X. specialize (X (fun r es => es = qtree_nca r d lo hi) lo hi d Hd).
  specialize (X (fun r _ => ex_intro _ _ eq_refl)). specialize (X (fun r es _ E => q_gives r d lo hi es E)). specialize (X (fun _ => eq_refl)).
  specialize (X (way_len a d) (Inj a) eq_refl eq_refl). exact (X (or_introl (proj1 (way_node a Ha)))).
Qed.
Print Assumptions C112_way.
(** The network runs, every flit is accounted for and leaves the network only at its destination. *)
Theorem C112_network : forall P b rd cd ob T ts, some_policy b P -> let w := qtree b rd cd ob in
  rdecent_run P (qt_may T) T w ts -> (forall m v, together (y_dest T) (on_vc v (injected ts m))) -> works P T w (fun _ _ _ => True) ts.
Proof.
  intros P b rd cd ob T ts SP w M Tg. apply (r_works w (qt_may T) T (tree_ok (4 ^ 3) qt_okb T (bc_vcs b)) (q_wired b rd cd ob)); try assumption.
  - apply (t_start qt_size _ qt_chans qt_deg qt_ins qt_outs b rd cd ob qt_okb T).
  - intros r i f es Hr Hi O E. apply (t_lawful qt_size _ qt_chans qt_deg qt_ins qt_outs b rd cd ob q_di q_do q_ai q_ao q_ports qt_okb qt_left T q_go r i f es Hr Hi O). apply q_gives. exact E.
  - apply (t_end _ b qt_okb T).
  - intros. exact Logic.I.
Qed.
Print Assumptions C112_network.
(** Every packet arrives. *)
Theorem C112_delivers : forall P b rd cd ob T slots, own_buffers b P slots -> ob <> 0%Z -> all_arrive P (qt_may T) (qtree b rd cd ob) T slots.
Proof.
  intros P b rd cd ob T slots HB HO. apply (r_arrive (qtree b rd cd ob) (qt_may T) T (tree_ok (4 ^ 3) qt_okb T (bc_vcs b)) (q_wired b rd cd ob)) with (dist := fun c _ => qt_rank c); try assumption.
  - apply (t_start qt_size _ qt_chans qt_deg qt_ins qt_outs b rd cd ob qt_okb T).
  - intros r i f es Hr Hi O E. apply (t_lawful qt_size _ qt_chans qt_deg qt_ins qt_outs b rd cd ob q_di q_do q_ai q_ao q_ports qt_okb qt_left T q_go r i f es Hr Hi O). apply q_gives. exact E.
  - apply (t_end _ b qt_okb T).
  - intros r _. exact HO.
  - apply (t_descends _ _ _ _ _ _ b rd cd ob q_di q_do q_ai q_ao qt_okb qt_rank T q_ra).
Qed.
Print Assumptions C112_delivers.

(** ** C113: tree4 has four routers at the top, each connected with all eight of the next level, of which two each are connected with four of the sixteen leaves, in both directions, with latency 1. *)
Theorem C113_wired : forall b rd cd ob, let w := tree4 b rd cd ob in
  wired w /\ w_n w = 28 /\ w_nodes w = 64 /\ w_chans w = 128 /\ (forall r, r < 28 -> c_in (w_cfg w r) = (if r <? 12 then 8 else 6) /\ c_outs (w_cfg w r) = (if r <? 12 then 8 else 6)) /\ (forall c, w_fd w c = 1%Z /\ w_cd w c = 1%Z) /\
  (forall t m, t < 4 -> m < 8 -> exists c c', w_src w (Ch c) = Some (t, m) /\ w_snk w (Ch c) = Some (4 + m, 4 + t) /\ w_src w (Ch c') = Some (4 + m, 4 + t) /\ w_snk w (Ch c') = Some (t, m)) /\
  (forall m p, m < 8 -> p < 4 -> exists c c', w_src w (Ch c) = Some (4 + m, p) /\ w_snk w (Ch c) = Some (12 + 4 * (m / 2) + p, 4 + m mod 2) /\ w_src w (Ch c') = Some (12 + 4 * (m / 2) + p, 4 + m mod 2) /\ w_snk w (Ch c') = Some (4 + m, p)) /\
  (forall m, m < 64 -> w_snk w (Inj m) = Some (12 + m / 4, m mod 4) /\ w_src w (Ej m) = Some (12 + m / 4, m mod 4)).
Proof.
  intros b rd cd ob w. assert (S1 : forall c r i, r < 28 -> i < t4_deg r -> tab t4_ins r i = c -> w_snk w c = Some (r, i)) by (intros; apply (t_snk _ _ _ _ _ t4_outs b rd cd ob f_di f_ai); auto).
  assert (S2 : forall c r i, r < 28 -> i < t4_deg r -> tab t4_outs r i = c -> w_src w c = Some (r, i)) by (intros; apply (t_src _ _ _ _ t4_ins _ b rd cd ob f_do f_ao); auto).
  split; [apply f_wired|]. do 3 (split; [reflexivity|]). split; [|split; [auto|split; [|split]]].
  - intros r Hr. assert (X : forallb (fun r => Nat.eqb (t4_deg r) (if r <? 12 then 8 else 6)) (seq 0 28) = true) by (vm_compute; reflexivity). rewrite forallb_forall in X. specialize (X r ltac:(apply in_seq; lia)). apply Nat.eqb_eq in X. split; exact X.
  - intros t m Ht Hm. set (k := 64 + 2 * (8 * t + m)). exists k, (k + 1).
    assert (X : forallb (fun t => forallb (fun m => Nat.ltb m (t4_deg t) && Nat.ltb (4 + t) (t4_deg (4 + m)) && cid_eqb (tab t4_outs t m) (Ch (64 + 2 * (8 * t + m))) && cid_eqb (tab t4_ins (4 + m) (4 + t)) (Ch (64 + 2 * (8 * t + m))) && cid_eqb (tab t4_outs (4 + m) (4 + t)) (Ch (64 + 2 * (8 * t + m) + 1)) && cid_eqb (tab t4_ins t m) (Ch (64 + 2 * (8 * t + m) + 1))) (seq 0 8)) (seq 0 4) = true) by (vm_compute; reflexivity).
    rewrite forallb_forall in X. specialize (X t ltac:(apply in_seq; lia)). rewrite forallb_forall in X. specialize (X m ltac:(apply in_seq; lia)). fold k in X. rewrite !andb_true_iff in X. destruct X as [[[[[X3 X4] X5] X6] X7] X8]. apply Nat.ltb_lt in X3, X4. apply cid_eqb_eq in X5, X6, X7, X8.
    split; [|split; [|split]]; [apply S2|apply S1|apply S2|apply S1]; auto; lia.
  - intros m p Hm Hp. set (k := 2 * (4 * m + p)). exists k, (k + 1).
    assert (X : forallb (fun m => forallb (fun p => Nat.ltb (12 + 4 * (m / 2) + p) 28 && Nat.ltb p (t4_deg (4 + m)) && Nat.ltb (4 + m mod 2) (t4_deg (12 + 4 * (m / 2) + p)) && cid_eqb (tab t4_outs (4 + m) p) (Ch (2 * (4 * m + p))) && cid_eqb (tab t4_ins (12 + 4 * (m / 2) + p) (4 + m mod 2)) (Ch (2 * (4 * m + p))) && cid_eqb (tab t4_outs (12 + 4 * (m / 2) + p) (4 + m mod 2)) (Ch (2 * (4 * m + p) + 1)) && cid_eqb (tab t4_ins (4 + m) p) (Ch (2 * (4 * m + p) + 1))) (seq 0 4)) (seq 0 8) = true) by (vm_compute; reflexivity).
    rewrite forallb_forall in X. specialize (X m ltac:(apply in_seq; lia)). rewrite forallb_forall in X. specialize (X p ltac:(apply in_seq; lia)). fold k in X. rewrite !andb_true_iff in X. destruct X as [[[[[[X2 X3] X4] X5] X6] X7] X8]. apply Nat.ltb_lt in X2, X3, X4. apply cid_eqb_eq in X5, X6, X7, X8.
    split; [|split; [|split]]; [apply S2|apply S1|apply S2|apply S1]; auto; lia.
  - intros m Hm. assert (X : forallb (fun m => Nat.ltb (12 + m / 4) 28 && Nat.ltb (m mod 4) (t4_deg (12 + m / 4)) && cid_eqb (tab t4_ins (12 + m / 4) (m mod 4)) (Inj m) && cid_eqb (tab t4_outs (12 + m / 4) (m mod 4)) (Ej m)) (seq 0 64) = true) by (vm_compute; reflexivity).
    rewrite forallb_forall in X. specialize (X m ltac:(apply in_seq; lia)). rewrite !andb_true_iff in X. destruct X as [[[X1 X2] X3] X4]. apply Nat.ltb_lt in X1, X2. apply cid_eqb_eq in X3, X4. auto.
Qed.
Print Assumptions C113_wired.
(** Whatever the random numbers are, a packet goes up to the first level with a router above both nodes, then down. *)
Theorem C113_way : forall b rd cd ob a d lo hi, a < 64 -> d < 64 ->
  goes (tree4 b rd cd ob) (fun r es => (exists x y, x < 2 /\ y < 4 /\ es = tree4_nca r d x y lo hi) \/ (exists x, x < 2 /\ es = tree4_anca r d x lo hi)) lo hi d (Inj a) (way_len a d).
Proof.
  intros b rd cd ob a d lo hi Ha Hd. pose proof (t_goes _ _ _ _ _ _ b rd cd ob f_di f_do f_ai f_ao f_ports t4_okb t4_left f_go) as X. specialize (X (fun r es => (exists x y, x < 2 /\ y < 4 /\ es = tree4_nca r d x y lo hi) \/ (exists x, x < 2 /\ es = tree4_anca r d x lo hi)) lo hi d Hd).
  specialize (X (fun r _ => ex_intro _ (tree4_nca r d 0 0 lo hi) (or_introl (ex_intro _ 0 (ex_intro _ 0 (conj Nat.lt_0_2 (conj (Nat.lt_0_succ 3) eq_refl))))))). specialize (X (fun r es _ E => f_gives r d lo hi es E)). specialize (X (fun _ => eq_refl)).
  specialize (X (way_len a d) (Inj a) eq_refl eq_refl). exact (X (or_introl (proj2 (way_node a Ha)))).
Qed.
Print Assumptions C113_way.
(** The calls of AddRange in [anca] have the same priority, so the set keeps the first one only: a packet that has to go up is given port 4 alone, which leads from every router of the second level to router 0, and from every leaf to a router with an even number. *)
Theorem C113_anca : forall b rd cd ob r d x lo hi, 4 <= r < 28 -> x < 2 -> let w := tree4 b rd cd ob in
  exists p, p <= 4 /\ tree4_anca r d x lo hi = [add_range (Z.of_nat p) lo hi] /\ (p = 4 -> exists r' i, w_snk w (w_out w r 4) = Some (r', i) /\ (if r <? 12 then r' = 0 else r' = 4 + 2 * ((r - 12) / 4))).
Proof.
  intros b rd cd ob r d x lo hi Hr Hx w. destruct (anca_is r d x lo hi Hx) as [x' [_ [E0 ->]]]. rewrite (E0 Hr). assert (Hp : (0 <= t4_port r d 0 0 <= 4)%Z).
  { assert (X : forallb (fun r => negb (nth r t4_ids 0 / 16 =? 0)%Z) (seq 4 24) = true) by (vm_compute; reflexivity). rewrite forallb_forall in X. specialize (X r ltac:(apply in_seq; lia)). unfold t4_port. destruct (nth r t4_ids 0 / 16 =? 0)%Z; [discriminate|].
    pose proof (Z.mod_pos_bound (Z.of_nat d / 4) 4 ltac:(lia)). pose proof (Z.mod_pos_bound (Z.of_nat d) 4 ltac:(lia)). destruct (_ =? 1)%Z; destruct (_ =? _)%Z; lia. }
  exists (Z.to_nat (t4_port r d 0 0)). split; [lia|]. split; [rewrite Z2Nat.id by lia; reflexivity|]. intros _.
  assert (S1 : forall c r i, r < 28 -> i < t4_deg r -> tab t4_ins r i = c -> w_snk w c = Some (r, i)) by (intros; apply (t_snk _ _ _ _ _ t4_outs b rd cd ob f_di f_ai); auto).
  change (w_out w) with (tab t4_outs).
  destruct (Nat.ltb_spec r 12) as [L|G].
  - exists 0, (r - 4). split; auto. assert (X : forallb (fun r => Nat.ltb (r - 4) (t4_deg 0) && cid_eqb (tab t4_ins 0 (r - 4)) (tab t4_outs r 4)) (seq 4 8) = true) by (vm_compute; reflexivity). rewrite forallb_forall in X. specialize (X r ltac:(apply in_seq; lia)).
    apply andb_true_iff in X. destruct X as [X1 X2]. apply Nat.ltb_lt in X1. apply cid_eqb_eq in X2. apply S1; auto. lia.
  - exists (4 + 2 * ((r - 12) / 4)), ((r - 12) mod 4). split; auto. assert (X : forallb (fun r => Nat.ltb (4 + 2 * ((r - 12) / 4)) 28 && Nat.ltb ((r - 12) mod 4) (t4_deg (4 + 2 * ((r - 12) / 4))) && cid_eqb (tab t4_ins (4 + 2 * ((r - 12) / 4)) ((r - 12) mod 4)) (tab t4_outs r 4)) (seq 12 16) = true) by (vm_compute; reflexivity).
    rewrite forallb_forall in X. specialize (X r ltac:(apply in_seq; lia)). rewrite !andb_true_iff in X. destruct X as [[X0 X1] X2]. apply Nat.ltb_lt in X0, X1. apply cid_eqb_eq in X2. apply S1; auto.
Qed.
Print Assumptions C113_anca.
(** The network runs with either routing function and any random numbers, every flit is accounted for and leaves the network only at its destination. *)
Theorem C113_network : forall P b rd cd ob T ts, some_policy b P -> let w := tree4 b rd cd ob in
  rdecent_run P (t4_may T) T w ts -> (forall m v, together (y_dest T) (on_vc v (injected ts m))) -> works P T w (fun _ _ _ => True) ts.
Proof.
  intros P b rd cd ob T ts SP w M Tg. apply (r_works w (t4_may T) T (tree_ok (4 ^ 3) t4_okb T (bc_vcs b)) (f_wired b rd cd ob)); try assumption.
  - apply (t_start t4_size _ t4_chans t4_deg t4_ins t4_outs b rd cd ob t4_okb T).
  - intros r i f es Hr Hi O E. apply (t_lawful t4_size _ t4_chans t4_deg t4_ins t4_outs b rd cd ob f_di f_do f_ai f_ao f_ports t4_okb t4_left T f_go r i f es Hr Hi O). apply f_gives. exact E.
  - apply (t_end _ b t4_okb T).
  - intros. exact Logic.I.
Qed.
Print Assumptions C113_network.
(** Every packet arrives. *)
Theorem C113_delivers : forall P b rd cd ob T slots, own_buffers b P slots -> ob <> 0%Z -> all_arrive P (t4_may T) (tree4 b rd cd ob) T slots.
Proof.
  intros P b rd cd ob T slots HB HO. apply (r_arrive (tree4 b rd cd ob) (t4_may T) T (tree_ok (4 ^ 3) t4_okb T (bc_vcs b)) (f_wired b rd cd ob)) with (dist := fun c _ => t4_rank c); try assumption.
  - apply (t_start t4_size _ t4_chans t4_deg t4_ins t4_outs b rd cd ob t4_okb T).
  - intros r i f es Hr Hi O E. apply (t_lawful t4_size _ t4_chans t4_deg t4_ins t4_outs b rd cd ob f_di f_do f_ai f_ao f_ports t4_okb t4_left T f_go r i f es Hr Hi O). apply f_gives. exact E.
  - apply (t_end _ b t4_okb T).
  - intros r _. exact HO.
  - apply (t_descends _ _ _ _ _ _ b rd cd ob f_di f_do f_ai f_ao t4_okb t4_rank T f_ra).
Qed.
Print Assumptions C113_delivers.

(** ** Examples *)
Example C112_wired_ex : map (fun c => (w_src (qtree ex_b true 1 (-1)) (Ch c), w_snk (qtree ex_b true 1 (-1)) (Ch c))) [0; 6; 22; 39] =
  [(Some (1, 4), Some (0, 0)); (Some (7, 4), Some (1, 2)); (Some (0, 2), Some (3, 4)); (Some (4, 3), Some (20, 4))].
Proof. vm_compute. reflexivity. Qed.
Example C112_way_ex : map (way_len 0) [3; 4; 15; 16; 63] = [1; 3; 3; 5; 5] /\ map (fun r => qt_port r 16) [5; 1; 0; 2; 9] = [4; 4; 1; 0; 0]%Z.
Proof. vm_compute. auto. Qed.
Example C113_wired_ex : map (fun c => (w_src (tree4 ex_b true 1 (-1)) (Ch c), w_snk (tree4 ex_b true 1 (-1)) (Ch c))) [0; 11; 64; 127] =
  [(Some (4, 0), Some (12, 4)); (Some (13, 5), Some (5, 1)); (Some (0, 0), Some (4, 4)); (Some (11, 7), Some (3, 7))].
Proof. vm_compute. reflexivity. Qed.
(** From node 0 to node 16 over the second of the two routers above its leaf, over the last router at the top and over the first one above the leaf of node 16. *)
Example C113_way_ex : (0 < 64 /\ 16 < 64) /\ map (fun a => t4_port (fst a) 16 (fst (snd a)) (snd (snd a))) [(12, (1, 0)); (5, (0, 3)); (3, (0, 0)); (6, (0, 0)); (16, (0, 0))] = [5; 7; 2; 0; 0]%Z.
Proof. split; [lia|]. vm_compute. reflexivity. Qed.
Example C113_anca_ex : (4 <= 5 < 28) /\ tree4_anca 5 16 1 0 1 = [add_range 4 0 1] /\ t4_range 5 16 1 = (4%Z, 4).
Proof. split; [lia|]. vm_compute. auto. Qed.
(** Node 0 sends to 2, at the same leaf, and node 16 a packet of two flits to 9, over the top. *)
Definition tr_cs : list ex_cycle :=
  [(0%Z, ([(0, ex_fl 200 true true 0); (16, ex_fl 16910 true false 1)], [])); (1%Z, ([(16, ex_fl 16911 false true 1)], []))].
Definition qx_R (r i : nat) (f : flit) : list oelem := qtree_nca r (y_dest (ex_T one one) (f_id f)) (Z.of_nat (y_b (ex_T one one) (f_id f))) (Z.of_nat (y_e (ex_T one one) (f_id f))).
Definition fx_R (r i : nat) (f : flit) : list oelem := tree4_nca r (y_dest (ex_T one one) (f_id f)) (Z.to_nat (f_id f / 10 mod 2)) (Z.to_nat (f_id f mod 4)) (Z.of_nat (y_b (ex_T one one) (f_id f))) (Z.of_nat (y_e (ex_T one one) (f_id f))).
Lemma qx_id : forall rd r i f f', r < w_n (qtree ex_b rd 1 (-1)) -> i < c_in (w_cfg (qtree ex_b rd 1 (-1)) r) -> f_id f = f_id f' -> qt_may (ex_T one one) r i f (qx_R r i f').
Proof. intros rd r i f f' _ _ E. unfold qt_may, qx_R. rewrite E. reflexivity. Qed.
Lemma fx_id : forall rd r i f f', r < w_n (tree4 ex_b rd 1 (-1)) -> i < c_in (w_cfg (tree4 ex_b rd 1 (-1)) r) -> f_id f = f_id f' -> t4_may (ex_T one one) r i f (fx_R r i f').
Proof.
  intros rd r i f f' _ _ E. left. exists (Z.to_nat (f_id f' / 10 mod 2)), (Z.to_nat (f_id f' mod 4)). split; [pose proof (Z.mod_pos_bound (f_id f' / 10) 2); lia|]. split; [pose proof (Z.mod_pos_bound (f_id f') 4); lia|]. unfold fx_R. rewrite E. reflexivity.
Qed.
Definition qx_ts : list tick := map (rx_tick (qtree ex_b false 1 (-1)) qx_R (ex_T one one)) tr_cs.
Lemma qx_decent : rdecent_run (private_policy 2) (qt_may (ex_T one one)) (ex_T one one) (qtree ex_b false 1 (-1)) qx_ts.
Proof. apply (rdecentb_ok _ _ qx_R); [apply (qx_id false)|apply q_wired|]. vm_compute. reflexivity. Qed.
Lemma qx_together : forall m v, together (y_dest (ex_T one one)) (on_vc v (injected qx_ts m)).
Proof. intros m v. do 17 (destruct m as [|m]; [destruct v as [|[|v]]; apply togetherb_ok; vm_compute; reflexivity|]). apply togetherb_ok. vm_compute. reflexivity. Qed.
Lemma qx_law : forall r i f es, r < w_n (qtree ex_b false 1 (-1)) -> i < c_in (w_cfg (qtree ex_b false 1 (-1)) r) -> tree_ok (4 ^ 3) qt_okb (ex_T one one) (bc_vcs ex_b) (w_in (qtree ex_b false 1 (-1)) r i) f -> qt_may (ex_T one one) r i f es -> lawful (qtree ex_b false 1 (-1)) (tree_ok (4 ^ 3) qt_okb (ex_T one one) (bc_vcs ex_b)) r f es /\ es <> [].
Proof. intros r i f es Hr Hi O E. apply (t_lawful qt_size _ qt_chans qt_deg qt_ins qt_outs ex_b false 1 (-1) q_di q_do q_ai q_ao q_ports qt_okb qt_left (ex_T one one) q_go r i f es Hr Hi O). apply q_gives. exact E. Qed.
Example C112_network_ex : some_policy ex_b (private_policy 2) /\ rdecent_run (private_policy 2) (qt_may (ex_T one one)) (ex_T one one) (qtree ex_b false 1 (-1)) qx_ts /\ (forall m v, together (y_dest (ex_T one one)) (on_vc v (injected qx_ts m))) /\
  map (fun m => map f_id (injected qx_ts m)) [0; 16] = [[200]; [16910; 16911]]%Z.
Proof. split; [apply ex_pol|]. split; [apply qx_decent|]. split; [apply qx_together|]. vm_compute. reflexivity. Qed.
Example C112_delivers_ex : forall m, own_buffers ex_b (private_policy 2) 2 /\ amount (qtree ex_b false 1 (-1)) qx_ts = 3 /\ whole (qtree ex_b false 1 (-1)) qx_ts /\
  exists ts2, m <= length ts2 /\ rdecent_run (private_policy 2) (qt_may (ex_T one one)) (ex_T one one) (qtree ex_b false 1 (-1)) (qx_ts ++ ts2) /\ rising (qx_ts ++ ts2) /\ (forall m v, together (y_dest (ex_T one one)) (on_vc v (injected (qx_ts ++ ts2) m))) /\
    (forall t, In t (qx_ts ++ ts2) -> honest (qtree ex_b false 1 (-1)) t) /\ (forall t, In t ts2 -> quiet (qtree ex_b false 1 (-1)) t /\ giving (qtree ex_b false 1 (-1)) t) /\
    (forall l1 l2 l3 s zs, ts2 = l1 ++ l2 ++ l3 -> length l2 = 1 -> net_run (qtree ex_b false 1 (-1)) (qx_ts ++ l1) (net0 (private_policy 2) (qtree ex_b false 1 (-1))) = Some (s, zs) -> eager (qtree ex_b false 1 (-1)) 2 (qx_ts ++ l1) zs l2).
Proof.
  intros m. split; [exact dr_own|]. split; [vm_compute; reflexivity|]. split; [intros x v H; do 17 (destruct x as [|x]; [destruct v as [|[|v]]; vm_compute; reflexivity|]); vm_compute; reflexivity|].
  set (T := (ex_T one one)). set (ok := tree_ok (4 ^ 3) qt_okb T (bc_vcs ex_b)). pose proof (q_wired ex_b false 1 (-1)) as W.
  assert (ND : ndecent_run (private_policy 2) (qtree ex_b false 1 (-1)) ok qx_ts).
  { apply (r_decent_from (qtree ex_b false 1 (-1)) (qt_may T) T ok W); [apply (t_start qt_size _ qt_chans qt_deg qt_ins qt_outs ex_b false 1 (-1) qt_okb T)|apply qx_law|apply qx_decent]. }
  set (t0 := rx_tick (qtree ex_b false 1 (-1)) qx_R T (0%Z, ([], []))). assert (Ri : rising qx_ts) by (apply (chain_rising _ (-1)%Z); vm_compute; intuition discriminate).
  destruct (C96_continues (private_policy 2) (qtree ex_b false 1 (-1)) ok qx_ts t0 m W ex_pol ND Ri) as [ts2 [A1 [A2 [A3 [A4 A5]]]]].
  - intros. apply greedy_ok.
  - intros. apply greedy_ok.
  - intros r i f Hr Hi Hh O. apply (qx_law r i f (qx_R r i f) Hr Hi O). apply (qx_id false); auto.
  - exists ts2. split; [lia|]. split; [|split; [exact A3|split; [|split; [|split]]]].
    + apply rdecent_append; [apply qx_decent|]. intros s1 z1 E. apply ndecent_app in A2. apply (quiet_rdecent _ _ _ _ ok); [|apply A2; exact E].
      intros t Ht. destruct (A4 t Ht) as [_ [_ [B3 [B4 _]]]]. split; [intros r i f Hr Hi; rewrite B3; apply (qx_id false); auto|intros x _; apply B4].
    + intros m' v. replace (injected (qx_ts ++ ts2) m') with (injected qx_ts m'); [apply qx_together|].
      unfold injected. rewrite flat_map_app. replace (flat_map (fun t => opt (t_inj t m')) ts2) with (@nil flit); [rewrite app_nil_r; reflexivity|]. symmetry. clear - A4. induction ts2 as [|t l IH]; [reflexivity|].
      cbn [flat_map]. rewrite (proj1 (proj2 (proj2 (proj2 (A4 t (or_introl eq_refl))))) m'). apply IH. intros. apply A4. right. auto.
    + intros t Ht. apply in_app_iff in Ht. destruct Ht as [Ht|Ht]; [|apply (A4 t Ht)]. intros d. unfold qx_ts, tr_cs in Ht. cbn [map] in Ht. destruct Ht as [<-|[<-|[]]]; cbn [rx_tick t_cred fst snd find option_map]; discriminate.
    + intros t Ht. destruct (A4 t Ht) as [B1 [B2 [B3 [B4 _]]]]. split; [intros x _; apply B4|]. intros r _. rewrite B1, B2. split; apply greedy_gives.
    + intros l1 l2 l3 s zs El Ll Er. destruct l2 as [|t l2]; [discriminate Ll|]. destruct l2 as [|t' l2]; [|discriminate Ll]. apply (A5 l1 t l3 s zs El Er 2%Z). lia.
Qed.
Definition fx_ts : list tick := map (rx_tick (tree4 ex_b false 1 (-1)) fx_R (ex_T one one)) tr_cs.
Lemma fx_decent : rdecent_run (private_policy 2) (t4_may (ex_T one one)) (ex_T one one) (tree4 ex_b false 1 (-1)) fx_ts.
Proof. apply (rdecentb_ok _ _ fx_R); [apply (fx_id false)|apply f_wired|]. vm_compute. reflexivity. Qed.
Lemma fx_together : forall m v, together (y_dest (ex_T one one)) (on_vc v (injected fx_ts m)).
Proof. intros m v. do 17 (destruct m as [|m]; [destruct v as [|[|v]]; apply togetherb_ok; vm_compute; reflexivity|]). apply togetherb_ok. vm_compute. reflexivity. Qed.
Lemma fx_law : forall r i f es, r < w_n (tree4 ex_b false 1 (-1)) -> i < c_in (w_cfg (tree4 ex_b false 1 (-1)) r) -> tree_ok (4 ^ 3) t4_okb (ex_T one one) (bc_vcs ex_b) (w_in (tree4 ex_b false 1 (-1)) r i) f -> t4_may (ex_T one one) r i f es -> lawful (tree4 ex_b false 1 (-1)) (tree_ok (4 ^ 3) t4_okb (ex_T one one) (bc_vcs ex_b)) r f es /\ es <> [].
Proof. intros r i f es Hr Hi O E. apply (t_lawful t4_size _ t4_chans t4_deg t4_ins t4_outs ex_b false 1 (-1) f_di f_do f_ai f_ao f_ports t4_okb t4_left (ex_T one one) f_go r i f es Hr Hi O). apply f_gives. exact E. Qed.
Example C113_network_ex : some_policy ex_b (private_policy 2) /\ rdecent_run (private_policy 2) (t4_may (ex_T one one)) (ex_T one one) (tree4 ex_b false 1 (-1)) fx_ts /\ (forall m v, together (y_dest (ex_T one one)) (on_vc v (injected fx_ts m))) /\
  map (fun m => map f_id (injected fx_ts m)) [0; 16] = [[200]; [16910; 16911]]%Z.
Proof. split; [apply ex_pol|]. split; [apply fx_decent|]. split; [apply fx_together|]. vm_compute. reflexivity. Qed.
Example C113_delivers_ex : forall m, own_buffers ex_b (private_policy 2) 2 /\ amount (tree4 ex_b false 1 (-1)) fx_ts = 3 /\ whole (tree4 ex_b false 1 (-1)) fx_ts /\
  exists ts2, m <= length ts2 /\ rdecent_run (private_policy 2) (t4_may (ex_T one one)) (ex_T one one) (tree4 ex_b false 1 (-1)) (fx_ts ++ ts2) /\ rising (fx_ts ++ ts2) /\ (forall m v, together (y_dest (ex_T one one)) (on_vc v (injected (fx_ts ++ ts2) m))) /\
    (forall t, In t (fx_ts ++ ts2) -> honest (tree4 ex_b false 1 (-1)) t) /\ (forall t, In t ts2 -> quiet (tree4 ex_b false 1 (-1)) t /\ giving (tree4 ex_b false 1 (-1)) t) /\
    (forall l1 l2 l3 s zs, ts2 = l1 ++ l2 ++ l3 -> length l2 = 1 -> net_run (tree4 ex_b false 1 (-1)) (fx_ts ++ l1) (net0 (private_policy 2) (tree4 ex_b false 1 (-1))) = Some (s, zs) -> eager (tree4 ex_b false 1 (-1)) 2 (fx_ts ++ l1) zs l2).
Proof.
  intros m. split; [exact dr_own|]. split; [vm_compute; reflexivity|]. split; [intros x v H; do 17 (destruct x as [|x]; [destruct v as [|[|v]]; vm_compute; reflexivity|]); vm_compute; reflexivity|].
  set (T := (ex_T one one)). set (ok := tree_ok (4 ^ 3) t4_okb T (bc_vcs ex_b)). pose proof (f_wired ex_b false 1 (-1)) as W.
  assert (ND : ndecent_run (private_policy 2) (tree4 ex_b false 1 (-1)) ok fx_ts).
  { apply (r_decent_from (tree4 ex_b false 1 (-1)) (t4_may T) T ok W); [apply (t_start t4_size _ t4_chans t4_deg t4_ins t4_outs ex_b false 1 (-1) t4_okb T)|apply fx_law|apply fx_decent]. }
  set (t0 := rx_tick (tree4 ex_b false 1 (-1)) fx_R T (0%Z, ([], []))). assert (Ri : rising fx_ts) by (apply (chain_rising _ (-1)%Z); vm_compute; intuition discriminate).
  destruct (C96_continues (private_policy 2) (tree4 ex_b false 1 (-1)) ok fx_ts t0 m W ex_pol ND Ri) as [ts2 [A1 [A2 [A3 [A4 A5]]]]].
  - intros. apply greedy_ok.
  - intros. apply greedy_ok.
  - intros r i f Hr Hi Hh O. apply (fx_law r i f (fx_R r i f) Hr Hi O). apply (fx_id false); auto.
  - exists ts2. split; [lia|]. split; [|split; [exact A3|split; [|split; [|split]]]].
    + apply rdecent_append; [apply fx_decent|]. intros s1 z1 E. apply ndecent_app in A2. apply (quiet_rdecent _ _ _ _ ok); [|apply A2; exact E].
      intros t Ht. destruct (A4 t Ht) as [_ [_ [B3 [B4 _]]]]. split; [intros r i f Hr Hi; rewrite B3; apply (fx_id false); auto|intros x _; apply B4].
    + intros m' v. replace (injected (fx_ts ++ ts2) m') with (injected fx_ts m'); [apply fx_together|].
      unfold injected. rewrite flat_map_app. replace (flat_map (fun t => opt (t_inj t m')) ts2) with (@nil flit); [rewrite app_nil_r; reflexivity|]. symmetry. clear - A4. induction ts2 as [|t l IH]; [reflexivity|].
      cbn [flat_map]. rewrite (proj1 (proj2 (proj2 (proj2 (A4 t (or_introl eq_refl))))) m'). apply IH. intros. apply A4. right. auto.
    + intros t Ht. apply in_app_iff in Ht. destruct Ht as [Ht|Ht]; [|apply (A4 t Ht)]. intros d. unfold fx_ts, tr_cs in Ht. cbn [map] in Ht. destruct Ht as [<-|[<-|[]]]; cbn [rx_tick t_cred fst snd find option_map]; discriminate.
    + intros t Ht. destruct (A4 t Ht) as [B1 [B2 [B3 [B4 _]]]]. split; [intros x _; apply B4|]. intros r _. rewrite B1, B2. split; apply greedy_gives.
    + intros l1 l2 l3 s zs El Ll Er. destruct l2 as [|t l2]; [discriminate Ll|]. destruct l2 as [|t' l2]; [|discriminate Ll]. apply (A5 l1 t l3 s zs El Er 2%Z). lia.
Qed.
