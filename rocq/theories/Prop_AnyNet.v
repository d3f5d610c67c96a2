(** C100-C103: networks described in a file (topology "anynet"). *)
From Coq Require Import Ascii String ZArith Arith Bool List Lia Sorted Permutation.
From Verif Require Import Prop_IqRouter Fupd ArbiterModel AllocModel AllocSpec BufferModel BufferSpec RouteModel ChannelModel IqRouterModel IqRouterSpec IqRouterProofs NetModel NetSpec NetProofs NetSum NetOrder NetMeshModel NetMeshSpec
  NetMeshProofs Prop_Net NetProgressSpec NetStuck NetProgress NetMore Prop_NetProgress AnyNetModel AnyNetSpec AnyNetRoute AnyNetWires AnyNetProofs AnyNetRank AnyNetRead AnyNetText AnyNetCheck.
Import ListNotations.
Open Scope nat_scope.

(** ** C100: the lines of the file, if each is headed by a router, give the network that they describe; reading fails only if a node is named by two routers or the nodes are not numbered from 0. *)
Theorem C100_reading : forall D ss, Forall2 (fun l s => line_text l (words ""%string s)) D ss ->
  match read_lines an0 ss with Some F => described D F | None => ~ agree D end /\
  (forall F, read_file ss = Some F <-> read_lines an0 ss = Some F /\ exists k, forall m, (exists r, names D r m) <-> m < k) /\
  (agree D -> (exists k, forall m, (exists r, names D r m) <-> m < k) -> exists F, read_file ss = Some F /\ described D F).
Proof.
  intros D ss H. pose proof (read_all D ss H [] an0 described0) as X. cbn [app] in X. split; auto. unfold read_file. destruct (read_lines an0 ss) as [F|].
  - pose proof (file_some D F X) as Y. destruct (_ && _)%bool eqn:E.
    + split; [|intros; eauto]. intros F'. split; [intros Q; injection Q as <-; split; auto; apply Y; auto|]. intros [Q _]. auto.
    + split; [|intros _ Q; apply Y in Q; discriminate]. intros F'. split; [discriminate|]. intros [_ Q]. apply Y in Q. discriminate.
  - split; [|intros Q; contradiction]. intros F'. split; [discriminate|intros [Q _]; discriminate].
Qed.
Print Assumptions C100_reading.
(** The text of such lines, with decimal numbers, is read in this way. *)
Theorem C100_text : forall D, (forall r its q x, In (r, its) D -> In (IRouter q (Some x)) its -> (0 <= x)%Z) -> Forall2 (fun l s => line_text l (words ""%string s)) D (map line_string D).
Proof.
  intros D H. induction D as [|[r its] D IH]; cbn [map]; constructor; [|apply IH; intros; eapply H; eauto; right; eauto]. apply text_read. intros q x X. eapply H; [left; reflexivity|exact X].
Qed.
Print Assumptions C100_text.
(** If the routers are numbered from 0 too and the latencies are positive, the network is one that can be built. *)
Theorem C100_clean : forall D F, described D F -> (exists k, forall m, (exists r, names D r m) <-> m < k) -> (exists k, forall r, mentions D r <-> r < k) ->
  (forall r its q x, In (r, its) D -> In (IRouter q (Some x)) its -> (1 <= x)%Z) -> clean F.
Proof. exact described_clean. Qed.
Print Assumptions C100_clean.

(** ** C101: the tables lead every packet to its node, on a way whose latencies add up to the least sum there is. *)
Theorem C101_shortest : forall F r m, clean F -> short F -> connected F -> r < an_size F -> m < an_nodes F ->
  exists R x, nm_get m (an_node F) = Some R /\ travels F m r x /\ road F r R x /\ forall y, road F r R y -> (x <= y)%Z.
Proof.
  intros F r m CL SH CN Hr Hm. destruct (node_router F CL m Hm) as [R [ER [HR _]]]. destruct (least_some F CL SH CN r R Hr HR) as [z Lz]. exists R, z. split; auto. pose proof (proj1 Lz) as Rz. pose proof (road_ends F CL _ _ _ Rz) as Ez.
  split; [|exact Lz]. eapply (travels_all F CL SH CN m R ER (S (Z.to_nat z))); eauto. lia.
Qed.
Print Assumptions C101_shortest.
(** There is one such way only: what a packet for a node does depends on the router it is at and on nothing else. *)
Theorem C101_one_way : forall F m r x y, travels F m r x -> travels F m r y -> x = y.
Proof.
  intros F m r x y H. revert y. induction H as [r p E1 E2 E3|r p c r' x y0 E1 E2 E3 E4 E5 H IH]; intros y H'; inversion H' as [r1 p1 F1 F2 F3|r1 p1 c1 r1' x1 y1 F1 F2 F3 F4 F5 F6]; subst; try congruence.
  rewrite E1 in F1. injection F1 as <-. rewrite E3 in F3. injection F3 as <-. rewrite E4 in F4. injection F4 as <-. rewrite E5 in F5. injection F5 as <-. f_equal. auto.
Qed.
Print Assumptions C101_one_way.
(** If some router cannot be reached from another one, the loop that fills the table of that one never ends. *)
Theorem C101_unconnected : forall F s i, clean F -> s < an_size F -> i < an_size F -> (forall x, ~ road F s i x) ->
  (forall k st, dj_run F k (dj0 F s) = Some st -> In i (d_left st)) /\ forall m, table F s m = None.
Proof.
  intros F s i CL Hs Hi NR.
  assert (A : forall k st, dj_run F k (dj0 F s) = Some st -> In i (d_left st)).
  { intros k st E. eapply (never_left F s i NR Hs); [| | | | |exact E].
    - intros r Hr. rewrite (cl_link F CL) in Hr. apply in_seq in Hr. lia.
    - intros a b Hb. apply nm_key in Hb. destruct Hb as [x X]. apply (lat_lt F CL a b x X).
    - intros u Hu Hd. cbn [dj0 d_dist] in Hd. unfold fupd in Hd. destruct (Nat.eqb_spec u s) as [E1|E1]; [subst u; exists 0%Z; constructor; auto|lia].
    - intros u Hu. cbn [dj0 d_left] in Hu. apply in_seq in Hu. lia.
    - cbn [dj0 d_left]. apply in_seq. lia. }
  split; auto. intros m. unfold table, route. destruct (dj_run _ _ _) as [st|] eqn:E; auto. specialize (A _ _ E). destruct (d_left st); [destruct A|reflexivity].
Qed.
Print Assumptions C101_unconnected.

(** ** C102: the network is built, it runs, every flit is accounted for and leaves the network only at its destination. *)
Theorem C102_network : forall P F b rd cd ob T ts, clean F -> short F -> connected F -> some_policy b P -> let w := any_cfg F b rd cd ob in
  adecent_run P F T w ts -> (forall m v, together (y_dest T) (on_vc v (injected ts m))) ->
  any_net F b rd cd ob = Some w /\ wired w /\
  exists s zs xs ys, net_run w ts (net0 P w) = Some (s, zs) /\ carried w ts zs s xs ys /\
    (forall r, r < w_n w -> Forall2 (reads w r) ts (xs r) /\ iq_run (w_cfg w r) (xs r) (router0 P) = Some (rt s r, ys r)) /\
    (forall r i f, r < w_n w -> i < radix F r -> In f (rx (xs r) i) -> f_head f = true -> exists p, table F r (y_dest T (f_id f)) = Some p /\ p < radix F r) /\
    Permutation (map tag (flat_map (injected ts) (seq 0 (w_nodes w)))) (map tag (flat_map (ejected zs) (seq 0 (w_nodes w)) ++ inside w s)) /\
    (forall d v, d < w_nodes w -> v < bc_vcs b -> well_formed (on_vc v (ejected zs d))) /\
    (forall d f, d < w_nodes w -> In f (ejected zs d) -> y_dest T (f_id f) = d).
Proof.
  intros P F b rd cd ob T ts CL SH CN SP w M Tg. split; [unfold any_net; rewrite (clean_fits F CL); reflexivity|]. pose proof (any_wired F CL b rd cd ob) as W. fold w in W. split; auto.
  assert (D : ndecent_run P w (any_ok F T (bc_vcs b)) ts) by (apply (any_decent_from F b rd cd ob T CL SH CN); exact M).
  destruct (net_all P w _ W SP ts D) as [s [zs [xs [ys [E N]]]]]. exists s, zs, xs, ys. split; auto. split; [apply N|]. split.
  { intros r Hr. split; [apply (ni_t _ _ _ _ _ _ _ _ N)|apply (ni_run _ _ _ _ _ _ _ _ N r Hr)]. }
  split; [|split; [eapply net_balance; eauto|]].
  - intros r i f Hr Hi Hf Hh. assert (Es : w_snk w (w_in w r i) = Some (r, i)) by (apply (wi_in w W); auto).
    assert (He : In f (entered w ts ys (w_in w r i))) by (rewrite <- (cr_flit _ _ _ _ _ _ (ni_car _ _ _ _ _ _ _ _ N) _ _ _ Es); apply in_app_iff; auto).
    assert (O : any_ok F T (bc_vcs b) (any_in F r i) f) by (apply (ni_ok _ _ _ _ _ _ _ _ N (w_in w r i) f); auto; right; congruence).
    destruct O as [_ [O2 _]]. destruct (node_router F CL _ O2) as [R [ER _]]. destruct (step_spec F CL SH CN r _ R Hr ER) as [p [Ep [Hp _]]]. eauto.
  - split; intros d; [intros v Hd Hv; destruct (C78_whole P w _ (y_dest T) ts s zs d W SP D Tg E Hd) as [_ [X _]]; apply X; auto|].
    intros f Hd Hf. destruct (C78_whole P w _ (y_dest T) ts s zs d W SP D Tg E Hd) as [_ [_ X]]. destruct (X f Hf) as [g [_ [_ [_ [G O]]]]]. rewrite <- G. destruct O as [_ [_ [_ [_ O]]]]. auto.
Qed.
Print Assumptions C102_network.
(** There is one channel for each direction of each link, with the latency of that direction, and each node is attached to its router with the latency kept for it. *)
Theorem C102_links : forall F b rd cd ob, clean F -> let w := any_cfg F b rd cd ob in
  (forall c r o r' i, w_src w (Ch c) = Some (r, o) -> w_snk w (Ch c) = Some (r', i) -> lat F r r' = Some (w_fd w (Ch c)) /\ w_cd w (Ch c) = w_fd w (Ch c)) /\
  (forall r r', lat F r r' <> None -> exists c o i, w_src w (Ch c) = Some (r, o) /\ w_snk w (Ch c) = Some (r', i) /\ forall c' o' i', w_src w (Ch c') = Some (r, o') -> w_snk w (Ch c') = Some (r', i') -> c' = c) /\
  (forall m r i, w_snk w (Inj m) = Some (r, i) -> nm_get m (an_node F) = Some r /\ nm_get m (sub r (an_local F)) = Some (w_fd w (Inj m)) /\ w_cd w (Inj m) = w_fd w (Inj m)) /\
  (forall m r o, w_src w (Ej m) = Some (r, o) -> nm_get m (an_node F) = Some r /\ nm_get m (sub r (an_local F)) = Some (w_fd w (Ej m)) /\ w_cd w (Ej m) = w_fd w (Ej m)).
Proof.
  intros F b rd cd ob CL w.
  assert (E0 : forall c r o r' i, w_src w (Ch c) = Some (r, o) -> w_snk w (Ch c) = Some (r', i) -> nth_error (links F) c = Some (r, r')).
  { intros c r o r' i E1 E2. apply (any_src F CL) in E1. apply (any_snk F CL) in E2. destruct E1 as [A1 [A2 A3]], E2 as [B1 [B2 B3]]. pose proof (any_out_at F CL r o A1 A2) as X. rewrite A3 in X. apply (at_out F CL) in X. destruct X as [X1 X2].
    pose proof (any_in_at F CL r' i B1 B2) as Y. rewrite B3 in Y. apply (at_in F CL) in Y. destruct Y as [_ Y]. rewrite (nth_some _ _ c (0, 0) X1). f_equal. rewrite (surjective_pairing (nth c (links F) (0, 0))). congruence. }
  assert (DN : forall m r, nm_get m (an_node F) = Some r -> nm_get m (sub r (an_local F)) = Some (any_delay F (Inj m))).
  { intros m r En. assert (Im : In m (locals F r)) by (apply (cl_node F CL); exact En). unfold any_delay. destruct (find _ _) as [q|] eqn:Fi.
    - apply find_some in Fi. destruct Fi as [_ Fi]. destruct (nm_get m (sub q (an_local F))) as [x|] eqn:Ex; [|discriminate]. assert (Iq : In m (locals F q)) by (apply nm_key; eauto). apply (cl_node F CL) in Iq. congruence.
    - exfalso. assert (Hr : In r (rev (map fst (an_local F)))).
      { rewrite <- in_rev. unfold locals, sub in Im. apply nm_key. destruct (nm_get r (an_local F)) as [l|] eqn:El; [eauto|destruct Im]. }
      pose proof (find_none _ _ Fi r Hr) as X. cbv beta in X. apply nm_key in Im. destruct Im as [x Ex]. rewrite Ex in X. discriminate. }
  split; [|split; [|split]].
  - intros c r o r' i E1 E2. split; [|reflexivity]. pose proof (E0 _ _ _ _ _ E1 E2) as E. change (w_fd w (Ch c)) with (any_delay F (Ch c)). unfold any_delay. rewrite E. destruct (link_at F CL c r r' E) as [_ [_ [_ [_ L]]]]. unfold lat in *. destruct (nm_get r' (adj F r)); [reflexivity|contradiction].
  - intros r r' L. apply (links_in F CL) in L. apply In_nth_error in L. destruct L as [c E]. destruct (link_at F CL c r r' E) as [H1 [H2 [H3 [H4 _]]]].
    destruct (src_at F CL (Ch c) r H1) as [o Eo]; [apply in_app_iff; right; apply in_map; auto|]. destruct (snk_at F CL (Ch c) r' H2) as [i Ei]; [apply in_app_iff; right; apply in_map; auto|]. exists c, o, i. split; auto. split; auto.
    intros c' o' i' E1 E2. pose proof (E0 _ _ _ _ _ E1 E2) as E'. apply (proj1 (NoDup_nth_error (links F)) (links_nodup F CL)); [apply nth_error_Some; congruence|congruence].
  - intros m r i E. apply (any_snk F CL) in E. destruct E as [E1 [E2 E]]. pose proof (any_in_at F CL r i E1 E2) as X. rewrite E in X. apply (at_in F CL) in X. split; auto. split; [apply (DN m r X)|reflexivity].
  - intros m r o E. apply (any_src F CL) in E. destruct E as [E1 [E2 E]]. pose proof (any_out_at F CL r o E1 E2) as X. rewrite E in X. apply (at_out F CL) in X. split; auto. split; [|reflexivity]. apply (DN m r X).
Qed.
Print Assumptions C102_links.
(** Packets from one node to another that have one virtual channel arrive in order. *)
Theorem C102_in_order : forall P F b rd cd ob T flow q m d v ts s zs, clean F -> short F -> connected F -> some_policy b P -> let w := any_cfg F b rd cd ob in
  (forall id, flow id = q -> y_src T id = m /\ y_dest T id = d /\ y_b T id = v /\ y_e T id = v) -> m < w_nodes w -> d < w_nodes w ->
  adecent_run P F T w ts -> (forall m v, together flow (on_vc v (injected ts m))) -> net_run w ts (net0 P w) = Some (s, zs) ->
  (exists r, map tag (fl flow q (injected ts m)) = map tag (fl flow q (ejected zs d)) ++ map tag r /\ forall f, In f r -> In f (inside w s) /\ flow (f_id f) = q) /\
  (forall m' f, m' < w_nodes w -> In f (injected ts m') -> flow (f_id f) = q -> m' = m) /\
  (forall d' f, d' < w_nodes w -> In f (ejected zs d') -> flow (f_id f) = q -> d' = d).
Proof.
  intros P F b rd cd ob T flow q m d v ts s zs CL SH CN SP w FL Hm Hd M Tg E. pose proof (any_wired F CL b rd cd ob) as W. fold w in W.
  assert (D : ndecent_run P w (any_ok F T (bc_vcs b)) ts) by (apply (any_decent_from F b rd cd ob T CL SH CN); exact M).
  destruct (any_one_way F b rd cd ob T CL SH CN flow q m d v FL Hm Hd) as [p OW]. eapply C79_order; eauto.
Qed.
Print Assumptions C102_in_order.

(** ** C103: if the links have ranks, such that the tables lead packets to lower ranks only, every packet arrives. *)
Lemma adecent_in : forall P F b rd cd ob T, clean F -> short F -> connected F -> some_policy b P -> let w := any_cfg F b rd cd ob in
  forall ts hts hzs s xs ys, NI P w (any_ok F T (bc_vcs b)) hts hzs s xs ys -> adecent_from F T w hts hzs ts s -> forall t, In t ts -> exists us vs, adecent F T w us vs t.
Proof.
  intros P F b rd cd ob T CL SH CN SP w ts. pose proof (any_wired F CL b rd cd ob) as W. fold w in W. induction ts as [|t ts IH]; intros hts hzs s xs ys N M u Hu; [destruct Hu|]. destruct M as [M1 M2]. destruct Hu as [<-|Hu]; [eauto|].
  destruct (net_step_ok P w _ W SP _ _ _ _ _ _ N (any_decent F b rd cd ob T CL SH CN _ _ _ M1)) as [s1 [z [xs1 [ys1 [E1 [N1 _]]]]]]. eapply IH; eauto.
Qed.
Theorem C103_ranked : forall P F b rd cd ob T rank slots, clean F -> short F -> connected F -> ranked F rank -> own_buffers b P slots -> ob <> 0%Z -> delivers_all P F b rd cd ob T slots.
Proof.
  intros P F b rd cd ob T rank slots CL SH CN RK HB HO. unfold delivers_all. set (w := any_cfg F b rd cd ob). pose proof (any_wired F CL b rd cd ob) as W. fold w in W. pose proof (own_some _ _ _ HB) as SP.
  pose proof (any_descends F b rd cd ob T CL rank RK) as HD. fold w in HD. destruct (C96_drains P w _ _ slots W HB HD) as [B HBd]; [intros; exact HO|]. exists B. intros D0 ts1 ts2 Dp M Tg Ri Ho Wh Q Ea L.
  assert (D : ndecent_run P w (any_ok F T (bc_vcs b)) (ts1 ++ ts2)) by (apply (any_decent_from F b rd cd ob T CL SH CN); exact M).
  destruct (HBd D0 ts1 ts2) as [s [zs [E [Em Pm]]]]; auto.
  - intros t Ht. destruct (adecent_in P F b rd cd ob T CL SH CN SP (ts1 ++ ts2) [] [] _ _ _ (ni0 P w _ SP) M t Ht) as [us [vs Mt]].
    split; [apply (any_leads F b rd cd ob T CL SH CN); apply Mt|]. split; [eapply (any_set_out F b rd cd ob T CL SH CN); exact Mt|auto].
  - exists s, zs. split; auto. split; auto. intros d Hd. rewrite filter_tag, (perm_filter _ _ _ _ Pm), <- filter_tag. rewrite (filter_own T (ejected zs) (w_nodes w) d); auto.
    destruct (C102_network P F b rd cd ob T (ts1 ++ ts2) CL SH CN SP M Tg) as [_ [_ [s' [zs' [xs [ys [E' [_ [_ [_ [_ [_ X]]]]]]]]]]]]. fold w in E', X. rewrite E in E'. injection E' as <- <-. exact X.
Qed.
Print Assumptions C103_ranked.
(** In a tree there are such ranks. *)
Theorem C103_tree : forall P F b rd cd ob T parent depth slots, clean F -> short F -> connected F -> tree F parent depth -> own_buffers b P slots -> ob <> 0%Z -> delivers_all P F b rd cd ob T slots.
Proof. intros P F b rd cd ob T parent depth slots CL SH CN TR HB HO. eapply C103_ranked; eauto. apply (tree_ranked F CL SH CN parent depth TR). Qed.
Print Assumptions C103_tree.
(** The file that comes with the simulator describes a network with such ranks, though it is not a tree. *)
Definition shipped_lines : list (nat * list item) := [(0, [IRouter 8 None; INode 0]); (1, [IRouter 15 None; INode 1]); (2, [IRouter 10 None; INode 2]); (3, [IRouter 11 None; IRouter 9 None; INode 3]); (4, [IRouter 12 None; INode 4]); (5, [IRouter 12 None; INode 5]); (6, [IRouter 13 None; INode 6]); (7, [IRouter 2 None; INode 7]); (8, [IRouter 3 None; INode 8]); (9, [IRouter 7 None; IRouter 2 None; INode 9]); (10, [INode 10]); (11, [IRouter 9 None; INode 11]); (12, [IRouter 13 None; INode 12]); (13, [IRouter 15 None; INode 13]); (14, [IRouter 4 None; INode 14]); (15, [IRouter 0 None; IRouter 3 None; IRouter 8 None; INode 15])].
Definition shipped_net : anyfile := match read_file shipped with Some F => F | None => an0 end.
Lemma shipped_clean : read_file shipped = Some shipped_net /\ clean shipped_net /\ described shipped_lines shipped_net.
Proof.
  destruct (good_file shipped_lines shipped 16 16 ltac:(vm_compute; reflexivity) ltac:(vm_compute; reflexivity)) as [F [E [C D]]]. unfold shipped_net. rewrite E. auto.
Qed.
Theorem C103_shipped : exists F, read_file shipped = Some F /\ an_size F = 16 /\ an_nodes F = 16 /\ (forall r, r < 16 -> locals F r = [r]) /\ clean F /\ short F /\ connected F /\
  (forall P b rd cd ob T slots, own_buffers b P slots -> ob <> 0%Z -> delivers_all P F b rd cd ob T slots).
Proof.
  destruct shipped_clean as [E [CL _]]. assert (SH : short shipped_net) by (apply (shortb_ok _ 1); vm_compute; reflexivity).
  assert (CN : connected shipped_net) by (apply (upb_ok _ [0; 15; 9; 8; 12; 12; 13; 9; 0; 3; 2; 3; 13; 15; 4; 0] [0; 2; 4; 2; 4; 4; 3; 4; 1; 3; 5; 3; 3; 2; 5; 1] CL); vm_compute; reflexivity).
  exists shipped_net. split; auto. split; [vm_compute; reflexivity|]. split; [vm_compute; reflexivity|]. split; [intros r Hr; do 16 (destruct r as [|r]; [vm_compute; reflexivity|]); lia|]. split; auto. split; auto. split; auto.
  intros P b rd cd ob T slots HB HO. apply (C103_ranked P _ b rd cd ob T (fun c => nth c [4; 4; 4; 0; 6; 0; 1; 2; 0; 4; 6; 0; 6; 5; 1; 6; 0; 3; 4; 1; 5; 0; 0; 7; 5; 2; 1; 0; 5; 0; 2; 4; 7; 0; 0; 3; 0; 3] 0) slots CL SH CN); auto. apply (rankedb_ok _ [4; 4; 4; 0; 6; 0; 1; 2; 0; 4; 6; 0; 6; 5; 1; 6; 0; 3; 4; 1; 5; 0; 0; 7; 5; 2; 1; 0; 5; 0; 2; 4; 7; 0; 0; 3; 0; 3] CL). vm_compute. reflexivity.
Qed.
Print Assumptions C103_shipped.

(** ** What the program does not do *)
(** The second example in the comment at the head of the source gives nodes 1 and 2 a latency of 5 cycles.  The program gives them 1 cycle and makes links to routers 1 and 2, which do not exist: the network cannot be built. *)
Theorem C100_node_latency_refuted : exists F, read_file ["router 0 node 0 node 1 5 node 2 5"%string] = Some F /\ an_nodes F = 3 /\
  nm_get 1 (sub 0 (an_local F)) = Some 1%Z /\ nm_get 2 (sub 0 (an_local F)) = Some 1%Z /\ lat F 0 1 = Some 5%Z /\ lat F 0 2 = Some 5%Z /\ an_size F = 1 /\ forall b rd cd ob, any_net F b rd cd ob = None.
Proof. eexists. split; [vm_compute; reflexivity|]. repeat (split; [vm_compute; reflexivity|]). intros. reflexivity. Qed.
Print Assumptions C100_node_latency_refuted.
(** A line headed by a node makes a router with the number of the node; without links, so that the tables are never finished. *)
Theorem C100_node_first_refuted : exists F, read_file ["router 0 node 0"%string; "node 1 router 0"%string] = Some F /\ an_nodes F = 2 /\ locals F 0 = [0; 1] /\ an_size F = 2 /\ locals F 1 = [] /\ adj F 1 = [] /\
  (forall k, match dj_run F k (dj0 F 0) with Some st => In 1 (d_left st) | None => False end) /\ forall m, table F 0 m = None.
Proof.
  eexists. split; [vm_compute; reflexivity|]. do 5 (split; [vm_compute; reflexivity|]).
  assert (A : forall m, table {| an_node := [(0, 0); (1, 0)]; an_local := [(0, [(0, 1%Z); (1, 1%Z)]); (1, [])]; an_link := [(0, []); (1, [])] |} 0 m = None) by (intros m; unfold table; replace (route _ 0) with (@None (list (nat * nat))) by (vm_compute; reflexivity); reflexivity).
  split; [|exact A].
  intros k. destruct k as [|[|k]]; [right; left; auto|left; auto|]. cbn [dj_run].
  set (st := {| d_dist := fupd (fun _ => max_int) 0 0%Z; d_prev := fun _ => None; d_left := [1] |}).
  change (match dj_run {| an_node := [(0, 0); (1, 0)]; an_local := [(0, [(0, 1%Z); (1, 1%Z)]); (1, [])]; an_link := [(0, []); (1, [])] |} k st with Some st0 => In 1 (d_left st0) | None => False end).
  induction k as [|k IH]; [left; auto|]. exact IH.
Qed.
Print Assumptions C100_node_first_refuted.
(** The numbers of the routers are not checked: with routers 1 and 2 only, the arrays are too small. *)
Theorem C100_routers_refuted : exists F, read_file ["router 1 node 0 router 2"%string; "router 2 node 1"%string] = Some F /\ map fst (an_link F) = [1; 2] /\ an_size F = 2 /\ lat F 1 2 = Some 1%Z /\ lat F 2 1 = Some 1%Z /\
  forall b rd cd ob, any_net F b rd cd ob = None.
Proof. eexists. split; [vm_compute; reflexivity|]. repeat (split; [vm_compute; reflexivity|]). intros. reflexivity. Qed.
Print Assumptions C100_routers_refuted.

(** ** Examples *)
(** The first example in the comment at the head of the source. *)
Example C100_reading_ex : exists D F, D = [(0, [IRouter 1 (Some 15%Z); IRouter 2 None; INode 0]); (1, [INode 1]); (2, [INode 2; IRouter 0 (Some 7%Z)])] /\
  Forall2 (fun l s => line_text l (words ""%string s)) D ["router 0 router 1 15 router 2 node 0"%string; "router 1 node 1"%string; "  router  2 node 2 router 0 7"%string] /\ agree D /\ (exists k, forall m, (exists r, names D r m) <-> m < k) /\
  read_file ["router 0 router 1 15 router 2 node 0"%string; "router 1 node 1"%string; "  router  2 node 2 router 0 7"%string] = Some F /\
  lat F 0 1 = Some 15%Z /\ lat F 1 0 = Some 1%Z /\ lat F 0 2 = Some 1%Z /\ lat F 2 0 = Some 7%Z /\ lat F 1 2 = None.
Proof.
  eexists. eexists. split; [reflexivity|]. pose proof (goodb_ok [(0, [IRouter 1 (Some 15%Z); IRouter 2 None; INode 0]); (1, [INode 1]); (2, [INode 2; IRouter 0 (Some 7%Z)])] 3 3 ltac:(vm_compute; reflexivity)) as [A1 [A2 [A3 A4]]].
  split; [|split; [exact A1|split; [exists 3; exact A2|split; [vm_compute; reflexivity|vm_compute; auto]]]].
  assert (H : forall l s, In l [(0, [IRouter 1 (Some 15%Z); IRouter 2 None; INode 0]); (1, [INode 1]); (2, [INode 2; IRouter 0 (Some 7%Z)])] -> words ""%string s = words ""%string (line_string l) -> line_text l (words ""%string s)).
  { intros [r its] s Hl E. rewrite E. apply text_read. intros q x X. pose proof (A4 _ _ _ _ Hl X). lia. }
  repeat (apply Forall2_cons; [apply H; [cbn; auto|vm_compute; reflexivity]|]). constructor.
Qed.
Example C100_text_ex : line_string (12, [INode 3; IRouter 4 (Some 150%Z); IRouter 0 None]) = "router 12 node 3 router 4 150 router 0"%string.
Proof. vm_compute. reflexivity. Qed.
Example C100_clean_ex : described shipped_lines shipped_net /\ (exists k, forall m, (exists r, names shipped_lines r m) <-> m < k) /\ (exists k, forall r, mentions shipped_lines r <-> r < k) /\
  (forall r its q x, In (r, its) shipped_lines -> In (IRouter q (Some x)) its -> (1 <= x)%Z).
Proof. destruct (goodb_ok shipped_lines 16 16 ltac:(vm_compute; reflexivity)) as [A1 [A2 [A3 A4]]]. split; [apply shipped_clean|]. split; eauto. Qed.

(** Three routers in a row, one of them with a slow link. *)
Definition row_lines : list (nat * list item) := [(0, [INode 0; IRouter 1 (Some 2%Z)]); (1, [INode 1; IRouter 2 None]); (2, [INode 2])].
Definition row_net : anyfile := match read_file (map line_string row_lines) with Some F => F | None => an0 end.
Lemma row_ok : clean row_net /\ short row_net /\ connected row_net /\ tree row_net (fun a => pred a) (fun a => a).
Proof.
  destruct (good_file row_lines _ 3 3 eq_refl ltac:(vm_compute; reflexivity)) as [F [E [C _]]]. assert (CL : clean row_net) by (unfold row_net; rewrite E; auto).
  split; auto. split; [apply (shortb_ok _ 2); vm_compute; reflexivity|]. split; [apply (upb_ok _ [0; 0; 1] [0; 1; 2] CL); vm_compute; reflexivity|].
  intros a b L. destruct (lat row_net a b) as [x|] eqn:Ex; [|congruence]. destruct (lat_lt row_net CL _ _ _ Ex) as [Ha Hb]. change (an_size row_net) with 3 in Ha, Hb.
  destruct a as [|[|[|a]]]; try lia; destruct b as [|[|[|b]]]; try lia; try (vm_compute in Ex; discriminate); cbn; auto.
Qed.
Example C101_shortest_ex : clean row_net /\ short row_net /\ connected row_net /\ an_size row_net = 3 /\ an_nodes row_net = 3 /\ travels row_net 2 0 3.
Proof.
  destruct row_ok as [CL [SH [CN _]]]. split; [exact CL|]. split; [exact SH|]. split; [exact CN|]. split; [vm_compute; reflexivity|]. split; [vm_compute; reflexivity|].
  apply (tr_hop row_net 2 0 1 0 1 2 1); [vm_compute; reflexivity|vm_compute; lia|vm_compute; reflexivity|vm_compute; reflexivity|vm_compute; reflexivity|].
  apply (tr_hop row_net 2 1 2 2 2 1 0); [vm_compute; reflexivity|vm_compute; lia|vm_compute; reflexivity|vm_compute; reflexivity|vm_compute; reflexivity|].
  apply (tr_here row_net 2 2 0); [vm_compute; reflexivity|vm_compute; lia|vm_compute; reflexivity].
Qed.
Example C101_one_way_ex : exists x, travels row_net 2 0 x.
Proof. exists 3%Z. apply C101_shortest_ex. Qed.
Example C101_unconnected_ex : exists F, read_file ["router 0 node 0"%string; "router 1 node 1"%string] = Some F /\ clean F /\ 0 < an_size F /\ 1 < an_size F /\ forall x, ~ road F 0 1 x.
Proof.
  destruct (good_file [(0, [INode 0]); (1, [INode 1])] _ 2 2 eq_refl ltac:(vm_compute; reflexivity)) as [F [E [C _]]]. exists F. vm_compute in E. injection E as <-. split; [reflexivity|]. split; [exact C|]. split; [cbn; lia|]. split; [cbn; lia|].
  intros x R. inversion R as [|a b c y z L R']. unfold lat, adj, sub in L. cbn in L. discriminate.
Qed.

(** Cycles for networks described in a file. *)
Definition ax_la (F : anyfile) (T : traffic) (f : flit) : flit :=
  {| f_id := f_id f; f_pid := f_pid f; f_head := f_head f; f_tail := f_tail f; f_vc := f_vc f; f_la := match nm_get (y_src T (f_id f)) (an_node F) with Some r => any_route F T r f | None => [] end |}.
Definition ax_tick (F : anyfile) (T : traffic) (a : ex_cycle) : tick :=
  {| t_now := fst a; t_inj := fun m => option_map (fun x => ax_la F T (snd x)) (find (fun x => Nat.eqb (fst x) m) (fst (snd a)));
     t_cred := fun d => option_map snd (find (fun x => Nat.eqb (fst x) d) (snd (snd a))); t_va := fun _ => greedy; t_sa := fun _ => greedy; t_rf := fun r _ f => any_route F T r f |}.
Fixpoint adecentb {P} (F : anyfile) (T : traffic) (w : netcfg) (hts : list tick) (hzs : list nout) (ts : list ex_cycle) (s : net P) : bool :=
  match ts with
  | [] => true
  | a :: r =>
      let t := ax_tick F T a in
      forallb (okinj T w hts hzs t) (seq 0 (w_nodes w)) && forallb (okcre w hts hzs) (snd (snd a)) &&
      match net_step w t s with Some (s', z) => adecentb F T w (hts ++ [t]) (hzs ++ [z]) r s' | None => true end
  end.
Lemma adecentb_ok : forall P F T w ts hts hzs (s : net P), adecentb F T w hts hzs ts s = true -> adecent_from F T w hts hzs (map (ax_tick F T) ts) s.
Proof.
  intros P F T w ts. induction ts as [|a ts IH]; intros hts hzs s D; [exact Logic.I|]. cbn [adecentb] in D. cbn [map adecent_from].
  apply andb_true_iff in D. destruct D as [D D3]. apply andb_true_iff in D. destruct D as [Di Dc]. rewrite forallb_forall in Di, Dc. set (t := ax_tick F T a) in *. split.
  - constructor.
    + intros. apply greedy_ok.
    + intros. apply greedy_ok.
    + intros r i f _. reflexivity.
    + intros m f Hm Ef. specialize (Di m ltac:(apply in_seq; lia)). unfold okinj in Di. rewrite Ef in Di.
      apply andb_true_iff in Di. destruct Di as [Di D4]. apply andb_true_iff in Di. destruct Di as [Di D2]. apply andb_true_iff in Di. destruct Di as [D0 D1].
      apply Nat.ltb_lt in D2. apply Z.ltb_lt in D1. split; [unfold well_formed; destruct (parse _); congruence|]. split; auto. split; auto. intros Hh. rewrite Hh in D4. cbn [negb orb] in D4.
      apply andb_true_iff in D4. destruct D4 as [D4 E5]. apply andb_true_iff in D4. destruct D4 as [D4 E4]. apply andb_true_iff in D4. destruct D4 as [D4 E3]. apply andb_true_iff in D4. destruct D4 as [E1 E2].
      apply Nat.eqb_eq in E1. apply Nat.ltb_lt in E2, E5. apply Nat.leb_le in E3, E4. split; auto. split; auto. split; auto. split; auto. intros _ r Er.
      cbn [t ax_tick t_inj] in Ef. destruct (find _ _) as [[x g]|]; [|discriminate]. cbn [option_map snd] in Ef. injection Ef as <-. cbn [ax_la f_id f_la] in *. rewrite <- E1, Er. reflexivity.
    + intros d vs Ev. cbn [t ax_tick t_cred] in Ev. destruct (find _ _) as [[x vs']|] eqn:Ef; [|discriminate]. cbn [option_map snd] in Ev. injection Ev as ->. apply find_some in Ef. destruct Ef as [Hin Ex].
      apply Nat.eqb_eq in Ex. cbn [fst] in Ex. subst x. specialize (Dc _ Hin). unfold okcre in Dc. cbn [fst snd] in Dc. rewrite forallb_forall in Dc. split.
      * apply (NoDup_count_occ Nat.eq_dec). intros v. destruct (in_dec Nat.eq_dec v vs) as [Hv|Hv]; [|rewrite (proj1 (count_occ_not_In Nat.eq_dec vs v) Hv); lia].
        specialize (Dc v Hv). apply andb_true_iff in Dc. destruct Dc as [Dc _]. apply andb_true_iff in Dc. destruct Dc as [Dc _]. apply Nat.eqb_eq in Dc. lia.
      * intros v Hv. specialize (Dc v Hv). apply andb_true_iff in Dc. destruct Dc as [Dc D2]. apply andb_true_iff in Dc. destruct Dc as [_ D1]. apply Nat.ltb_lt in D1, D2. auto.
  - intros s' z E. rewrite E in D3. apply IH; auto.
Qed.
Definition row_w (rd : bool) : netcfg := any_cfg row_net ex_b rd 1 (-1).
Definition row_ts : list tick := map (ax_tick row_net (ex_T one one)) ex_cs.
Lemma row_decent : forall rd, adecent_run (private_policy 2) row_net (ex_T one one) (row_w rd) row_ts.
Proof. intros rd. apply adecentb_ok. destruct rd; vm_compute; reflexivity. Qed.
Lemma row_together : forall m v, together ex_flow (on_vc v (injected row_ts m)) /\ together (y_dest (ex_T one one)) (on_vc v (injected row_ts m)).
Proof. intros [|[|[|m]]] [|[|v]]; split; apply togetherb_ok; vm_compute; reflexivity. Qed.
Example C102_network_ex : forall rd, some_policy ex_b (private_policy 2) /\ adecent_run (private_policy 2) row_net (ex_T one one) (row_w rd) row_ts /\ (forall m v, together (y_dest (ex_T one one)) (on_vc v (injected row_ts m))) /\
  match net_run (row_w rd) row_ts (net0 (private_policy 2) (row_w rd)) with Some (s, zs) => map (fun d => map f_id (ejected zs d)) [0; 1; 2] = [[2010]; []; [1200; 1201; 210; 200; 201; 202]]%Z /\ inside (row_w rd) s = [] | None => False end.
Proof. intros rd. split; [apply ex_pol|]. split; [apply row_decent|]. split; [apply row_together|]. destruct rd; vm_compute; auto. Qed.
Example C102_links_ex : clean row_net /\ lat row_net 0 1 = Some 2%Z /\ lat row_net 1 0 = Some 1%Z /\ map (fun c => (w_src (row_w true) (Ch c), w_snk (row_w true) (Ch c), w_fd (row_w true) (Ch c))) [0; 1] = [(Some (0, 1), Some (1, 1), 2%Z); (Some (1, 1), Some (0, 1), 1%Z)].
Proof. split; [apply row_ok|]. split; [vm_compute; reflexivity|]. split; vm_compute; reflexivity. Qed.
Example C102_in_order_ex : forall id, ex_flow id = 20 -> y_src (ex_T one one) id = 0 /\ y_dest (ex_T one one) id = 2 /\ y_b (ex_T one one) id = 0 /\ y_e (ex_T one one) id = 0.
Proof.
  intros id E. unfold ex_flow in E. assert (Q : (id / 10 = 20)%Z) by lia. cbn [ex_T y_src y_dest y_b y_e one]. replace (id / 1000)%Z with (id / 10 / 100)%Z by (rewrite Z.div_div by lia; f_equal; lia).
  replace (id / 100)%Z with (id / 10 / 10)%Z by (rewrite Z.div_div by lia; f_equal; lia). rewrite Q. auto.
Qed.
(** The packets of the first five cycles, then as many cycles as one likes in which nodes give credits only. *)
Lemma adecent_append : forall P F T w a b hts hzs (s : net P), adecent_from F T w hts hzs a s -> (forall s1 z1, net_run w a s = Some (s1, z1) -> adecent_from F T w (hts ++ a) (hzs ++ z1) b s1) -> adecent_from F T w hts hzs (a ++ b) s.
Proof.
  intros P F T w a. induction a as [|t a IH]; intros b hts hzs s Da Db; cbn [app adecent_from net_run] in *.
  - specialize (Db s [] eq_refl). rewrite !app_nil_r in Db. exact Db.
  - destruct Da as [D1 D2]. split; auto. intros s' z E. apply IH; auto. intros s1 z1 E1. rewrite E, E1 in Db. specialize (Db _ _ eq_refl). rewrite <- !app_assoc. exact Db.
Qed.
Lemma adecent_pre : forall P F T w a b hts hzs (s : net P), adecent_from F T w hts hzs (a ++ b) s -> adecent_from F T w hts hzs a s.
Proof. intros P F T w a. induction a as [|t a IH]; intros b hts hzs s D; cbn [app adecent_from] in *; auto. destruct D as [D1 D2]. split; auto. intros s' z E. apply (IH b). auto. Qed.
Lemma quiet_adecent : forall P F T w ok ts hts hzs (s : net P), (forall t, In t ts -> t_rf t = (fun r _ f => any_route F T r f) /\ quiet w t) -> ndecent_from w ok hts hzs ts s -> adecent_from F T w hts hzs ts s.
Proof.
  intros P F T w ok ts. induction ts as [|t ts IH]; intros hts hzs s H D; [exact Logic.I|]. destruct D as [D1 D2], (H t (or_introl eq_refl)) as [R Q]. split.
  - destruct D1. constructor; auto; [intros r i f _; rewrite R; reflexivity|]. intros m f Hm E. rewrite (Q m Hm) in E. discriminate.
  - intros s' z E. apply IH; auto. intros u Hu. apply H. right. auto.
Qed.
Lemma any_more : forall F b rd T P ts1 m, clean F -> short F -> connected F -> some_policy b P -> let w := any_cfg F b rd 1 (-1) in
  adecent_run P F T w ts1 -> rising ts1 -> (forall t, In t ts1 -> honest w t) -> (forall m v, together (y_dest T) (on_vc v (injected ts1 m))) ->
  exists ts2, m <= length ts2 /\ adecent_run P F T w (ts1 ++ ts2) /\ rising (ts1 ++ ts2) /\ (forall m v, together (y_dest T) (on_vc v (injected (ts1 ++ ts2) m))) /\
    (forall t, In t (ts1 ++ ts2) -> honest w t) /\ (forall t, In t ts2 -> quiet w t /\ giving w t) /\
    (forall l1 l2 l3 s zs, ts2 = l1 ++ l2 ++ l3 -> length l2 = 1 -> net_run w (ts1 ++ l1) (net0 P w) = Some (s, zs) -> eager w 2 (ts1 ++ l1) zs l2).
Proof.
  intros F b rd T P ts1 m CL SH CN HP w D Ri Ho To. pose proof (any_wired F CL b rd 1 (-1)) as W. fold w in W. set (t0 := ax_tick F T (0%Z, ([], []))).
  assert (ND : ndecent_run P w (any_ok F T (bc_vcs b)) ts1) by (apply (any_decent_from F b rd 1 (-1) T CL SH CN); exact D).
  destruct (C96_continues P w (any_ok F T (bc_vcs b)) ts1 t0 m W HP ND Ri) as [ts2 [A1 [A2 [A3 [A4 A5]]]]].
  - intros. apply greedy_ok.
  - intros. apply greedy_ok.
  - intros r i f Hr Hi Hh O. destruct (any_lawful F b rd 1 (-1) T CL SH CN r i f Hr Hi O) as [p [_ X]]. exact X.
  - exists ts2. split; [lia|]. split; [|split; [exact A3|split; [|split; [|split]]]].
    + apply adecent_append; [exact D|]. intros s1 z1 E. apply ndecent_app in A2. apply (quiet_adecent _ _ _ _ (any_ok F T (bc_vcs b))); [|apply A2; exact E].
      intros t Ht. destruct (A4 t Ht) as [_ [_ [B3 [B4 _]]]]. split; [exact B3|intros x _; apply B4].
    + intros m' v. replace (injected (ts1 ++ ts2) m') with (injected ts1 m'); [apply To|].
      unfold injected. rewrite flat_map_app. replace (flat_map (fun t => opt (t_inj t m')) ts2) with (@nil flit); [rewrite app_nil_r; reflexivity|]. symmetry. clear - A4. induction ts2 as [|t l IH]; [reflexivity|].
      cbn [flat_map]. rewrite (proj1 (proj2 (proj2 (proj2 (A4 t (or_introl eq_refl))))) m'). apply IH. intros. apply A4. right. auto.
    + intros t Ht. apply in_app_iff in Ht. destruct Ht as [Ht|Ht]; [apply Ho; exact Ht|apply (A4 t Ht)].
    + intros t Ht. destruct (A4 t Ht) as [B1 [B2 [B3 [B4 _]]]]. split; [intros x _; apply B4|]. intros r _. rewrite B1, B2. split; apply greedy_gives.
    + intros l1 [|t [|? ?]] l3 s zs El Ll Er; try discriminate. exact (A5 l1 t l3 s zs El Er 2%Z ltac:(lia)).
Qed.
Definition row_ts1 : list tick := map (ax_tick row_net (ex_T one one)) (firstn 5 ex_cs).
Lemma row_decent1 : forall rd, adecent_run (private_policy 2) row_net (ex_T one one) (row_w rd) row_ts1.
Proof. intros rd. apply adecentb_ok. destruct rd; vm_compute; reflexivity. Qed.
Lemma row_together1 : forall m v, together (y_dest (ex_T one one)) (on_vc v (injected row_ts1 m)).
Proof. intros [|[|[|m]]] [|[|v]]; apply togetherb_ok; vm_compute; reflexivity. Qed.
Lemma row_honest1 : forall rd t, In t row_ts1 -> honest (row_w rd) t.
Proof.
  intros rd t H d. unfold row_ts1 in H. apply in_map_iff in H. destruct H as [a [<- Ha]]. assert (E : snd (snd a) = []) by (cbn [firstn ex_cs map app] in Ha; destruct Ha as [<-|[<-|[<-|[<-|[<-|[]]]]]]; reflexivity).
  cbn [ax_tick t_cred]. rewrite E. cbn [find option_map]. discriminate.
Qed.
Example C103_ranked_ex : forall rd m, clean row_net /\ short row_net /\ connected row_net /\ ranked row_net (tree_rank row_net (fun a => pred a) (fun a => a)) /\ own_buffers ex_b (private_policy 2) 2 /\ amount (row_w rd) row_ts1 = 7 /\ whole (row_w rd) row_ts1 /\
  exists ts2, m <= length ts2 /\ adecent_run (private_policy 2) row_net (ex_T one one) (row_w rd) (row_ts1 ++ ts2) /\ rising (row_ts1 ++ ts2) /\ (forall m v, together (y_dest (ex_T one one)) (on_vc v (injected (row_ts1 ++ ts2) m))) /\
    (forall t, In t (row_ts1 ++ ts2) -> honest (row_w rd) t) /\ (forall t, In t ts2 -> quiet (row_w rd) t /\ giving (row_w rd) t) /\
    (forall l1 l2 l3 s zs, ts2 = l1 ++ l2 ++ l3 -> length l2 = 1 -> net_run (row_w rd) (row_ts1 ++ l1) (net0 (private_policy 2) (row_w rd)) = Some (s, zs) -> eager (row_w rd) 2 (row_ts1 ++ l1) zs l2).
Proof.
  intros rd m. destruct row_ok as [CL [SH [CN TR]]]. split; [exact CL|]. split; [exact SH|]. split; [exact CN|]. split; [exact (tree_ranked row_net CL SH CN _ _ TR)|]. split; [exact dr_own|]. split; [destruct rd; vm_compute; reflexivity|].
  split; [intros [|[|[|x]]] [|[|v]] H; try (destruct rd; vm_compute; reflexivity); destruct rd; vm_compute in H; lia|].
  exact (any_more row_net ex_b rd (ex_T one one) (private_policy 2) row_ts1 m CL SH CN ex_pol (row_decent1 rd) ltac:(apply (chain_rising _ (-1)%Z); vm_compute; intuition discriminate) (row_honest1 rd) row_together1).
Qed.
Example C103_tree_ex : tree row_net (fun a => pred a) (fun a => a) /\ lat row_net 0 1 = Some 2%Z /\ lat row_net 2 1 = Some 1%Z.
Proof. split; [apply row_ok|]. vm_compute. auto. Qed.
Example C103_shipped_ex : own_buffers ex_b (private_policy 2) 2 /\ (-1 <> 0)%Z.
Proof. split; [apply dr_own|lia]. Qed.

(** In a ring of five routers there are no such ranks: the packets from each node to the second next one wait for each other.  Here each node sends one packet of four flits; 18 cycles later all 20 flits are still inside and none has come out, although the first flit of a packet that is alone in the network comes out within 16 cycles. *)
Definition ring_lines : list (nat * list item) := [(0, [IRouter 1 None; INode 0]); (1, [IRouter 2 None; INode 1]); (2, [IRouter 3 None; INode 2]); (3, [IRouter 4 None; INode 3]); (4, [IRouter 0 None; INode 4])].
Definition ring_net : anyfile := match read_file (map line_string ring_lines) with Some F => F | None => an0 end.
Lemma ring_ok : clean ring_net /\ short ring_net /\ connected ring_net.
Proof.
  destruct (good_file ring_lines _ 5 5 eq_refl ltac:(vm_compute; reflexivity)) as [F [E [C _]]]. assert (CL : clean ring_net) by (unfold ring_net; rewrite E; auto).
  split; auto. split; [apply (shortb_ok _ 1); vm_compute; reflexivity|]. apply (upb_ok _ [0; 0; 1; 4; 0] [0; 1; 2; 2; 1] CL); vm_compute; reflexivity.
Qed.
Definition ring_pk (k : nat) : list (nat * flit) := map (fun m => (m, ex_fl (Z.of_nat (m * 1000 + ((m + 2) mod 5) * 100 + k)) (Nat.eqb k 0) (Nat.eqb k 3) 0)) [0; 1; 2; 3; 4].
Definition ring_cs : list ex_cycle := map (fun k => (Z.of_nat k, (ring_pk k, []))) [0; 1; 2; 3] ++ map (fun t => (Z.of_nat t, ([], []))) (seq 4 14).
Definition ring_cs1 : list ex_cycle := map (fun a => (fst a, (firstn 1 (fst (snd a)), snd (snd a)))) (firstn 16 ring_cs).
Theorem C103_ring_refuted : clean ring_net /\ short ring_net /\ connected ring_net /\ (forall rank, ~ ranked ring_net rank) /\
  let w := any_cfg ring_net ex_b true 1 (-1) in let ts := map (ax_tick ring_net (ex_T one one)) ring_cs in
    adecent_run (private_policy 2) ring_net (ex_T one one) w ts /\ whole w ts /\
    match net_run w ts (net0 (private_policy 2) w) with Some (s, zs) => length (inside w s) = 20 /\ flat_map (ejected zs) [0; 1; 2; 3; 4] = [] | None => False end /\
    match net_run w (map (ax_tick ring_net (ex_T one one)) ring_cs1) (net0 (private_policy 2) w) with Some (s, zs) => map f_id (ejected zs 2) = [200%Z] | None => False end.
Proof.
  destruct ring_ok as [CL [SH CN]]. split; auto. split; auto. split; auto. split.
  - intros rank RK.
    assert (H : forall a d u p c v p' c', nm_get a (an_node ring_net) = Some u -> a < 5 -> d < 5 -> table ring_net u d = Some p -> p < radix ring_net u -> any_out ring_net u p = Ch c -> nth_error (links ring_net) c = Some (u, v) ->
      table ring_net v d = Some p' -> p' < radix ring_net v -> any_out ring_net v p' = Ch c' -> rank c' < rank c) by (intros a d u p c v p' c' Ea Ha Hd H1 H2 H3 H4 H5 H6 H7; exact (RK a d u p c v p' c' Ha Hd (re_start _ a d u Ea) H1 H2 H3 H4 H5 H6 H7)).
    pose proof (H 0 2 0 1 0 1 2 3 ltac:(vm_compute; reflexivity) ltac:(lia) ltac:(lia) ltac:(vm_compute; reflexivity) ltac:(vm_compute; lia) ltac:(vm_compute; reflexivity) ltac:(vm_compute; reflexivity) ltac:(vm_compute; reflexivity) ltac:(vm_compute; lia) ltac:(vm_compute; reflexivity)).
    pose proof (H 1 3 1 2 3 2 2 5 ltac:(vm_compute; reflexivity) ltac:(lia) ltac:(lia) ltac:(vm_compute; reflexivity) ltac:(vm_compute; lia) ltac:(vm_compute; reflexivity) ltac:(vm_compute; reflexivity) ltac:(vm_compute; reflexivity) ltac:(vm_compute; lia) ltac:(vm_compute; reflexivity)).
    pose proof (H 2 4 2 2 5 3 2 7 ltac:(vm_compute; reflexivity) ltac:(lia) ltac:(lia) ltac:(vm_compute; reflexivity) ltac:(vm_compute; lia) ltac:(vm_compute; reflexivity) ltac:(vm_compute; reflexivity) ltac:(vm_compute; reflexivity) ltac:(vm_compute; lia) ltac:(vm_compute; reflexivity)).
    pose proof (H 3 0 3 2 7 4 1 8 ltac:(vm_compute; reflexivity) ltac:(lia) ltac:(lia) ltac:(vm_compute; reflexivity) ltac:(vm_compute; lia) ltac:(vm_compute; reflexivity) ltac:(vm_compute; reflexivity) ltac:(vm_compute; reflexivity) ltac:(vm_compute; lia) ltac:(vm_compute; reflexivity)).
    pose proof (H 4 1 4 1 8 0 1 0 ltac:(vm_compute; reflexivity) ltac:(lia) ltac:(lia) ltac:(vm_compute; reflexivity) ltac:(vm_compute; lia) ltac:(vm_compute; reflexivity) ltac:(vm_compute; reflexivity) ltac:(vm_compute; reflexivity) ltac:(vm_compute; lia) ltac:(vm_compute; reflexivity)).
    lia.
  - intros w ts. split; [apply adecentb_ok; vm_compute; reflexivity|]. split.
    + intros [|[|[|[|[|x]]]]] [|v] H; try (vm_compute; reflexivity); unfold w in H; cbn [any_cfg w_nodes] in H; change (an_nodes ring_net) with 5 in H; lia.
    + split; vm_compute; auto.
Qed.
Print Assumptions C103_ring_refuted.
