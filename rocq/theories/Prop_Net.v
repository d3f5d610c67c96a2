(** The network: routers joined by channels. *)
From Coq Require Import ZArith Arith Bool List Lia Permutation.
From Verif Require Import Fupd ArbiterModel AllocModel AllocSpec BufferModel BufferSpec RouteModel RouteSpec RouteProofs Prop_Route ChannelModel IqRouterModel IqRouterSpec IqRouterProofs Prop_IqRouter
  NetModel NetSpec NetProofs NetSum NetOrder NetMeshModel NetMeshSpec NetMeshProofs NetMeshOrder.
Import ListNotations.
Open Scope nat_scope.

(** ** C76: any network that is wired up runs without failing an assertion, each router has surroundings as assumed for a router alone, and
    each channel delivers what entered it, in order. *)
Theorem C76_network : forall P w ok ts, wired w -> some_policy (w_b w) P -> ndecent_run P w ok ts ->
  exists s zs xs ys, net_run w ts (net0 P w) = Some (s, zs) /\ length zs = length ts /\
    (forall r, r < w_n w -> Forall2 (reads w r) ts (xs r) /\ decent_run P (w_cfg w r) (xs r) /\ iq_run (w_cfg w r) (xs r) (router0 P) = Some (rt s r, ys r)) /\
    carried w ts zs s xs ys.
Proof.
  intros P w ok ts W SP D. destruct (net_all P w ok W SP ts D) as [s [zs [xs [ys [E N]]]]]. exists s, zs, xs, ys. split; auto.
  destruct (ni_t _ _ _ _ _ _ _ _ N) as [L F]. split; auto. split; [|apply N]. intros r Hr. destruct (ni_run _ _ _ _ _ _ _ _ N r Hr). auto.
Qed.
Print Assumptions C76_network.

(** ** C77: no flit is lost, doubled or changed. *)
Theorem C77_conservation : forall P w ok ts s zs, wired w -> some_policy (w_b w) P -> ndecent_run P w ok ts -> net_run w ts (net0 P w) = Some (s, zs) ->
  Permutation (map tag (flat_map (injected ts) (seq 0 (w_nodes w)))) (map tag (flat_map (ejected zs) (seq 0 (w_nodes w)) ++ inside w s)).
Proof.
  intros P w ok ts s zs W SP D E. destruct (net_all P w ok W SP ts D) as [s' [zs' [xs [ys [E' N]]]]]. rewrite E in E'. injection E' as <- <-. eapply net_balance; eauto.
Qed.
Print Assumptions C77_conservation.

(** ** C78: on each virtual channel of each node packets come out whole and one after the other, and only where their heads were allowed to go;
    flits that went in together come out together. *)
Theorem C78_whole : forall P w ok flow ts s zs d, wired w -> some_policy (w_b w) P -> ndecent_run P w ok ts -> (forall n v, together flow (on_vc v (injected ts n))) ->
  net_run w ts (net0 P w) = Some (s, zs) -> d < w_nodes w ->
  (forall f, In f (ejected zs d) -> f_vc f < bc_vcs (w_b w)) /\
  (forall v, v < bc_vcs (w_b w) -> well_formed (on_vc v (ejected zs d)) /\ together flow (on_vc v (ejected zs d))) /\
  (forall f, In f (ejected zs d) -> exists g, In g (ejected zs d) /\ f_head g = true /\ f_vc g = f_vc f /\ flow (f_id g) = flow (f_id f) /\ ok (Ej d) g).
Proof.
  intros P w ok flow ts s zs d W SP D T E Hd. destruct (net_all_flow P w ok flow W SP ts D T) as [s' [zs' [xs [ys [E' [N Tg]]]]]]. rewrite E in E'. injection E' as <- <-.
  assert (Hc : chan_of w (Ej d)) by (left; apply (wi_ej w W d); auto). destruct (w_src w (Ej d)) as [[r o]|] eqn:Es; [|apply (wi_ej w W d) in Hd; congruence].
  pose proof (cr_eject _ _ _ _ _ _ (ni_car _ _ _ _ _ _ _ _ N) d r o Es) as Ee. destruct (entered_vcs P w ok W SP ts zs s xs ys N (Ej d) Hc) as [A B]. rewrite <- Ee in A, B. rewrite Forall_app, !Forall_forall in A.
  assert (Wv : forall v, v < bc_vcs (w_b w) -> well_formed (on_vc v (ejected zs d)) /\ together flow (on_vc v (ejected zs d))).
  { intros v Hv. specialize (B v Hv). pose proof (Tg (Ej d) v Hc Hv) as Tv. rewrite <- Ee in Tv. rewrite on_vc_app in B, Tv. split; [eapply parse_pre; exact B|eapply together_pre; exact Tv]. }
  split; [apply A|]. split; auto. intros f Hf. destruct (Wv (f_vc f) (proj1 A f Hf)) as [Wf Tf].
  destruct (head_before flow (on_vc (f_vc f) (ejected zs d)) f Wf Tf) as [g [G1 [G2 G3]]]; [apply filter_In; split; auto; apply Nat.eqb_refl|].
  apply filter_In in G1. destruct G1 as [G1 G4]. apply Nat.eqb_eq in G4. exists g. split; auto. split; auto. split; auto. split; auto.
  apply (ni_ok _ _ _ _ _ _ _ _ N (Ej d) g Hc); auto. rewrite <- Ee. apply in_app_iff. auto.
Qed.
Print Assumptions C78_whole.

(** ** C79: a flow with one way through the network comes out in the order in which it went in, and nowhere else. *)
Theorem C79_order : forall P w ok flow k n d p ts s zs, wired w -> some_policy (w_b w) P -> ndecent_run P w ok ts -> (forall n v, together flow (on_vc v (injected ts n))) ->
  one_way w ok flow k n d p -> net_run w ts (net0 P w) = Some (s, zs) ->
  (exists q, map tag (fl flow k (injected ts n)) = map tag (fl flow k (ejected zs d)) ++ map tag q /\ forall f, In f q -> In f (inside w s) /\ flow (f_id f) = k) /\
  (forall m f, m < w_nodes w -> In f (injected ts m) -> flow (f_id f) = k -> m = n) /\
  (forall m f, m < w_nodes w -> In f (ejected zs m) -> flow (f_id f) = k -> m = d).
Proof.
  intros P w ok flow k n d p ts s zs W SP D T OW E. destruct (net_all_flow P w ok flow W SP ts D T) as [s' [zs' [xs [ys [E' [N Tg]]]]]]. rewrite E in E'. injection E' as <- <-.
  split; [eapply flow_order; eauto|]. split; [eapply flow_from; eauto|eapply flow_to; eauto].
Qed.
Print Assumptions C79_order.

(** ** C80: meshes and tori are such networks. *)
Theorem C80_cube_wired : forall mesh nl k n b rd cd ob, (1 <= k)%Z -> wired (cube mesh nl k n b rd cd ob).
Proof. intros. apply cube_wired. auto. Qed.
Print Assumptions C80_cube_wired.

(** In a mesh, with a routing function that delivers and offers one output: the network runs, no call of the routing function fails, every flit is
    accounted for, and it leaves the network only at its destination. *)
Theorem C80_cube : forall P mesh nl k n b rd cd ob rf T dist box lk ts, (1 <= k)%Z -> let w := cube mesh nl k n b rd cd ob in
  (forall id, y_b T id <= y_e T id < bc_vcs b -> delivers rf k n (Z.of_nat (y_b T id)) (Z.of_nat (y_e T id)) dist box lk) -> one_output rf -> some_policy b P ->
  mdecent_run P rf k n T w ts -> (forall m v, together (y_dest T) (on_vc v (injected ts m))) ->
  exists s zs xs ys, net_run w ts (net0 P w) = Some (s, zs) /\ carried w ts zs s xs ys /\
    (forall r, r < w_n w -> Forall2 (reads w r) ts (xs r) /\ iq_run (w_cfg w r) (xs r) (router0 P) = Some (rt s r, ys r)) /\
    (forall r i f res, r < w_n w -> i < 2 * n + 1 -> In f (rx (xs r) i) -> f_head f = true -> rf tt (asked T r i f) res -> exists es, res = Some (es, tt) /\ es <> []) /\
    Permutation (map tag (flat_map (injected ts) (seq 0 (w_nodes w)))) (map tag (flat_map (ejected zs) (seq 0 (w_nodes w)) ++ inside w s)) /\
    (forall d v, d < w_nodes w -> v < bc_vcs b -> well_formed (on_vc v (ejected zs d))) /\
    (forall d f, d < w_nodes w -> In f (ejected zs d) -> y_dest T (f_id f) = d).
Proof.
  intros P mesh nl k n b rd cd ob rf T dist box lk ts K w DV ONE SP M Tg. pose proof (cube_wired k n K mesh nl b rd cd ob) as W. fold w in W.
  assert (D : ndecent_run P w (head_ok rf k n T (bc_vcs b)) ts) by (apply (cube_decent_from k n K mesh nl b rd cd ob rf T dist box lk DV ONE); exact M).
  destruct (net_all P w _ W SP ts D) as [s [zs [xs [ys [E N]]]]]. exists s, zs, xs, ys. split; auto. split; [apply N|]. split.
  { intros r Hr. split; [apply (ni_t _ _ _ _ _ _ _ _ N)|apply (ni_run _ _ _ _ _ _ _ _ N r Hr)]. }
  split; [|split; [eapply net_balance; eauto|]].
  - intros r i f res Hr Hi Hf Hh R. assert (Es : w_snk w (w_in w r i) = Some (r, i)) by (apply (wi_in w W); auto).
    assert (He : In f (entered w ts ys (w_in w r i))) by (rewrite <- (cr_flit _ _ _ _ _ _ (ni_car _ _ _ _ _ _ _ _ N) _ _ _ Es); apply in_app_iff; auto).
    destruct (ni_ok _ _ _ _ _ _ _ _ N (w_in w r i) f ltac:(right; congruence) He Hh) as [O _].
    destruct (lawful_of k n K mesh nl b rd cd ob rf T dist box lk DV ONE r i f res Hr Hi O R) as [es [[] [-> [NE _]]]]. eauto.
  - split.
    + intros d v Hd Hv. destruct (C78_whole P w _ _ ts s zs d W SP D Tg E Hd) as [_ [A _]]. apply A. exact Hv.
    + intros d f Hd Hf. destruct (C78_whole P w _ _ ts s zs d W SP D Tg E Hd) as [_ [_ A]]. destruct (A f Hf) as [g [_ [_ [_ [Eg O]]]]]. rewrite <- Eg. symmetry. apply O.
Qed.
Print Assumptions C80_cube.

(** The routing functions that offer one output. *)
Lemma pure_one : forall f : RouteModel.rin -> option (list oelem), (forall x es, f x = Some es -> length es <= 1) -> one_output (rf_pure f).
Proof. intros f H s x es s' R. unfold rf_pure in R. destruct (f x) as [l|] eqn:E; [|discriminate]. injection R as -> ->. apply (H _ _ E). Qed.
Lemma dor_one : forall k n, one_output (rf_dor k n).
Proof. intros k n. apply pure_one. intros x es E. unfold dim_order_mesh in E. destruct (negb _); [discriminate|]. injection E as <-. cbn. lia. Qed.
Lemma ni_one : forall k n, one_output (rf_ni k n).
Proof.
  intros k n. apply pure_one. intros x es E. unfold dim_order_ni_mesh in E. destruct (negb _); [discriminate|]. destruct (_ || _); [destruct (_ <=? _)%Z; [discriminate|]|]; injection E as <-; cbn; lia.
Qed.
Lemma pni_one : forall k n, one_output (rf_pni k n).
Proof.
  intros k n. apply pure_one. intros x es E. unfold dim_order_pni_mesh in E. destruct (negb _); [discriminate|]. cbv zeta in E. destruct (_ || _); [destruct (_ <=? _)%Z; [discriminate|]|]; injection E as <-; cbn; lia.
Qed.
Lemma xy_one : forall k n, one_output (rf_xy k n).
Proof.
  intros k n s x es s' [xy R]. revert s x es s' R. apply pure_one. intros x es E. unfold xy_yx_mesh in E. repeat match type of E with context [if ?c then _ else _] => destruct c end; try discriminate; injection E as <-; cbn; lia.
Qed.
Theorem C80_routing : forall k n b e, (1 <= k)%Z ->
  (one_output (rf_dor k n) /\ delivers (rf_dor k n) k n b e (mesh_dist k n) (in_box k n) (mesh_link k n)) /\
  ((k ^ Z.of_nat n <= e - b + 1)%Z -> one_output (rf_ni k n) /\ delivers (rf_ni k n) k n b e (mesh_dist k n) (in_box k n) (mesh_link k n)) /\
  ((k <= e - b + 1)%Z -> one_output (rf_pni k n) /\ delivers (rf_pni k n) k n b e (mesh_dist k n) (in_box k n) (mesh_link k n)) /\
  ((2 <= e - b + 1)%Z -> one_output (rf_xy k n) /\ delivers (rf_xy k n) k n b e (mesh_dist k n) (in_box k n) (mesh_link k n)).
Proof.
  intros k n b e K. split; [split; [apply dor_one|apply C36_dim_order; auto]|]. split; [intros; split; [apply ni_one|apply C36_per_destination; auto]|].
  split; [intros; split; [apply pni_one|apply C36_per_destination; auto]|]. intros. split; [apply xy_one|apply C36_xy_yx; auto].
Qed.
Print Assumptions C80_routing.

(** ** C81: with dimension-order routing, flits of one source, destination and type stay in order if the type has one virtual channel. *)
Theorem C81_in_order : forall P mesh nl k n b rd cd ob T flow q m d v ts s zs, (1 <= k)%Z -> let w := cube mesh nl k n b rd cd ob in some_policy b P ->
  (forall id, flow id = q -> y_src T id = m /\ y_dest T id = d /\ y_b T id = v /\ y_e T id = v) -> m < w_nodes w -> d < w_nodes w -> v < bc_vcs b ->
  mdecent_run P (rf_dor k n) k n T w ts -> (forall m v, together flow (on_vc v (injected ts m))) -> net_run w ts (net0 P w) = Some (s, zs) ->
  (exists r, map tag (fl flow q (injected ts m)) = map tag (fl flow q (ejected zs d)) ++ map tag r /\ forall f, In f r -> In f (inside w s) /\ flow (f_id f) = q) /\
  (forall m' f, m' < w_nodes w -> In f (injected ts m') -> flow (f_id f) = q -> m' = m) /\
  (forall d' f, d' < w_nodes w -> In f (ejected zs d') -> flow (f_id f) = q -> d' = d).
Proof.
  intros P mesh nl k n b rd cd ob T flow q m d v ts s zs K w SP FL Hm Hd Hv M Tg E. pose proof (cube_wired k n K mesh nl b rd cd ob) as W. fold w in W.
  assert (DV : forall b e, delivers (rf_dor k n) k n b e (mesh_dist k n) (in_box k n) (mesh_link k n)) by (intros; apply C36_dim_order; auto).
  assert (D : ndecent_run P w (head_ok (rf_dor k n) k n T (bc_vcs b)) ts) by (eapply (cube_decent_from k n K mesh nl b rd cd ob (rf_dor k n) T _ _ _ (fun _ _ => DV _ _) (dor_one k n)); exact M).
  destruct (cube_one_way k n mesh nl b rd cd ob (rf_dor k n) T (mesh_dist k n) (in_box k n) (mesh_link k n) (fun u d => dor_next_mesh k n (k ^ Z.of_nat n) false u d) K) with (flow := flow) (q := q) (m := m) (d := d) (v := v) as [p OW]; auto.
  - intros x es s0 e Hi R He. unfold rf_dor, rf_pure, dim_order_mesh in R. destruct (negb _); [discriminate|]. rewrite Hi in R. injection R as -> _. destruct He as [<-|[]]. reflexivity.
  - intros. apply mesh_dist_nonneg.
  - intros a Ga. apply mesh_dist_0; auto.
  - eapply C79_order; eauto.
Qed.
Print Assumptions C81_in_order.

(** ** Examples *)
(** The number of a flit says where it comes from and goes to, and its type: [lo] and [hi] are the channels of a type. *)
Definition ex_T (lo hi : nat -> nat) : traffic :=
  {| y_src := fun i => Z.to_nat (i / 1000); y_dest := fun i => Z.to_nat (i / 100 mod 10);
     y_b := fun i => lo (Z.to_nat (i / 10 mod 10)); y_e := fun i => hi (Z.to_nat (i / 10 mod 10)) |}.
Definition ex_dor (k : Z) (n : nat) (T : traffic) (r i : nat) (f : flit) : list oelem :=
  match dim_order_mesh k n (k ^ Z.of_nat n) (asked T r i f) with Some es => es | None => [] end.
(** A packet of [l] flits on channel [v], numbered from [i]. *)
Definition ex_fl (i : Z) (h t : bool) (v : nat) : flit := {| f_id := i; f_pid := i / 10; f_head := h; f_tail := t; f_vc := v; f_la := [] |}.
(** With routes computed in advance, a node has to compute the first one. *)
Definition ex_la (k : Z) (n : nat) (T : traffic) (f : flit) : flit :=
  {| f_id := f_id f; f_pid := f_pid f; f_head := f_head f; f_tail := f_tail f; f_vc := f_vc f; f_la := ex_dor k n T (y_src T (f_id f)) (2 * n) f |}.
Definition ex_cycle : Type := Z * (list (nat * flit) * list (nat * list nat)).
Definition ex_tick (k : Z) (n : nat) (T : traffic) (a : ex_cycle) : tick :=
  {| t_now := fst a; t_inj := fun m => option_map (fun x => ex_la k n T (snd x)) (find (fun x => Nat.eqb (fst x) m) (fst (snd a)));
     t_cred := fun d => option_map snd (find (fun x => Nat.eqb (fst x) d) (snd (snd a))); t_va := fun _ => greedy; t_sa := fun _ => greedy; t_rf := ex_dor k n T |}.

(** A decision procedure for [mdecent_run], for these cycles. *)
Definition okinj (T : traffic) (w : netcfg) (hts : list tick) (hzs : list nout) (t : tick) (m : nat) : bool :=
  match t_inj t m with
  | None => true
  | Some f => match parse (on_vc (f_vc f) (injected hts m ++ [f])) with Some _ => true | None => false end &&
              (Z.of_nat (length (injected hts m)) - Z.of_nat (length (returned hzs m)) <? bc_size (w_b w))%Z && Nat.ltb (f_vc f) (bc_vcs (w_b w)) &&
              (negb (f_head f) || (Nat.eqb m (y_src T (f_id f)) && Nat.ltb (y_dest T (f_id f)) (w_nodes w) && Nat.leb (y_b T (f_id f)) (f_vc f) && Nat.leb (f_vc f) (y_e T (f_id f)) &&
                 Nat.ltb (y_e T (f_id f)) (bc_vcs (w_b w))))
  end.
Definition okcre (w : netcfg) (hts : list tick) (hzs : list nout) (a : nat * list nat) : bool :=
  forallb (fun v => Nat.eqb (count_occ Nat.eq_dec (snd a) v) 1 && Nat.ltb v (bc_vcs (w_b w)) && Nat.ltb (count_occ Nat.eq_dec (credited hts (fst a)) v) (length (on_vc v (ejected hzs (fst a))))) (snd a).
Fixpoint mdecentb {P} (k : Z) (n : nat) (T : traffic) (w : netcfg) (hts : list tick) (hzs : list nout) (ts : list ex_cycle) (s : net P) : bool :=
  match ts with
  | [] => true
  | a :: r =>
      let t := ex_tick k n T a in
      forallb (okinj T w hts hzs t) (seq 0 (w_nodes w)) && forallb (okcre w hts hzs) (snd (snd a)) &&
      match net_step w t s with Some (s', z) => mdecentb k n T w (hts ++ [t]) (hzs ++ [z]) r s' | None => true end
  end.
Lemma dor_some : forall k n T r i f, ri_inject (asked T r i f) = false -> y_b T (f_id f) <= f_vc f <= y_e T (f_id f) -> exists es, dim_order_mesh k n (k ^ Z.of_nat n) (asked T r i f) = Some es.
Proof.
  intros k n T r i f _ H. unfold dim_order_mesh, vc_assert. cbn [asked at_router ri_inject ri_vc ri_b ri_e].
  rewrite !(proj2 (Z.leb_le _ _)) by lia. cbn. eauto.
Qed.
Lemma mdecentb_ok : forall P k n T mesh nl b rd cd ob ts hts hzs (s : net P), mdecentb k n T (cube mesh nl k n b rd cd ob) hts hzs ts s = true ->
  mdecent_from (rf_dor k n) k n T (cube mesh nl k n b rd cd ob) hts hzs (map (ex_tick k n T) ts) s.
Proof.
  intros P k n T mesh nl b rd cd ob. set (w := cube mesh nl k n b rd cd ob). intros ts. induction ts as [|a ts IH]; intros hts hzs s D; [exact Logic.I|]. cbn [mdecentb] in D. cbn [map mdecent_from].
  apply andb_true_iff in D. destruct D as [D D3]. apply andb_true_iff in D. destruct D as [Di Dc]. rewrite forallb_forall in Di, Dc. set (t := ex_tick k n T a) in *. split.
  - constructor.
    + intros. apply greedy_ok.
    + intros. apply greedy_ok.
    + intros r i f _. cbn [t ex_tick t_rf]. unfold ex_dor. exists (match dim_order_mesh k n (k ^ Z.of_nat n) (asked T r i f) with Some es => Some (es, tt) | None => None end).
      split; [reflexivity|]. destruct (dim_order_mesh _ _ _ _); reflexivity.
    + intros m f Hm Ef. specialize (Di m ltac:(apply in_seq; lia)). unfold okinj in Di. rewrite Ef in Di.
      apply andb_true_iff in Di. destruct Di as [Di D4]. apply andb_true_iff in Di. destruct Di as [Di D2]. apply andb_true_iff in Di. destruct Di as [D0 D1].
      apply Nat.ltb_lt in D2. apply Z.ltb_lt in D1. split; [unfold well_formed; destruct (parse _); congruence|]. split; auto. split; auto. intros Hh. rewrite Hh in D4. cbn [negb orb] in D4.
      apply andb_true_iff in D4. destruct D4 as [D4 E5]. apply andb_true_iff in D4. destruct D4 as [D4 E4]. apply andb_true_iff in D4. destruct D4 as [D4 E3]. apply andb_true_iff in D4. destruct D4 as [E1 E2].
      apply Nat.eqb_eq in E1. apply Nat.ltb_lt in E2, E5. apply Nat.leb_le in E3, E4. split; auto. split; auto. split; auto. split; auto. intros _. exists tt.
      destruct (dor_some k n T m (2 * n) f eq_refl (conj E3 E4)) as [es Es]. unfold rf_dor, rf_pure. rewrite Es. f_equal. f_equal.
      assert (Ela : f_la f = ex_dor k n T (y_src T (f_id f)) (2 * n) f).
      { cbn [t ex_tick t_inj] in Ef. destruct (find _ _) as [[x g]|]; [|discriminate]. cbn [option_map snd] in Ef. injection Ef as <-. reflexivity. }
      rewrite Ela. unfold ex_dor. rewrite <- E1, Es. reflexivity.
    + intros d vs Ev. cbn [t ex_tick t_cred] in Ev. destruct (find _ _) as [[x vs']|] eqn:Ef; [|discriminate]. cbn [option_map snd] in Ev. injection Ev as ->. apply find_some in Ef. destruct Ef as [Hin Ex].
      apply Nat.eqb_eq in Ex. cbn [fst] in Ex. subst x. specialize (Dc _ Hin). unfold okcre in Dc. cbn [fst snd] in Dc. rewrite forallb_forall in Dc. split.
      * apply (NoDup_count_occ Nat.eq_dec). intros v. destruct (in_dec Nat.eq_dec v vs) as [Hv|Hv]; [|rewrite (proj1 (count_occ_not_In Nat.eq_dec vs v) Hv); lia].
        specialize (Dc v Hv). apply andb_true_iff in Dc. destruct Dc as [Dc _]. apply andb_true_iff in Dc. destruct Dc as [Dc _]. apply Nat.eqb_eq in Dc. lia.
      * intros v Hv. specialize (Dc v Hv). apply andb_true_iff in Dc. destruct Dc as [Dc D2]. apply andb_true_iff in Dc. destruct Dc as [_ D1]. apply Nat.ltb_lt in D1, D2. auto.
  - intros s' z E. rewrite E in D3. apply IH; auto.
Qed.
Definition ex_b : bcfg := {| bc_vcs := 2; bc_size := 4; bc_wait := false |}.
(** A row of three nodes; two types with a channel each.  Nodes 0 and 1 send to 2, node 2 sends to 0. *)
Definition ex_cs : list ex_cycle :=
  [(0%Z, ([(0, ex_fl 200 true false 0); (1, ex_fl 1200 true false 0); (2, ex_fl 2010 true true 1)], []));
   (1%Z, ([(0, ex_fl 201 false true 0); (1, ex_fl 1201 false true 0)], []));
   (2%Z, ([(0, ex_fl 202 true true 0)], []));
   (3%Z, ([(0, ex_fl 210 true true 1)], []))] ++ map (fun t => (t, ([], []))) [4;5;6;7;8;9;10;11;12;13;14;15]%Z ++
  [(16%Z, ([], [(2, [0])])); (17%Z, ([], [(2, [0]); (0, [1])]))] ++ map (fun t => (t, ([], []))) [18;19;20;21;22;23]%Z ++ [(24%Z, ([], [(2, [0; 1])]))] ++ map (fun t => (t, ([], []))) [25;26;27;28;29;30]%Z.
Definition ex_w (rd : bool) : netcfg := cube true true 3 1 ex_b rd 1 (-1).
Definition seen {P} (r : option (net P * list nout)) (l : list nat) : option (list (list (Z * nat))) :=
  match r with Some (_, zs) => Some (map (fun d => map (fun f => (f_id f, f_vc f)) (ejected zs d)) l) | None => None end.
Definition one (x : nat) : nat := x.
Fixpoint togetherb (flow : Z -> nat) (l : list flit) : bool :=
  match l with a :: ((b :: _) as r) => (f_tail a || Nat.eqb (flow (f_id b)) (flow (f_id a))) && togetherb flow r | _ => true end.
Lemma togetherb_ok : forall flow l, togetherb flow l = true -> together flow l.
Proof.
  intros flow l. induction l as [|a l IH]; intros H l1 x y l2 E; [destruct l1; discriminate|]. destruct l as [|b l]; [destruct l1 as [|? [|? ?]]; discriminate|].
  change (togetherb flow (a :: b :: l)) with ((f_tail a || Nat.eqb (flow (f_id b)) (flow (f_id a))) && togetherb flow (b :: l)) in H.
  apply andb_true_iff in H. destruct H as [H1 H2]. destruct l1 as [|z l1].
  - injection E as <- <- _. intros Ht. rewrite Ht in H1. cbn [orb] in H1. apply Nat.eqb_eq. exact H1.
  - injection E as _ E. apply (IH H2 _ _ _ _ E).
Qed.
Definition ex_ts : list tick := map (ex_tick 3 1 (ex_T one one)) ex_cs.
(** Source, destination and type. *)
Definition ex_flow (i : Z) : nat := Z.to_nat (i / 10).
Lemma ex_pol : some_policy ex_b (private_policy 2).
Proof. apply (po_private _ (-1) 2); [lia|cbn; lia|reflexivity]. Qed.
Lemma ex_decent : forall rd, mdecent_run (private_policy 2) (rf_dor 3 1) 3 1 (ex_T one one) (ex_w rd) ex_ts.
Proof. intros rd. apply mdecentb_ok. destruct rd; vm_compute; reflexivity. Qed.
Lemma ex_ndecent : forall rd, ndecent_run (private_policy 2) (ex_w rd) (head_ok (rf_dor 3 1) 3 1 (ex_T one one) 2) ex_ts.
Proof.
  intros rd. apply (cube_decent_from 3 1 ltac:(lia) true true ex_b rd 1 (-1) (rf_dor 3 1) (ex_T one one) _ _ _ (fun _ _ => C36_dim_order 3 1 _ _ ltac:(lia)) (dor_one 3 1)). apply ex_decent.
Qed.
Lemma ex_together : forall m v, together ex_flow (on_vc v (injected ex_ts m)) /\ together (y_dest (ex_T one one)) (on_vc v (injected ex_ts m)).
Proof. intros [|[|[|m]]] [|[|v]]; split; apply togetherb_ok; vm_compute; reflexivity. Qed.

Example C76_network_ex : forall rd, wired (ex_w rd) /\ some_policy (w_b (ex_w rd)) (private_policy 2) /\ ndecent_run (private_policy 2) (ex_w rd) (head_ok (rf_dor 3 1) 3 1 (ex_T one one) 2) ex_ts.
Proof. intros rd. split; [apply cube_wired; lia|]. split; [apply ex_pol|apply ex_ndecent]. Qed.
(** In the first twelve cycles some flits have come out and others are in the network; in the end all have. *)
Example C77_conservation_ex : forall rd,
  match net_run (ex_w rd) (firstn 12 ex_ts) (net0 (private_policy 2) (ex_w rd)) with
  | Some (s, zs) => map f_id (flat_map (ejected zs) [0; 1; 2]) <> [] /\ map f_id (inside (ex_w rd) s) <> [] /\ length (flat_map (ejected zs) [0; 1; 2]) + length (inside (ex_w rd) s) = 7
  | None => False end /\
  match net_run (ex_w rd) ex_ts (net0 (private_policy 2) (ex_w rd)) with
  | Some (s, zs) => map f_id (flat_map (ejected zs) [0; 1; 2]) = [2010; 1200; 1201; 210; 200; 201; 202]%Z /\ inside (ex_w rd) s = []
  | None => False end.
Proof. intros [|]; vm_compute; repeat split; discriminate. Qed.
Example C78_whole_ex : (forall m v, together ex_flow (on_vc v (injected ex_ts m))) /\
  match net_run (ex_w false) ex_ts (net0 (private_policy 2) (ex_w false)) with
  | Some (s, zs) => map f_id (on_vc 0 (ejected zs 2)) = [1200; 1201; 200; 201; 202]%Z /\ map f_id (on_vc 1 (ejected zs 2)) = [210]%Z
  | None => False end.
Proof. split; [intros m v; apply ex_together|]. vm_compute. auto. Qed.
Lemma ex_way : exists p, one_way (ex_w true) (head_ok (rf_dor 3 1) 3 1 (ex_T one one) 2) ex_flow 20 0 2 p.
Proof.
  apply (cube_one_way 3 1 true true ex_b true 1 (-1) (rf_dor 3 1) (ex_T one one) (mesh_dist 3 1) (in_box 3 1) (mesh_link 3 1) (fun u d => dor_next_mesh 3 1 3 false u d)) with (v := 0); try lia.
  - intros x es s0 e Hi R He. unfold rf_dor, rf_pure, dim_order_mesh in R. destruct (negb _); [discriminate|]. rewrite Hi in R. injection R as -> _. destruct He as [<-|[]]. reflexivity.
  - intros. apply mesh_dist_nonneg.
  - intros a Ga. apply mesh_dist_0; auto. lia.
  - intros id E. unfold ex_flow in E. assert (Q : (id / 10 = 20)%Z) by lia. cbn [ex_T y_src y_dest y_b y_e]. unfold one.
    replace (id / 1000)%Z with (id / 10 / 100)%Z by (rewrite Z.div_div; [f_equal|lia|lia]). replace (id / 100)%Z with (id / 10 / 10)%Z by (rewrite Z.div_div; [f_equal|lia|lia]). rewrite Q. auto.
  - apply C36_dim_order. lia.
  - vm_compute. lia.
  - vm_compute. lia.
Qed.
Example C79_order_ex : (exists p, one_way (ex_w true) (head_ok (rf_dor 3 1) 3 1 (ex_T one one) 2) ex_flow 20 0 2 p) /\
  match net_run (ex_w true) ex_ts (net0 (private_policy 2) (ex_w true)) with
  | Some (s, zs) => map f_id (fl ex_flow 20 (ejected zs 2)) = [200; 201; 202]%Z /\ map f_id (ejected zs 2) = [1200; 1201; 210; 200; 201; 202]%Z
  | None => False end.
Proof. split; [apply ex_way|]. vm_compute. auto. Qed.
(** A torus of sixteen nodes: the router to the right of node 3 is node 0, below node 1 is node 13. *)
Example C80_cube_wired_ex : let w := cube false true 4 2 ex_b true 1 (-1) in
  w_chans w = 64 /\ w_snk w (w_out w 3 0) = Some (0, 1) /\ w_snk w (w_out w 1 3) = Some (13, 2) /\ w_src w (w_in w 0 1) = Some (3, 0) /\ w_snk w (Inj 5) = Some (5, 4) /\ w_src w (Ej 15) = Some (15, 4) /\
  w_fd w (Ch 63) = 2%Z /\ w_fd w (Inj 0) = 1%Z.
Proof. vm_compute. auto 10. Qed.
Example C80_cube_ex : forall rd, some_policy ex_b (private_policy 2) /\ mdecent_run (private_policy 2) (rf_dor 3 1) 3 1 (ex_T one one) (ex_w rd) ex_ts /\
  (forall m v, together (y_dest (ex_T one one)) (on_vc v (injected ex_ts m))).
Proof. intros rd. split; [apply ex_pol|]. split; [apply ex_decent|intros m v; apply ex_together]. Qed.
(** Router 1 forwards to the right on the second channel only. *)
Example C80_routing_ex : rf_dor 3 1 tt (asked (ex_T one one) 1 1 (ex_fl 210 true true 1)) (Some ([{| o_port := 0; o_lo := 1; o_hi := 1; o_pri := 0 |}], tt)) /\ (3 ^ Z.of_nat 1 <= 4 - 2 + 1)%Z.
Proof. split; [reflexivity|cbn; lia]. Qed.
Example C81_in_order_ex : (forall id, ex_flow id = 20 -> y_src (ex_T one one) id = 0 /\ y_dest (ex_T one one) id = 2 /\ y_b (ex_T one one) id = 0 /\ y_e (ex_T one one) id = 0) /\
  (forall m v, together ex_flow (on_vc v (injected ex_ts m))) /\ mdecent_run (private_policy 2) (rf_dor 3 1) 3 1 (ex_T one one) (ex_w true) ex_ts /\
  match net_run (ex_w true) (firstn 24 ex_ts) (net0 (private_policy 2) (ex_w true)) with
  | Some (s, zs) => map f_id (fl ex_flow 20 (ejected zs 2)) = [200; 201]%Z /\ map f_id (inside (ex_w true) s) = [202]%Z
  | None => False end.
Proof.
  split; [|split; [intros m v; apply ex_together|split; [apply ex_decent|vm_compute; auto]]].
  intros id E. unfold ex_flow in E. assert (Q : (id / 10 = 20)%Z) by lia. cbn [ex_T y_src y_dest y_b y_e]. unfold one.
  replace (id / 1000)%Z with (id / 10 / 100)%Z by (rewrite Z.div_div; [f_equal|lia|lia]). replace (id / 100)%Z with (id / 10 / 10)%Z by (rewrite Z.div_div; [f_equal|lia|lia]). rewrite Q. auto.
Qed.

(** If a type has two virtual channels, packets of one source, destination and type can overtake each other: packet 12 leaves before packet 11, because
    node 1 has no room left on the first channel. *)
Definition ov_T : traffic := ex_T (fun _ => 0) (fun _ => 1).
Definition ov_w : netcfg := cube true true 2 1 ex_b true 1 (-1).
Definition ov_cs : list ex_cycle :=
  [(0%Z, ([(0, ex_fl 100 true false 0)], [])); (1%Z, ([(0, ex_fl 101 false true 0)], [])); (2%Z, ([(0, ex_fl 110 true false 0)], [])); (3%Z, ([(0, ex_fl 120 true true 1)], []))] ++
  map (fun t => (t, ([], []))) [4;5;6;7]%Z ++ [(8%Z, ([(0, ex_fl 111 false true 0)], []))] ++ map (fun t => (t, ([], []))) [9;10;11;12;13;14;15]%Z ++
  [(16%Z, ([], [(1, [0])])); (17%Z, ([], [(1, [0])]))] ++ map (fun t => (t, ([], []))) [18;19;20;21;22;23]%Z.
Theorem C81_two_channels_refuted : exists P w T flow ts s zs, w = cube true true 2 1 ex_b true 1 (-1) /\ some_policy ex_b P /\
  (forall id, flow id = 1 -> y_src T id = 0 /\ y_dest T id = 1 /\ y_b T id = 0 /\ y_e T id = 1) /\
  mdecent_run P (rf_dor 2 1) 2 1 T w ts /\ (forall m v, together flow (on_vc v (injected ts m))) /\ net_run w ts (net0 P w) = Some (s, zs) /\ inside w s = [] /\
  map f_id (fl flow 1 (injected ts 0)) = [100; 101; 110; 120; 111]%Z /\ map f_id (fl flow 1 (ejected zs 1)) = [100; 101; 120; 110; 111]%Z.
Proof.
  exists (private_policy 2), ov_w, ov_T, (fun i => Z.to_nat (i / 100)), (map (ex_tick 2 1 ov_T) ov_cs).
  assert (X : exists s zs, net_run ov_w (map (ex_tick 2 1 ov_T) ov_cs) (net0 (private_policy 2) ov_w) = Some (s, zs) /\ inside ov_w s = [] /\
    map f_id (fl (fun i => Z.to_nat (i / 100)) 1 (ejected zs 1)) = [100; 101; 120; 110; 111]%Z).
  { assert (Y : match net_run ov_w (map (ex_tick 2 1 ov_T) ov_cs) (net0 (private_policy 2) ov_w) with
      | Some (s, zs) => inside ov_w s = [] /\ map f_id (fl (fun i => Z.to_nat (i / 100)) 1 (ejected zs 1)) = [100; 101; 120; 110; 111]%Z | None => False end) by (vm_compute; auto).
    destruct (net_run _ _ _) as [[s zs]|]; [|contradiction]. eauto. }
  destruct X as [s [zs [E [I O]]]]. exists s, zs. split; [reflexivity|]. split; [apply ex_pol|]. split; [|split; [apply mdecentb_ok; vm_compute; reflexivity|split]].
  - intros id Q. assert (Q' : (id / 100 = 1)%Z) by lia. cbn [ov_T ex_T y_src y_dest y_b y_e]. replace (id / 1000)%Z with (id / 100 / 10)%Z by (rewrite Z.div_div; [f_equal|lia|lia]). rewrite Q'. auto.
  - intros [|[|m]] [|[|v]]; apply togetherb_ok; vm_compute; reflexivity.
  - split; [exact E|]. split; [exact I|]. split; [vm_compute; reflexivity|exact O].
Qed.
Print Assumptions C81_two_channels_refuted.
