(** C106-C107: the k-ary n-fly network (topology "fly") with the routing function "dest_tag". *)
From Coq Require Import ZArith Arith Bool List Lia Permutation.
From Verif Require Import Prop_IqRouter Fupd ArbiterModel AllocModel AllocSpec BufferModel BufferSpec RouteModel ChannelModel IqRouterModel IqRouterSpec IqRouterProofs NetModel NetSpec NetProofs NetSum NetOrder NetMeshModel NetMeshSpec
  NetMeshProofs Prop_Net NetProgressSpec NetStuck NetProgress NetMore Prop_NetProgress RouteNetSpec RouteNetProofs FlyModel FlySpec FlyProofs.
Import ListNotations.
Open Scope nat_scope.

(** ** C106: the channels connect the stages, each port to one port, and all latencies are 1; a packet goes from any node to any node through one router of each stage and leaves the network there. *)
Theorem C106_wired : forall k n b rd cd ob, 0 < k -> 0 < n -> let w := fly k n b rd cd ob in
  wired w /\ w_n w = n * k ^ (n - 1) /\ w_nodes w = k ^ n /\ w_chans w = (n - 1) * k ^ n /\ (forall r, c_in (w_cfg w r) = k /\ c_outs (w_cfg w r) = k) /\ (forall c, w_fd w c = 1%Z /\ w_cd w c = 1%Z) /\
  (forall c r o r' i, w_src w (Ch c) = Some (r, o) -> w_snk w (Ch c) = Some (r', i) -> r' / k ^ (n - 1) = S (r / k ^ (n - 1))).
Proof.
  intros k n b rd cd ob Hk Hn w. pose proof (fly_wired k n b rd cd ob Hk Hn) as W. split; auto. do 3 (split; [reflexivity|]). split; [auto|]. split; [auto|].
  intros c r o r' i E1 E2. destruct (wi_ch w W c) as [_ C]. assert (Hc : c < (n - 1) * k ^ n) by (apply C; congruence). destruct (chan_of k n Hk Hn c Hc) as [s [a [p [-> [H1 [H2 H3]]]]]].
  unfold w in E1, E2. rewrite src_chan in E1 by auto. rewrite snk_chan in E2 by auto. injection E1 as <- <-. injection E2 as <- _. rewrite (proj1 (router_at k n s a H2)). change (k ^ (n - 1) + s * k ^ (n - 1)) with (S s * k ^ (n - 1)). apply (router_at k n). apply put_per; auto. lia.
Qed.
Print Assumptions C106_wired.
Theorem C106_way : forall k n b rd cd ob a d, 0 < k -> 0 < n -> a < k ^ n -> d < k ^ n -> let w := fly k n b rd cd ob in
  flies k n d w (Inj a) n /\ forall h, flies k n d w (Inj a) h -> h = n.
Proof.
  intros k n b rd cd ob a d Hk Hn Ha Hd w. pose proof (inj_flies k n b rd cd ob Hk Hn a d Ha Hd) as F. fold w in F. split; auto. pose proof (fly_wired k n b rd cd ob Hk Hn) as W. fold w in W.
  assert (U : forall c h, flies k n d w c h -> forall h', flies k n d w c h' -> h' = h).
  { intros c h H. induction H as [|c r i p h E1 E2 E3 H IH]; intros h' H'; inversion H' as [X Y|c1 r1 i1 p1 h1 F1 F2 F3 F4 X Y]; subst; auto.
    - rewrite (proj1 (wi_ej w W d)) in F1. discriminate.
    - rewrite (proj1 (wi_ej w W d)) in E1. discriminate.
    - rewrite E1 in F1. injection F1 as <- <-. specialize (E2 0%Z 0%Z). specialize (F2 0%Z 0%Z). rewrite E2 in F2. injection F2 as F2. apply Nat2Z.inj in F2. subst p1. f_equal. auto. }
  intros h H. apply (U _ _ F _ H).
Qed.
Print Assumptions C106_way.
(** The network runs, heads are only read by routers on their way, every flit is accounted for and leaves the network only at its destination. *)
Theorem C106_network : forall P k n b rd cd ob T ts, 0 < k -> 0 < n -> some_policy b P -> let w := fly k n b rd cd ob in
  rdecent_run P (fly_may k n T) T w ts -> (forall m v, together (y_dest T) (on_vc v (injected ts m))) -> works P T w (fly_by k n T) ts.
Proof.
  intros P k n b rd cd ob T ts Hk Hn SP w M Tg. apply (r_works w (fly_may k n T) T (fly_ok k n T (bc_vcs b)) (fly_wired k n b rd cd ob Hk Hn)); auto.
  - apply (fly_start k n b rd cd ob T Hk Hn).
  - apply (fly_lawful k n b rd cd ob T Hk Hn).
  - apply (fly_end k n b T).
  - apply (fly_passes k n b rd cd ob T Hk Hn).
Qed.
Print Assumptions C106_network.
(** Packets from one node to another that have one virtual channel arrive in order. *)
Theorem C106_in_order : forall P k n b rd cd ob T flow q m d v ts s zs, 0 < k -> 0 < n -> some_policy b P -> let w := fly k n b rd cd ob in
  (forall id, flow id = q -> y_src T id = m /\ y_dest T id = d /\ y_b T id = v /\ y_e T id = v) -> m < w_nodes w -> d < w_nodes w ->
  rdecent_run P (fly_may k n T) T w ts -> (forall m v, together flow (on_vc v (injected ts m))) -> net_run w ts (net0 P w) = Some (s, zs) ->
  (exists r, map tag (fl flow q (injected ts m)) = map tag (fl flow q (ejected zs d)) ++ map tag r /\ forall f, In f r -> In f (inside w s) /\ flow (f_id f) = q) /\
  (forall m' f, m' < w_nodes w -> In f (injected ts m') -> flow (f_id f) = q -> m' = m) /\
  (forall d' f, d' < w_nodes w -> In f (ejected zs d') -> flow (f_id f) = q -> d' = d).
Proof.
  intros P k n b rd cd ob T flow q m d v ts s zs Hk Hn SP w FL Hm Hd M Tg E. pose proof (fly_one_way k n b rd cd ob T Hk Hn flow q m d v FL Hm Hd) as OW.
  apply (r_order w (fly_may k n T) T (fly_ok k n T (bc_vcs b)) (fly_wired k n b rd cd ob Hk Hn)) with (P := P) (p := map (fun c => (c, v)) (fly_way k n m d)); auto.
  - apply (fly_start k n b rd cd ob T Hk Hn).
  - apply (fly_lawful k n b rd cd ob T Hk Hn).
Qed.
Print Assumptions C106_in_order.

(** ** C107: every packet arrives. *)
Theorem C107_delivers : forall P k n b rd cd ob T slots, 0 < k -> 0 < n -> own_buffers b P slots -> ob <> 0%Z -> all_arrive P (fly_may k n T) (fly k n b rd cd ob) T slots.
Proof.
  intros P k n b rd cd ob T slots Hk Hn HB HO. apply (r_arrive (fly k n b rd cd ob) (fly_may k n T) T (fly_ok k n T (bc_vcs b)) (fly_wired k n b rd cd ob Hk Hn)) with (dist := fly_rank k n); auto.
  - apply (fly_start k n b rd cd ob T Hk Hn).
  - apply (fly_lawful k n b rd cd ob T Hk Hn).
  - apply (fly_end k n b T).
  - apply (fly_descends k n b rd cd ob T Hk Hn).
Qed.
Print Assumptions C107_delivers.

(** ** Examples *)
Example C106_wired_ex : 0 < 2 /\ 0 < 3 /\ map (fun c => (w_src (fly 2 3 ex_b true 1 (-1)) (Ch c), w_snk (fly 2 3 ex_b true 1 (-1)) (Ch c))) [0; 1; 2; 8; 15] =
  [(Some (0, 0), Some (4, 0)); (Some (0, 1), Some (6, 0)); (Some (1, 0), Some (5, 0)); (Some (4, 0), Some (8, 0)); (Some (7, 1), Some (11, 1))].
Proof. split; [lia|]. split; [lia|]. vm_compute. reflexivity. Qed.
Example C106_way_ex : 1 < 2 ^ 3 /\ 6 < 2 ^ 3 /\ fly_way 2 3 1 6 = [Inj 1; Ch 1; Ch 13; Ej 6].
Proof. split; [cbn; lia|]. split; [cbn; lia|]. vm_compute. reflexivity. Qed.
(** Cycles for networks with such a routing function. *)
Definition rx_la (w : netcfg) (R : nat -> nat -> flit -> list oelem) (T : traffic) (f : flit) : flit :=
  {| f_id := f_id f; f_pid := f_pid f; f_head := f_head f; f_tail := f_tail f; f_vc := f_vc f; f_la := match w_snk w (Inj (y_src T (f_id f))) with Some (r, i) => R r i f | None => [] end |}.
Definition rx_tick (w : netcfg) (R : nat -> nat -> flit -> list oelem) (T : traffic) (a : ex_cycle) : tick :=
  {| t_now := fst a; t_inj := fun m => option_map (fun x => rx_la w R T (snd x)) (find (fun x => Nat.eqb (fst x) m) (fst (snd a)));
     t_cred := fun d => option_map snd (find (fun x => Nat.eqb (fst x) d) (snd (snd a))); t_va := fun _ => greedy; t_sa := fun _ => greedy; t_rf := R |}.
Fixpoint rdecentb {P} (R : nat -> nat -> flit -> list oelem) (T : traffic) (w : netcfg) (hts : list tick) (hzs : list nout) (ts : list ex_cycle) (s : net P) : bool :=
  match ts with
  | [] => true
  | a :: r =>
      let t := rx_tick w R T a in
      forallb (okinj T w hts hzs t) (seq 0 (w_nodes w)) && forallb (okcre w hts hzs) (snd (snd a)) &&
      match net_step w t s with Some (s', z) => rdecentb R T w (hts ++ [t]) (hzs ++ [z]) r s' | None => true end
  end.
Lemma rdecentb_ok : forall P (M : nat -> nat -> flit -> list oelem -> Prop) R T w ts hts hzs (s : net P), (forall r i f f', r < w_n w -> i < c_in (w_cfg w r) -> f_id f = f_id f' -> M r i f (R r i f')) -> wired w ->
  rdecentb R T w hts hzs ts s = true -> rdecent_from M T w hts hzs (map (rx_tick w R T) ts) s.
Proof.
  intros P M R T w ts hts hzs s RI W. revert hts hzs s. induction ts as [|a ts IH]; intros hts hzs s D; [exact Logic.I|]. cbn [rdecentb] in D. cbn [map rdecent_from].
  apply andb_true_iff in D. destruct D as [D D3]. apply andb_true_iff in D. destruct D as [Di Dc]. rewrite forallb_forall in Di, Dc. set (t := rx_tick w R T a) in *. split.
  - constructor.
    + intros. apply greedy_ok.
    + intros. apply greedy_ok.
    + intros r i f Hr Hi _. apply RI; auto.
    + intros m f Hm Ef. specialize (Di m ltac:(apply in_seq; lia)). unfold okinj in Di. rewrite Ef in Di.
      apply andb_true_iff in Di. destruct Di as [Di D4]. apply andb_true_iff in Di. destruct Di as [Di D2]. apply andb_true_iff in Di. destruct Di as [D0 D1].
      apply Nat.ltb_lt in D2. apply Z.ltb_lt in D1. split; [unfold well_formed; destruct (parse _); congruence|]. split; auto. split; auto. intros Hh. rewrite Hh in D4. cbn [negb orb] in D4.
      apply andb_true_iff in D4. destruct D4 as [D4 E5]. apply andb_true_iff in D4. destruct D4 as [D4 E4]. apply andb_true_iff in D4. destruct D4 as [D4 E3]. apply andb_true_iff in D4. destruct D4 as [E1 E2].
      apply Nat.eqb_eq in E1. apply Nat.ltb_lt in E2, E5. apply Nat.leb_le in E3, E4. split; auto. split; auto. split; auto. split; auto. intros _ r i Er.
      cbn [t rx_tick t_inj] in Ef. destruct (find _ _) as [[x g]|]; [|discriminate]. cbn [option_map snd] in Ef. injection Ef as <-. cbn [rx_la f_id f_la] in *. rewrite <- E1, Er. apply (wi_in w W) in Er. apply RI; [apply Er|apply Er|reflexivity].
    + intros d vs Ev. cbn [t rx_tick t_cred] in Ev. destruct (find _ _) as [[x vs']|] eqn:Ef; [|discriminate]. cbn [option_map snd] in Ev. injection Ev as ->. apply find_some in Ef. destruct Ef as [Hin Ex].
      apply Nat.eqb_eq in Ex. cbn [fst] in Ex. subst x. specialize (Dc _ Hin). unfold okcre in Dc. cbn [fst snd] in Dc. rewrite forallb_forall in Dc. split.
      * apply (NoDup_count_occ Nat.eq_dec). intros v. destruct (in_dec Nat.eq_dec v vs) as [Hv|Hv]; [|rewrite (proj1 (count_occ_not_In Nat.eq_dec vs v) Hv); lia].
        specialize (Dc v Hv). apply andb_true_iff in Dc. destruct Dc as [Dc _]. apply andb_true_iff in Dc. destruct Dc as [Dc _]. apply Nat.eqb_eq in Dc. lia.
      * intros v Hv. specialize (Dc v Hv). apply andb_true_iff in Dc. destruct Dc as [Dc D2]. apply andb_true_iff in Dc. destruct Dc as [_ D1]. apply Nat.ltb_lt in D1, D2. auto.
  - intros s' z E. rewrite E in D3. apply IH; auto.
Qed.
(** Four nodes, two stages. *)
Definition fx_w (rd : bool) : netcfg := fly 2 2 ex_b rd 1 (-1).
Definition fx_R (r i : nat) (f : flit) : list oelem := fly_route 2 2 (ex_T one one) r f.
Definition fx_M := fly_may 2 2 (ex_T one one).
Lemma fx_id : forall rd r i f f', r < w_n (fx_w rd) -> i < c_in (w_cfg (fx_w rd) r) -> f_id f = f_id f' -> fx_M r i f (fx_R r i f').
Proof. intros rd r i f f' _ _ E. unfold fx_M, fly_may, fx_R, fly_route. rewrite E. reflexivity. Qed.
Lemma fx_wired : forall rd, wired (fx_w rd).
Proof. intros rd. apply fly_wired; lia. Qed.
Definition fx_ts (rd : bool) : list tick := map (rx_tick (fx_w rd) fx_R (ex_T one one)) ex_cs.
Lemma fx_decent : forall rd, rdecent_run (private_policy 2) fx_M (ex_T one one) (fx_w rd) (fx_ts rd).
Proof. intros rd. apply (rdecentb_ok _ fx_M fx_R); [apply fx_id|apply fx_wired|]. destruct rd; vm_compute; reflexivity. Qed.
Lemma fx_together : forall rd m v, together ex_flow (on_vc v (injected (fx_ts rd) m)) /\ together (y_dest (ex_T one one)) (on_vc v (injected (fx_ts rd) m)).
Proof. intros [|] [|[|[|m]]] [|[|v]]; split; apply togetherb_ok; vm_compute; reflexivity. Qed.
Example C106_network_ex : forall rd, some_policy ex_b (private_policy 2) /\ rdecent_run (private_policy 2) fx_M (ex_T one one) (fx_w rd) (fx_ts rd) /\ (forall m v, together (y_dest (ex_T one one)) (on_vc v (injected (fx_ts rd) m))) /\
  match net_run (fx_w rd) (fx_ts rd) (net0 (private_policy 2) (fx_w rd)) with Some (s, zs) => map (fun d => map f_id (ejected zs d)) [0; 1; 2; 3] = [[2010]; []; [200; 201; 210; 1200; 1201; 202]; []]%Z /\ inside (fx_w rd) s = [] | None => False end.
Proof. intros rd. split; [apply ex_pol|]. split; [apply fx_decent|]. split; [apply fx_together|]. destruct rd; vm_compute; auto. Qed.
Example C106_in_order_ex : forall id, ex_flow id = 20 -> y_src (ex_T one one) id = 0 /\ y_dest (ex_T one one) id = 2 /\ y_b (ex_T one one) id = 0 /\ y_e (ex_T one one) id = 0.
Proof.
  intros id E. unfold ex_flow in E. assert (Q : (id / 10 = 20)%Z) by lia. cbn [ex_T y_src y_dest y_b y_e one]. replace (id / 1000)%Z with (id / 10 / 100)%Z by (rewrite Z.div_div by lia; f_equal; lia).
  replace (id / 100)%Z with (id / 10 / 10)%Z by (rewrite Z.div_div by lia; f_equal; lia). rewrite Q. auto.
Qed.
(** The packets of the first five cycles, then as many cycles as one likes in which nodes give credits only. *)
Lemma rdecent_append : forall P R T w a b hts hzs (s : net P), rdecent_from R T w hts hzs a s -> (forall s1 z1, net_run w a s = Some (s1, z1) -> rdecent_from R T w (hts ++ a) (hzs ++ z1) b s1) -> rdecent_from R T w hts hzs (a ++ b) s.
Proof.
  intros P R T w a. induction a as [|t a IH]; intros b hts hzs s Da Db; cbn [app rdecent_from net_run] in *.
  - specialize (Db s [] eq_refl). rewrite !app_nil_r in Db. exact Db.
  - destruct Da as [D1 D2]. split; auto. intros s' z E. apply IH; auto. intros s1 z1 E1. rewrite E, E1 in Db. specialize (Db _ _ eq_refl). rewrite <- !app_assoc. exact Db.
Qed.
Lemma quiet_rdecent : forall P (R : nat -> nat -> flit -> list oelem -> Prop) T w ok ts hts hzs (s : net P), (forall t, In t ts -> (forall r i f, r < w_n w -> i < c_in (w_cfg w r) -> R r i f (t_rf t r i f)) /\ quiet w t) -> ndecent_from w ok hts hzs ts s -> rdecent_from R T w hts hzs ts s.
Proof.
  intros P R T w ok ts. induction ts as [|t ts IH]; intros hts hzs s H D; [exact Logic.I|]. destruct D as [D1 D2], (H t (or_introl eq_refl)) as [E Q]. split.
  - destruct D1. constructor; auto. intros m f Hm Em. rewrite (Q m Hm) in Em. discriminate.
  - intros s' z Es. apply IH; auto. intros u Hu. apply H. right. auto.
Qed.
Definition fx_ts1 (rd : bool) : list tick := map (rx_tick (fx_w rd) fx_R (ex_T one one)) (firstn 5 ex_cs).
Lemma fx_decent1 : forall rd, rdecent_run (private_policy 2) fx_M (ex_T one one) (fx_w rd) (fx_ts1 rd).
Proof. intros rd. apply (rdecentb_ok _ fx_M fx_R); [apply fx_id|apply fx_wired|]. destruct rd; vm_compute; reflexivity. Qed.
Lemma fx_together1 : forall rd m v, together (y_dest (ex_T one one)) (on_vc v (injected (fx_ts1 rd) m)).
Proof. intros [|] [|[|[|m]]] [|[|v]]; apply togetherb_ok; vm_compute; reflexivity. Qed.
Lemma fx_honest1 : forall rd t, In t (fx_ts1 rd) -> honest (fx_w rd) t.
Proof.
  intros rd t H d. unfold fx_ts1 in H. apply in_map_iff in H. destruct H as [a [<- Ha]]. assert (E : snd (snd a) = []) by (cbn [firstn ex_cs map app] in Ha; destruct Ha as [<-|[<-|[<-|[<-|[<-|[]]]]]]; reflexivity).
  cbn [rx_tick t_cred]. rewrite E. cbn [find option_map]. discriminate.
Qed.
Example C107_delivers_ex : forall rd m, own_buffers ex_b (private_policy 2) 2 /\ amount (fx_w rd) (fx_ts1 rd) = 7 /\ whole (fx_w rd) (fx_ts1 rd) /\
  exists ts2, m <= length ts2 /\ rdecent_run (private_policy 2) fx_M (ex_T one one) (fx_w rd) (fx_ts1 rd ++ ts2) /\ rising (fx_ts1 rd ++ ts2) /\ (forall m v, together (y_dest (ex_T one one)) (on_vc v (injected (fx_ts1 rd ++ ts2) m))) /\
    (forall t, In t (fx_ts1 rd ++ ts2) -> honest (fx_w rd) t) /\ (forall t, In t ts2 -> quiet (fx_w rd) t /\ giving (fx_w rd) t) /\
    (forall l1 l2 l3 s zs, ts2 = l1 ++ l2 ++ l3 -> length l2 = 1 -> net_run (fx_w rd) (fx_ts1 rd ++ l1) (net0 (private_policy 2) (fx_w rd)) = Some (s, zs) -> eager (fx_w rd) 2 (fx_ts1 rd ++ l1) zs l2).
Proof.
  intros rd m. split; [exact dr_own|]. split; [destruct rd; vm_compute; reflexivity|]. split; [intros [|[|[|[|x]]]] [|[|v]] H; try (destruct rd; vm_compute; reflexivity); destruct rd; vm_compute in H; lia|].
  assert (H2 : 0 < 2) by lia. set (T := ex_T one one). set (ok := fly_ok 2 2 T (bc_vcs ex_b)). pose proof (fly_wired 2 2 ex_b rd 1 (-1) H2 H2) as W. fold (fx_w rd) in W.
  assert (ND : ndecent_run (private_policy 2) (fx_w rd) ok (fx_ts1 rd)).
  { apply (r_decent_from (fx_w rd) fx_M T ok W); [apply (fly_start 2 2 ex_b rd 1 (-1) T H2 H2)|apply (fly_lawful 2 2 ex_b rd 1 (-1) T H2 H2)|apply fx_decent1]. }
  set (t0 := rx_tick (fx_w rd) fx_R T (0%Z, ([], []))). assert (Ri : rising (fx_ts1 rd)) by (apply (chain_rising _ (-1)%Z); vm_compute; intuition discriminate).
  destruct (C96_continues (private_policy 2) (fx_w rd) ok (fx_ts1 rd) t0 m W ex_pol ND Ri) as [ts2 [A1 [A2 [A3 [A4 A5]]]]].
  - intros. apply greedy_ok.
  - intros. apply greedy_ok.
  - intros r i f Hr Hi Hh O. apply (fly_lawful 2 2 ex_b rd 1 (-1) T H2 H2 r i f (fx_R r i f) Hr Hi O). reflexivity.
  - exists ts2. split; [lia|]. split; [|split; [exact A3|split; [|split; [|split]]]].
    + apply rdecent_append; [apply fx_decent1|]. intros s1 z1 E. apply ndecent_app in A2. apply (quiet_rdecent _ _ _ _ ok); [|apply A2; exact E].
      intros t Ht. destruct (A4 t Ht) as [_ [_ [B3 [B4 _]]]]. split; [intros r i f Hr Hi; rewrite B3; apply (fx_id rd); auto|intros x _; apply B4].
    + intros m' v. replace (injected (fx_ts1 rd ++ ts2) m') with (injected (fx_ts1 rd) m'); [apply fx_together1|].
      unfold injected. rewrite flat_map_app. replace (flat_map (fun t => opt (t_inj t m')) ts2) with (@nil flit); [rewrite app_nil_r; reflexivity|]. symmetry. clear - A4. induction ts2 as [|t l IH]; [reflexivity|].
      cbn [flat_map]. rewrite (proj1 (proj2 (proj2 (proj2 (A4 t (or_introl eq_refl))))) m'). apply IH. intros. apply A4. right. auto.
    + intros t Ht. apply in_app_iff in Ht. destruct Ht as [Ht|Ht]; [apply fx_honest1; exact Ht|apply (A4 t Ht)].
    + intros t Ht. destruct (A4 t Ht) as [B1 [B2 [B3 [B4 _]]]]. split; [intros x _; apply B4|]. intros r _. rewrite B1, B2. split; apply greedy_gives.
    + intros l1 [|t [|? ?]] l3 s zs El Ll Er; try discriminate. exact (A5 l1 t l3 s zs El Er 2%Z ltac:(lia)).
Qed.
