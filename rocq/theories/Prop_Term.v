(** The nodes of the network: the assumptions about nodes in Prop_Net.v follow from what the adapters do. *)
From Coq Require Import ZArith Arith Bool List Lia.
From Verif Require Import Fupd ArbiterModel AllocModel AllocSpec BufferModel RouteModel RouteSpec ChannelModel CreditModel IqRouterModel IqRouterSpec IqRouterProofs Prop_IqRouter
  NetModel NetSpec NetMeshModel NetMeshSpec Prop_Net StreamSpec TermModel TermSpec TermProofs TermFlow.
Import ListNotations.
Open Scope nat_scope.

(** ** C82: if the nodes take turns with the network, offer whole packets, and free only slots of flits they read, then every event succeeds and the network gets what
    C76 to C79 assume: no node sends without a credit or frees a slot twice.  What a node sent is what the network took from it, and what a node read is
    what the network delivered to it: no flit is overwritten or read twice.  A node never holds more flits of a channel than a buffer has slots. *)
Theorem C82_terminals : forall P w rf ok buf_size vc_buf_size es, wired w -> buf_size <> 0%Z -> 0 < bc_vcs (w_b w) ->
  new_private (bc_vcs (w_b w)) buf_size vc_buf_size (bc_wait (w_b w)) = Some (w_b w, P) -> routes_ok w rf ok -> tdecent_run P w rf ok es -> in_turn w es ->
  exists s o ts zs, term_run w rf es (term0 P w) = Some (s, o) /\ ndecent_run P w ok ts /\ net_run w ts (net0 P w) = Some (tm_net s, zs) /\
    forall n, n < w_nodes w -> took n o = injected ts n ++ opt (tm_inj s n) /\ got n o ++ unread n es s = ejected zs n /\
      forall v, v < bc_vcs (w_b w) -> (Z.of_nat (length (on_vc v (got n o ++ unread n es s))) - Z.of_nat (count_occ Nat.eq_dec (freed n es) v)
        <= (if buf_size <? 0 then vc_buf_size else buf_size / Z.of_nat (bc_vcs (w_b w))))%Z.
Proof.
  intros P w rf ok bz vz es W Hb Hv EP RO D Al. destruct (term_private P w rf ok bz vz W Hb Hv EP RO es D Al) as [s [o [ts [zs [xs [ys [E [Nd [Er [N [Xt X]]]]]]]]]]].
  exists s, o, ts, zs. split; auto. split; auto. split; auto. intros n Hn. destruct (X n Hn) as [X1 [X2 _]]. split; auto. split; auto. intros v Hv'.
  pose proof (eject_room P w ok bz vz W Hb Hv EP ts zs _ xs ys n v N Hn Hv') as R. specialize (X2 v). unfold vc_size in R. rewrite X1. lia.
Qed.
Print Assumptions C82_terminals.

(** ** C83: a mesh with dimension-order routing, seen from its nodes.  If each type has one channel, then a node reads only flits sent to it, whole packets one after the other on
    each channel, and of each other node and type exactly what that node sent to it, in order; once nothing is left in the network, all of it. *)
Theorem C83_mesh : forall P mesh nl k n b rd cd ob T buf_size vc_buf_size es, (1 <= k)%Z -> buf_size <> 0%Z -> 0 < bc_vcs b ->
  new_private (bc_vcs b) buf_size vc_buf_size (bc_wait b) = Some (b, P) -> (forall i, y_e T i = y_b T i) ->
  let w := cube mesh nl k n b rd cd ob in let rf := routes_of (dim_order_mesh k n (k ^ Z.of_nat n)) T in
  tdecent_run P w rf (starts T w) es -> in_turn w es ->
  exists s o, term_run w rf es (term0 P w) = Some (s, o) /\
    (forall d v, d < w_nodes w -> v < bc_vcs b -> (Z.of_nat (length (on_vc v (got d o))) - Z.of_nat (count_occ Nat.eq_dec (freed d es) v)
        <= (if buf_size <? 0 then vc_buf_size else buf_size / Z.of_nat (bc_vcs b)))%Z) /\
    ((forall m v, agree T (on_vc v (took m o))) -> forall d, d < w_nodes w ->
      (forall f, In f (got d o) -> y_dest T (f_id f) = d /\ y_src T (f_id f) < w_nodes w /\ f_vc f = y_b T (f_id f) /\ f_vc f < bc_vcs b) /\
      (forall v, well_formed (on_vc v (got d o)) /\ agree T (on_vc v (got d o))) /\
      (forall m v, m < w_nodes w -> v < bc_vcs b -> prefix (map tag (between T m d v (got d o))) (map tag (between T m d v (took m o))) /\
        (drained w es s -> map tag (between T m d v (got d o)) = map tag (between T m d v (took m o))))).
Proof.
  intros P mesh nl k n b rd cd ob T bz vz es K Hb Hv EP Eb w rf D Al.
  destruct (mesh_carries P mesh nl k n b rd cd ob T bz vz K Hb Hv EP es D Al Eb) as [s [o [E [R X]]]]. exists s, o. split; auto. split; auto.
  intros d v Hd Hv'. specialize (R d v Hd Hv'). unfold vc_size in R. change (bc_vcs (w_b (cube mesh nl k n b rd cd ob))) with (bc_vcs b) in R. rewrite on_vc_app, app_length in R. lia.
Qed.
Print Assumptions C83_mesh.

(** ** Examples *)
Definition tx_rf : nat -> nat -> flit -> list oelem := routes_of (dim_order_mesh 3 1 (3 ^ Z.of_nat 1)) (ex_T one one).
Definition tx_clk (t : Z) : clk := {| k_now := t; k_va := fun _ => greedy; k_sa := fun _ => greedy |}.
(** A cycle of the network, before it the nodes read what is there and then offer the flits given. *)
Definition tx_edge (t : Z) (fs : list (nat * flit)) : list tev :=
  map VRead [0; 1; 2] ++ map (fun n => VInj n t (option_map snd (find (fun x => Nat.eqb (fst x) n) fs))) [0; 1; 2] ++ [VTick (tx_clk t)].
Definition tx_idle (t : Z) (m : nat) : list tev := flat_map (fun i => tx_edge (t + Z.of_nat i) []) (seq 0 m).

Definition okev (T : traffic) (w : netcfg) (h : list tev) (o : list tobs) (e : tev) : bool :=
  match e with
  | VInj n _ None => Nat.ltb n (w_nodes w)
  | VInj n _ (Some g) => Nat.ltb n (w_nodes w) && Nat.ltb (f_vc g) (bc_vcs (w_b w)) && match parse (on_vc (f_vc g) (took n o ++ [g])) with Some _ => true | None => false end &&
      (negb (f_head g) || (Nat.eqb (y_src T (f_id g)) n && Nat.ltb (y_dest T (f_id g)) (w_nodes w) && Nat.leb (y_b T (f_id g)) (f_vc g) && Nat.leb (f_vc g) (y_e T (f_id g)) && Nat.ltb (y_e T (f_id g)) (bc_vcs (w_b w))))
  | VRead n => Nat.ltb n (w_nodes w)
  | VFree n v => Nat.ltb n (w_nodes w) && Nat.ltb (count_occ Nat.eq_dec (freed n h) v) (length (on_vc v (got n o)))
  | VTick k => true
  end.
Fixpoint tdecentb {P} (T : traffic) (w : netcfg) (rf : nat -> nat -> flit -> list oelem) (h : list tev) (o : list tobs) (es : list tev) (s : term P) : bool :=
  match es with
  | [] => true
  | e :: r => okev T w h o e && match term_step w rf e s with Some (s', o') => tdecentb T w rf (h ++ [e]) (o ++ o') r s' | None => true end
  end.
Definition plain (es : list tev) : Prop := forall k, In (VTick k) es -> exists t, k = tx_clk t.
Lemma plain_app : forall a b, plain a -> plain b -> plain (a ++ b).
Proof. intros a b A B k Hk. apply in_app_iff in Hk. destruct Hk; auto. Qed.
Lemma tdecentb_ok : forall P T w rf es h o (s : term P), plain es -> tdecentb T w rf h o es s = true -> tdecent_from w rf (starts T w) h o es s.
Proof.
  intros P T w rf es. induction es as [|e es IH]; intros h o s Pl D; [exact Logic.I|]. cbn [tdecentb] in D. apply andb_true_iff in D. destruct D as [D1 D2]. cbn [tdecent_from]. split.
  - destruct e as [n now [g|]|n|n v|k]; cbn [okev tdecent] in *.
    + apply andb_true_iff in D1. destruct D1 as [D1 A4]. apply andb_true_iff in D1. destruct D1 as [D1 A3]. apply andb_true_iff in D1. destruct D1 as [A1 A2]. apply Nat.ltb_lt in A1, A2. split; auto.
      intros g' E. injection E as <-. split; auto. split; [unfold well_formed; destruct (parse _); congruence|]. intros Hh. rewrite Hh in A4. cbn [negb orb] in A4.
      apply andb_true_iff in A4. destruct A4 as [A4 B5]. apply andb_true_iff in A4. destruct A4 as [A4 B4]. apply andb_true_iff in A4. destruct A4 as [A4 B3]. apply andb_true_iff in A4. destruct A4 as [B1 B2].
      apply Nat.eqb_eq in B1. apply Nat.ltb_lt in B2, B5. apply Nat.leb_le in B3, B4. cbn [starts]. auto.
    + apply Nat.ltb_lt in D1. split; auto. discriminate.
    + apply Nat.ltb_lt in D1. auto.
    + apply andb_true_iff in D1. destruct D1 as [A1 A2]. apply Nat.ltb_lt in A1, A2. auto.
    + destruct (Pl k (or_introl eq_refl)) as [t ->]. split; intros; apply greedy_ok.
  - intros s' o' E. rewrite E in D2. apply IH; auto. intros k Hk. apply Pl. right. auto.
Qed.
Fixpoint alternateb (l : list bool) : bool := match l with a :: ((b :: _) as r) => negb (Bool.eqb a b) && alternateb r | _ => true end.
Lemma alternateb_ok : forall l, alternateb l = true -> alternate l.
Proof.
  intros l. induction l as [|a l IH]; intros H l1 x y l2 E; [destruct l1; discriminate|]. destruct l as [|b l]; [destruct l1 as [|? [|? ?]]; discriminate|].
  change (alternateb (a :: b :: l)) with (negb (Bool.eqb a b) && alternateb (b :: l)) in H. apply andb_true_iff in H. destruct H as [H1 H2]. destruct l1 as [|z l1].
  - injection E as <- <- _. intros ->. rewrite Bool.eqb_reflx in H1. discriminate.
  - injection E as _ E. apply (IH H2 _ _ _ _ E).
Qed.
Definition turnb (m : nat) (es : list tev) : bool := forallb (fun n => alternateb (inj_turns n es) && alternateb (read_turns n es)) (seq 0 m).
Lemma turnb_ok : forall w es, turnb (w_nodes w) es = true -> in_turn w es.
Proof.
  intros w es H n Hn. unfold turnb in H. rewrite forallb_forall in H. specialize (H n ltac:(apply in_seq; lia)). apply andb_true_iff in H. destruct H. split; apply alternateb_ok; auto.
Qed.
Lemma plain_no : forall l, forallb (fun e => match e with VTick _ => false | _ => true end) l = true -> plain l.
Proof. intros l H k Hk. rewrite forallb_forall in H. specialize (H _ Hk). discriminate. Qed.
Lemma plain_flat : forall A (f : A -> list tev) l, (forall x, plain (f x)) -> plain (flat_map f l).
Proof. intros A f l H k Hk. apply in_flat_map in Hk. destruct Hk as [x [_ Hk]]. eapply H; eauto. Qed.
Lemma plain_one : forall t, plain [VTick (tx_clk t)].
Proof. intros t k [E|[]]. injection E as <-. eauto. Qed.
Lemma plain_edge : forall t fs, plain (tx_edge t fs).
Proof. intros. unfold tx_edge. repeat apply plain_app; try apply plain_one; apply plain_no; reflexivity. Qed.

(** A row of three nodes with buffers of two slots per channel.  Node 0 sends two packets to node 2, node 1 one; node 2 frees each slot a while after it read the flit. *)
Definition tx_es : list tev :=
  tx_edge 0 [(0, ex_fl 200 true false 0); (1, ex_fl 1200 true false 0)] ++ tx_edge 1 [(0, ex_fl 201 false true 0); (1, ex_fl 1201 false true 0)] ++ tx_edge 2 [(0, ex_fl 202 true true 0)] ++
  flat_map (fun t => tx_edge t [(0, ex_fl 202 true true 0)]) [3; 4; 5; 6]%Z ++ flat_map (fun t => tx_edge t []) [7; 8; 9; 10; 11; 12]%Z ++ [VFree 2 0] ++ tx_edge 13 [] ++ [VFree 2 0] ++ flat_map (fun t => tx_edge t []) [14; 15; 16; 17; 18; 19; 20; 21; 22; 23; 24]%Z ++ [VFree 2 0] ++
  flat_map (fun t => tx_edge t []) [25; 26; 27; 28; 29; 30; 31; 32; 33]%Z ++ map VRead [0; 1; 2].
Definition tx_w (rd : bool) : netcfg := ex_w rd.
Definition tseen {P} (r : option (term P * list tobs)) : option (list (list Z) * list (list Z)) :=
  match r with Some (_, o) => Some (map (fun n => map f_id (took n o)) [0; 1; 2], map (fun n => map f_id (got n o)) [0; 1; 2]) | None => None end.

(** One packet of one flit.  [tx_mix b t]: from time [t] on the nodes read after the cycle instead of before it, or the other way round. *)
Definition tx_after (t : Z) (fs : list (nat * flit)) : list tev :=
  map (fun n => VInj n t (option_map snd (find (fun x => Nat.eqb (fst x) n) fs))) [0; 1; 2] ++ [VTick (tx_clk t)] ++ map VRead [0; 1; 2].
Definition tx_mix (b : bool) (t : nat) : list tev :=
  flat_map (fun i => (if xorb b (Nat.ltb i t) then tx_edge else tx_after) (Z.of_nat i) (if Nat.eqb i 0 then [(0, ex_fl 200 true true 0)] else [])) (seq 0 20).
Lemma plain_after : forall t fs, plain (tx_after t fs).
Proof. intros. unfold tx_after. repeat apply plain_app; try apply plain_one; apply plain_no; reflexivity. Qed.
Lemma plain_mix : forall b t, plain (tx_mix b t).
Proof. intros. apply plain_flat. intros i. destruct (xorb _ _); [apply plain_edge|apply plain_after]. Qed.
Lemma plain_es : plain tx_es.
Proof. unfold tx_es. repeat apply plain_app; try apply plain_edge; try (apply plain_flat; intros; apply plain_edge); first [apply plain_one|apply plain_no; reflexivity]. Qed.
Lemma tx_pol : new_private (bc_vcs ex_b) (-1) 2 (bc_wait ex_b) = Some (ex_b, private_policy 2).
Proof. reflexivity. Qed.
Lemma tx_decent : tdecent_run (private_policy 2) (tx_w true) tx_rf (starts (ex_T one one) (tx_w true)) tx_es.
Proof. apply tdecentb_ok; [apply plain_es|vm_compute; reflexivity]. Qed.
Lemma tx_decent' : tdecent_run (private_policy 2) (tx_w true) tx_rf (head_ok (rf_dor 3 1) 3 1 (ex_T one one) 2) tx_es.
Proof. exact (tdecent_weaken _ _ _ _ _ (starts_ok true true 3 1 ex_b true 1 (-1) (ex_T one one) ltac:(lia) ltac:(cbn; lia)) _ _ _ _ tx_decent). Qed.
Lemma tx_turn : in_turn (tx_w true) tx_es.
Proof. apply turnb_ok. vm_compute. reflexivity. Qed.

Example C82_terminals_ex : wired (tx_w true) /\ new_private (bc_vcs ex_b) (-1) 2 (bc_wait ex_b) = Some (w_b (tx_w true), private_policy 2) /\
  routes_ok (tx_w true) tx_rf (head_ok (rf_dor 3 1) 3 1 (ex_T one one) 2) /\ tdecent_run (private_policy 2) (tx_w true) tx_rf (head_ok (rf_dor 3 1) 3 1 (ex_T one one) 2) tx_es /\ in_turn (tx_w true) tx_es /\
  tseen (term_run (tx_w true) tx_rf (firstn 120 tx_es) (term0 (private_policy 2) (tx_w true))) = Some ([[200; 201; 202]; [1200; 1201]; []], [[]; []; [1200; 1201]])%Z.
Proof.
  split; [apply C80_cube_wired; lia|]. split; [reflexivity|]. split; [apply dor_routes; lia|]. split; [apply tx_decent'|].
  split; [apply tx_turn|]. vm_compute. reflexivity.
Qed.
Definition agreeb (T : traffic) (l : list flit) : bool := togetherb (y_src T) l && togetherb (y_dest T) l && togetherb (y_b T) l && togetherb (y_e T) l.
Lemma agreeb_ok : forall T l, agreeb T l = true -> agree T l.
Proof.
  intros T l H. unfold agreeb in H. apply andb_true_iff in H. destruct H as [H H4]. apply andb_true_iff in H. destruct H as [H H3]. apply andb_true_iff in H. destruct H as [H1 H2].
  split; [|split; [|split]]; apply togetherb_ok; auto.
Qed.
Definition within (m v : nat) (o : list tobs) : bool := forallb (fun x => match x with Took n f => Nat.ltb n m && Nat.ltb (f_vc f) v | Got _ _ => true end) o.
Lemma within_ok : forall T m v o, within m v o = true -> forallb (fun n => forallb (fun u => agreeb T (on_vc u (took n o))) (seq 0 v)) (seq 0 m) = true -> forall n u, agree T (on_vc u (took n o)).
Proof.
  intros T m v o W A n u. assert (B : forall f, In f (took n o) -> n < m /\ f_vc f < v).
  { intros f Hf. unfold took in Hf. apply in_flat_map in Hf. destruct Hf as [x [Hx Hf]]. unfold within in W. rewrite forallb_forall in W. specialize (W x Hx). destruct x as [i g|i g]; [|contradiction].
    destruct (Nat.eqb_spec i n) as [->|]; [|contradiction]. destruct Hf as [->|[]]. apply andb_true_iff in W. destruct W as [W1 W2]. apply Nat.ltb_lt in W1, W2. auto. }
  destruct (on_vc u (took n o)) as [|f r] eqn:E; [repeat split; intros [|? [|? ?]] ? ? ? Q; discriminate|]. rewrite <- E.
  assert (Hf : In f (on_vc u (took n o))) by (rewrite E; left; auto). apply filter_In in Hf. destruct Hf as [H1 H2]. apply Nat.eqb_eq in H2. destruct (B f H1) as [B1 B2].
  rewrite forallb_forall in A. specialize (A n ltac:(apply in_seq; lia)). rewrite forallb_forall in A. apply agreeb_ok. apply A. apply in_seq. lia.
Qed.
Lemma tx_agree : forall m v, match term_run (tx_w true) tx_rf tx_es (term0 (private_policy 2) (tx_w true)) with Some (s, o) => agree (ex_T one one) (on_vc v (took m o)) | None => False end.
Proof.
  assert (H : match term_run (tx_w true) tx_rf tx_es (term0 (private_policy 2) (tx_w true)) with
    | Some (s, o) => within 3 2 o && forallb (fun n => forallb (fun u => agreeb (ex_T one one) (on_vc u (took n o))) (seq 0 2)) (seq 0 3) | None => false end = true) by (vm_compute; reflexivity).
  destruct (term_run (tx_w true) tx_rf tx_es (term0 (private_policy 2) (tx_w true))) as [[s o]|]; [|discriminate]. apply andb_true_iff in H. destruct H. intros m v. eapply within_ok; eauto.
Qed.
Example C83_mesh_ex : tdecent_run (private_policy 2) (tx_w true) tx_rf (starts (ex_T one one) (tx_w true)) tx_es /\ in_turn (tx_w true) tx_es /\
  match term_run (tx_w true) tx_rf tx_es (term0 (private_policy 2) (tx_w true)) with
  | Some (s, o) => (forall m v, agree (ex_T one one) (on_vc v (took m o))) /\ map f_id (inside (tx_w true) (tm_net s)) = [] /\ map f_id (flat_map (fun n => opt (tm_inj s n) ++ unread n tx_es s) [0; 1; 2]) = [] /\
      map f_id (between (ex_T one one) 0 2 0 (got 2 o)) = [200; 201; 202]%Z /\ map f_id (got 2 o) = [1200; 1201; 200; 201; 202]%Z
  | None => False end.
Proof.
  split; [apply tx_decent|]. split; [apply tx_turn|]. pose proof tx_agree as A.
  assert (B : match term_run (tx_w true) tx_rf tx_es (term0 (private_policy 2) (tx_w true)) with
    | Some (s, o) => map f_id (inside (tx_w true) (tm_net s)) = [] /\ map f_id (flat_map (fun n => opt (tm_inj s n) ++ unread n tx_es s) [0; 1; 2]) = [] /\
      map f_id (between (ex_T one one) 0 2 0 (got 2 o)) = [200; 201; 202]%Z /\ map f_id (got 2 o) = [1200; 1201; 200; 201; 202]%Z
    | None => False end) by (vm_compute; auto).
  destruct (term_run (tx_w true) tx_rf tx_es (term0 (private_policy 2) (tx_w true))) as [[s o]|]; [|contradiction]. split; auto.
Qed.

(** If the order at an edge of the NoC clock changes, a flit is read twice, or not at all; and a node that offers two flits between two cycles loses the first. *)
Theorem C82_turns_refuted : let w := ex_w true in exists P rf T es1 es2 es3 s1 o1 s2 o2 s3 o3, new_private (bc_vcs ex_b) (-1) 2 (bc_wait ex_b) = Some (w_b w, P) /\
  (tdecent_run P w rf (starts T w) es1 /\ term_run w rf es1 (term0 P w) = Some (s1, o1) /\ map f_id (took 0 o1) = [200]%Z /\ map f_id (got 2 o1) = [200; 200]%Z) /\
  (tdecent_run P w rf (starts T w) es2 /\ term_run w rf es2 (term0 P w) = Some (s2, o2) /\ map f_id (took 0 o2) = [200]%Z /\ map f_id (got 2 o2) = [] /\ inside w (tm_net s2) = [] /\ ch_out (n_f (tm_net s2) (Ej 2)) = None) /\
  (tdecent_run P w rf (starts T w) es3 /\ term_run w rf es3 (term0 P w) = Some (s3, o3) /\ map f_id (took 0 o3) = [200; 201]%Z /\ ~ In 200%Z (map f_id (inside w (tm_net s3) ++ got 2 o3 ++ opt (tm_inj s3 0)))).
Proof.
  exists (private_policy 2), tx_rf, (ex_T one one), (tx_mix true 16), (tx_mix false 16), [VInj 0 0 (Some (ex_fl 200 true false 0)); VInj 0 0 (Some (ex_fl 201 false true 0)); VTick (tx_clk 0)].
  assert (X : forall es (Q : term (private_policy 2) -> list tobs -> Prop), match term_run (ex_w true) tx_rf es (term0 (private_policy 2) (ex_w true)) with Some (s, o) => Q s o | None => False end ->
    exists s o, term_run (ex_w true) tx_rf es (term0 (private_policy 2) (ex_w true)) = Some (s, o) /\ Q s o).
  { intros es Q H. destruct (term_run _ _ _ _) as [[s o]|]; [eauto|contradiction]. }
  destruct (X (tx_mix true 16) (fun s o => map f_id (took 0 o) = [200]%Z /\ map f_id (got 2 o) = [200; 200]%Z)) as [s1 [o1 X1]]; [vm_compute; auto|].
  destruct (X (tx_mix false 16) (fun s o => map f_id (took 0 o) = [200]%Z /\ map f_id (got 2 o) = [] /\ inside (ex_w true) (tm_net s) = [] /\ ch_out (n_f (tm_net s) (Ej 2)) = None)) as [s2 [o2 X2]]; [vm_compute; auto|].
  destruct (X [VInj 0 0 (Some (ex_fl 200 true false 0)); VInj 0 0 (Some (ex_fl 201 false true 0)); VTick (tx_clk 0)]
    (fun s o => map f_id (took 0 o) = [200; 201]%Z /\ ~ In 200%Z (map f_id (inside (ex_w true) (tm_net s) ++ got 2 o ++ opt (tm_inj s 0))))) as [s3 [o3 X3]].
  { vm_compute. split; auto. intros [H|[]]. discriminate. }
  exists s1, o1, s2, o2, s3, o3. split; [reflexivity|]. split; [|split]; (split; [apply tdecentb_ok; [apply plain_mix || (apply (plain_app [_; _] [_]); [apply plain_no; reflexivity|apply plain_one])|vm_compute; reflexivity]|auto]).
Qed.
Print Assumptions C82_turns_refuted.
