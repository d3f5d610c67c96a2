(** Sums over ports and channels. *)
From Coq Require Import ZArith Arith Bool List Lia Permutation.
From Verif Require Import Fupd ArbiterModel AllocModel AllocSpec BufferModel BufferSpec BufferProofs RouteModel ChannelModel IqRouterModel IqRouterSpec IqRouterProofs IqRouterInv IqRouterRun Prop_IqRouter NetModel NetSpec NetProofs.
Import ListNotations.
Open Scope nat_scope.

Lemma flat_perm : forall A B (f g : A -> list B) l, (forall a, In a l -> Permutation (f a) (g a)) -> Permutation (flat_map f l) (flat_map g l).
Proof. intros A B f g l. induction l as [|a l IH]; intros H; [constructor|]. cbn. apply Permutation_app; [apply H; left; auto|apply IH; intros; apply H; right; auto]. Qed.
Lemma flat_app : forall A B (f g : A -> list B) l, Permutation (flat_map (fun a => f a ++ g a) l) (flat_map f l ++ flat_map g l).
Proof.
  intros A B f g l. induction l as [|a l IH]; [constructor|]. cbn. rewrite <- !app_assoc. apply Permutation_app_head. rewrite IH, !app_assoc. apply Permutation_app_tail. apply Permutation_app_comm.
Qed.
Lemma flat_nil : forall A B (l : list A), flat_map (fun _ => @nil B) l = [].
Proof. intros A B l. induction l; auto. Qed.
Lemma flat_swap : forall A B C (f : A -> B -> list C) l m, Permutation (flat_map (fun a => flat_map (fun b => f a b) m) l) (flat_map (fun b => flat_map (fun a => f a b) l) m).
Proof.
  intros A B C f l m. induction l as [|a l IH]; [cbn; rewrite flat_nil; constructor|]. cbn. rewrite IH, <- flat_app. reflexivity.
Qed.
Lemma flat_ext : forall A B (f g : A -> list B) l, (forall a, In a l -> f a = g a) -> flat_map f l = flat_map g l.
Proof. intros A B f g l. induction l as [|a l IH]; intros H; [reflexivity|]. cbn. rewrite (H a (or_introl eq_refl)), IH; auto. intros. apply H. right. auto. Qed.
Lemma flat_one : forall B (g : nat -> list B) (k : nat) (a : B) n s, s <= k < s + n -> Permutation (flat_map (fun j => if Nat.eqb k j then a :: g j else g j) (seq s n)) (a :: flat_map g (seq s n)).
Proof.
  intros B g k a n. induction n as [|n IH]; intros s H; [lia|]. cbn [seq flat_map]. destruct (Nat.eqb_spec k s) as [->|N].
  - cbn [app]. constructor. apply Permutation_app_head. rewrite (flat_ext _ _ _ g); [reflexivity|]. intros j Hj. apply in_seq in Hj. rewrite (proj2 (Nat.eqb_neq s j)) by lia. reflexivity.
  - rewrite (IH (S s)) by lia. symmetry. apply Permutation_middle.
Qed.
Lemma partition_perm : forall A (key : A -> nat) n l, Forall (fun a => key a < n) l -> Permutation (flat_map (fun k => filter (fun a => Nat.eqb (key a) k) l) (seq 0 n)) l.
Proof.
  intros A key n l F. induction F as [|a l Ha F IH]; [cbn; rewrite flat_nil; constructor|]. cbn [filter].
  rewrite flat_one by lia. constructor. exact IH.
Qed.
Lemma filter_and : forall A (p q : A -> bool) l, filter (fun a => p a && q a) l = filter q (filter p l).
Proof. intros A p q l. induction l as [|a l IH]; [reflexivity|]. cbn. destruct (p a); cbn; [destruct (q a); congruence|auto]. Qed.
Lemma partition2 : forall A (k1 k2 : A -> nat) n m l, Forall (fun a => k1 a < n /\ k2 a < m) l ->
  Permutation (flat_map (fun i => flat_map (fun v => filter (fun a => Nat.eqb (k1 a) i && Nat.eqb (k2 a) v) l) (seq 0 m)) (seq 0 n)) l.
Proof.
  intros A k1 k2 n m l F. rewrite (flat_perm _ _ _ (fun i => filter (fun a => Nat.eqb (k1 a) i) l)).
  - apply partition_perm. eapply Forall_impl; [|exact F]. cbn. tauto.
  - intros i _. rewrite (flat_ext _ _ _ (fun v => filter (fun a => Nat.eqb (k2 a) v) (filter (fun a => Nat.eqb (k1 a) i) l))) by (intros; apply filter_and).
    apply partition_perm. apply Forall_forall. intros a Ha. apply filter_In in Ha. rewrite Forall_forall in F. apply (F a). tauto.
Qed.
Lemma map_flat : forall A B C (h : B -> C) (f : A -> list B) l, map h (flat_map f l) = flat_map (fun a => map h (f a)) l.
Proof. intros A B C h f l. induction l as [|a l IH]; [reflexivity|]. cbn. rewrite map_app, IH. reflexivity. Qed.

Lemma rx_range : forall P c xs hx hy (s : router P) s1 ys i, decent_from c hx hy xs s -> iq_run c xs s = Some (s1, ys) -> i < c_in c -> Forall (fun f => f_vc f < c_vcs c) (rx hx i) -> Forall (fun f => f_vc f < c_vcs c) (rx (hx ++ xs) i).
Proof.
  intros P c xs. induction xs as [|x xs IH]; intros hx hy s s1 ys i D E Hi F; [rewrite app_nil_r; auto|]. cbn [iq_run] in E. destruct D as [D1 D2]. destruct (iq_step c x s) as [[s2 y]|] eqn:E1; [|discriminate].
  destruct (iq_run c xs s2) as [[s3 zs]|] eqn:E2; [|discriminate]. replace (hx ++ x :: xs) with ((hx ++ [x]) ++ xs) by (rewrite <- app_assoc; reflexivity).
  apply (IH _ _ _ _ _ _ (D2 _ _ eq_refl) E2 Hi). rewrite rx_snoc. apply Forall_app. split; auto. destruct (i_flit x i) as [f|] eqn:Ef; constructor; auto. apply (de_flit _ _ _ _ D1 i f Hi Ef).
Qed.

(** Nothing is lost in a router. *)
Lemma relayed_balance : forall c xs ys waits transit trips outs, relayed c xs ys waits transit trips outs -> (forall i, i < c_in c -> Forall (fun f => f_vc f < c_vcs c) (rx xs i)) ->
  Permutation (map tag (flat_map (rx xs) (seq 0 (c_in c))))
    (map tag (flat_map (tx ys) (seq 0 (c_outs c)) ++ flat_map (fun i => flat_map (waits i) (seq 0 (c_vcs c))) (seq 0 (c_in c)) ++ flat_map transit (seq 0 (c_outs c)))).
Proof.
  intros c xs ys waits transit trips outs [R1 R2 R3 R4 R5 R6] F.
  set (I := seq 0 (c_in c)). set (V := seq 0 (c_vcs c)). set (O := seq 0 (c_outs c)).
  assert (HI : forall i, In i I -> i < c_in c) by (intros i H; apply in_seq in H; lia). assert (HV : forall v, In v V -> v < c_vcs c) by (intros i H; apply in_seq in H; lia). assert (HO : forall o, In o O -> o < c_outs c) by (intros i H; apply in_seq in H; lia).
  assert (A1 : Permutation (flat_map (rx xs) I) (flat_map (fun i => flat_map (fun v => map fst (trips i v)) V) I ++ flat_map (fun i => flat_map (waits i) V) I)).
  { rewrite <- flat_app. apply flat_perm. intros i Hi. rewrite <- flat_app. rewrite <- (flat_ext _ _ (fun v => on_vc v (rx xs i))) by (intros v Hv; apply R1; auto). symmetry. apply partition_perm. auto. }
  assert (A2 : Permutation (map tag (flat_map (fun i => flat_map (fun v => map fst (trips i v)) V) I)) (map tag (flat_map (tx ys) O ++ flat_map transit O))).
  { rewrite map_flat. rewrite (flat_ext _ _ _ (fun i => flat_map (fun v => map (fun t : trip => tag (snd (snd t))) (trips i v)) V)).
    2:{ intros i Hi. rewrite map_flat. apply flat_ext. intros v Hv. rewrite map_map. apply map_ext_in. intros [f [o g]] Ht. cbn [fst snd]. pose proof (proj1 (R2 i v (HI i Hi) (HV v Hv))) as T. rewrite Forall_forall in T. specialize (T _ Ht).
        unfold trip_ok in T. destruct T as [T1 [T2 [T3 [T4 _]]]]. unfold tag. congruence. }
    rewrite <- flat_app. rewrite (map_flat _ _ _ tag). rewrite (flat_ext _ _ (fun o => map tag (tx ys o ++ transit o)) (fun o => map tag (map snd (outs o)))) by (intros o Ho; rewrite (proj1 (R3 o (HO o Ho))); reflexivity).
    transitivity (flat_map (fun o => flat_map (fun i => flat_map (fun v => map tag (from i v (outs o))) V) I) O).
    - rewrite <- (flat_swap _ _ _ (fun i o => flat_map (fun v => map tag (from i v (outs o))) V) I O). apply flat_perm. intros i Hi. rewrite <- (flat_swap _ _ _ (fun v o => map tag (from i v (outs o))) V O). apply flat_perm. intros v Hv.
      rewrite (flat_ext _ _ _ (fun o => map (fun t : trip => tag (snd (snd t))) (filter (fun t : trip => Nat.eqb (fst (snd t)) o) (trips i v)))) by (intros o Ho; rewrite R5 by auto; unfold left_for; rewrite map_map; reflexivity).
      rewrite <- map_flat. apply Permutation_map. symmetry. apply (partition_perm _ (fun t : trip => fst (snd t))). eapply Forall_impl; [|exact (proj1 (R2 i v (HI i Hi) (HV v Hv)))]. intros [f [o g]] T. unfold trip_ok in T. cbn. tauto.
    - apply flat_perm. intros o Ho. unfold from. rewrite (flat_ext _ _ _ (fun i => map tag (map snd (flat_map (fun v => filter (fun a => Nat.eqb (fst (fst a)) i && Nat.eqb (snd (fst a)) v) (outs o)) V)))) by (intros i Hi; rewrite !map_flat; reflexivity).
      rewrite <- !map_flat. do 2 apply Permutation_map. apply (partition2 _ (fun a => fst (fst a)) (fun a => snd (fst a))). apply Forall_forall. intros a Ha. apply (R4 o a Ha). }
  rewrite A1, map_app, A2, <- map_app. apply Permutation_map. rewrite <- !app_assoc. apply Permutation_app_head. apply Permutation_app_comm.
Qed.

Section Net.
Variables (P : bpolicy) (w : netcfg) (ok : cid -> flit -> Prop).
Hypothesis W : wired w.
Hypothesis SP : some_policy (w_b w) P.

Lemma router_balance : forall r xs ys s, r < w_n w -> decent_run P (w_cfg w r) xs -> iq_run (w_cfg w r) xs (router0 P) = Some (s, ys) ->
  Permutation (map tag (flat_map (rx xs) (seq 0 (c_in (w_cfg w r))))) (map tag (flat_map (tx ys) (seq 0 (c_outs (w_cfg w r))) ++ stock (w_cfg w r) s)).
Proof.
  intros r xs ys s Hr D E. destruct (C39_router _ _ _ (policy_of P w W SP r Hr) D) as [s1 [ys1 [trips [outs [E1 [R _]]]]]]. rewrite E in E1. injection E1 as <- <-.
  apply (relayed_balance _ _ _ _ _ _ _ R). intros i Hi. apply (rx_range _ _ _ [] [] _ _ _ i D E Hi). constructor.
Qed.

(** The inputs of the routers are the channels from the nodes and those between routers. *)
Definition ports (k : nat -> nat) : list (nat * nat) := flat_map (fun r => map (pair r) (seq 0 (k r))) (seq 0 (w_n w)).
Lemma in_ports : forall k r i, In (r, i) (ports k) <-> r < w_n w /\ i < k r.
Proof.
  intros k r i. unfold ports. rewrite in_flat_map. split.
  - intros [r0 [H1 H2]]. apply in_map_iff in H2. destruct H2 as [j [E H2]]. injection E as <- <-. apply in_seq in H1, H2. lia.
  - intros [H1 H2]. exists r. split; [apply in_seq; lia|]. apply in_map_iff. exists i. split; auto. apply in_seq. lia.
Qed.
Lemma nodup_ports : forall k, NoDup (ports k).
Proof.
  intros k. unfold ports. assert (G : forall l, NoDup l -> NoDup (flat_map (fun r => map (pair r) (seq 0 (k r))) l)).
  { intros l. induction l as [|r l IH]; intros N; [constructor|]. inversion N; subst. cbn. apply NoDup_app; auto.
    - apply FinFun.Injective_map_NoDup; [intros a b E; congruence|apply seq_NoDup].
    - intros [r0 i] A B. apply in_map_iff in A. destruct A as [j [E _]]. injection E as <- <-. apply in_flat_map in B. destruct B as [r1 [B1 B2]]. apply in_map_iff in B2. destruct B2 as [j1 [E _]]. injection E as -> _. contradiction. }
  apply G. apply seq_NoDup.
Qed.
Lemma flat_ports : forall A k (f : nat -> nat -> list A), flat_map (fun a => f (fst a) (snd a)) (ports k) = flat_map (fun r => flat_map (f r) (seq 0 (k r))) (seq 0 (w_n w)).
Proof.
  intros A k f. unfold ports. induction (seq 0 (w_n w)) as [|r l IH]; [reflexivity|]. cbn. rewrite flat_map_app, IH. f_equal. clear. induction (seq 0 (k r)) as [|i l IH]; [reflexivity|]. cbn. rewrite IH. reflexivity.
Qed.
Lemma nodup_cids : forall (f : nat -> cid) n (g : nat -> cid) m, (forall a b, f a = f b -> a = b) -> (forall a b, g a = g b -> a = b) -> (forall a b, f a <> g b) -> NoDup (map f (seq 0 n) ++ map g (seq 0 m)).
Proof.
  intros f n g m Hf Hg N. apply NoDup_app; [apply FinFun.Injective_map_NoDup; auto using seq_NoDup|apply FinFun.Injective_map_NoDup; auto using seq_NoDup|].
  intros x A B. apply in_map_iff in A, B. destruct A as [a [<- _]], B as [b [E _]]. apply (N a b). auto.
Qed.
Lemma ins_perm : Permutation (map (fun a => w_in w (fst a) (snd a)) (ports (fun r => c_in (w_cfg w r)))) (map Inj (seq 0 (w_nodes w)) ++ map Ch (seq 0 (w_chans w))).
Proof.
  apply NoDup_Permutation.
  - apply NoDup_map; [apply nodup_ports|]. intros [r i] [r' i'] A B E. cbn in E. apply in_ports in A, B.
    assert (X : w_snk w (w_in w r i) = Some (r, i)) by (apply (wi_in w W); tauto). assert (Y : w_snk w (w_in w r' i') = Some (r', i')) by (apply (wi_in w W); tauto). congruence.
  - apply nodup_cids; congruence.
  - intros c. rewrite in_app_iff, !in_map_iff. split.
    + intros [[r i] [E A]]. cbn in E. apply in_ports in A. assert (X : w_snk w c = Some (r, i)) by (apply (wi_in w W); tauto). destruct c as [n|d|c].
      * left. exists n. split; auto. apply in_seq. assert (n < w_nodes w) by (apply (proj2 (wi_inj w W n)); congruence). lia.
      * rewrite (proj1 (wi_ej w W d)) in X. discriminate.
      * right. exists c. split; auto. apply in_seq. assert (c < w_chans w) by (apply (proj1 (wi_ch w W c)); congruence). lia.
    + assert (G : w_snk w c <> None -> exists x : nat * nat, w_in w (fst x) (snd x) = c /\ In x (ports (fun r => c_in (w_cfg w r)))).
      { intros N. destruct (w_snk w c) as [[r i]|] eqn:E; [|congruence]. apply (wi_in w W) in E. destruct E as [H1 [H2 H3]]. exists (r, i). split; auto. apply in_ports. auto. }
      intros [[n [<- A]]|[n [<- A]]]; apply in_seq in A; apply G; [apply (proj2 (wi_inj w W n)); lia|apply (proj1 (wi_ch w W n)); lia].
Qed.
Lemma outs_perm : Permutation (map (fun a => w_out w (fst a) (snd a)) (ports (fun r => c_outs (w_cfg w r)))) (map Ej (seq 0 (w_nodes w)) ++ map Ch (seq 0 (w_chans w))).
Proof.
  apply NoDup_Permutation.
  - apply NoDup_map; [apply nodup_ports|]. intros [r i] [r' i'] A B E. cbn in E. apply in_ports in A, B.
    assert (X : w_src w (w_out w r i) = Some (r, i)) by (apply (wi_out w W); tauto). assert (Y : w_src w (w_out w r' i') = Some (r', i')) by (apply (wi_out w W); tauto). congruence.
  - apply nodup_cids; congruence.
  - intros c. rewrite in_app_iff, !in_map_iff. split.
    + intros [[r i] [E A]]. cbn in E. apply in_ports in A. assert (X : w_src w c = Some (r, i)) by (apply (wi_out w W); tauto). destruct c as [n|d|c].
      * rewrite (proj1 (wi_inj w W n)) in X. discriminate.
      * left. exists d. split; auto. apply in_seq. assert (d < w_nodes w) by (apply (proj2 (wi_ej w W d)); congruence). lia.
      * right. exists c. split; auto. apply in_seq. assert (c < w_chans w) by (apply (proj2 (wi_ch w W c)); congruence). lia.
    + assert (G : w_src w c <> None -> exists x : nat * nat, w_out w (fst x) (snd x) = c /\ In x (ports (fun r => c_outs (w_cfg w r)))).
      { intros N. destruct (w_src w c) as [[r i]|] eqn:E; [|congruence]. apply (wi_out w W) in E. destruct E as [H1 [H2 H3]]. exists (r, i). split; auto. apply in_ports. auto. }
      intros [[n [<- A]]|[n [<- A]]]; apply in_seq in A; apply G; [apply (proj2 (wi_ej w W n)); lia|apply (proj2 (wi_ch w W n)); lia].
Qed.
Lemma flat_map_map : forall A B C (g : B -> list C) (f : A -> B) l, flat_map g (map f l) = flat_map (fun a => g (f a)) l.
Proof. intros A B C g f l. induction l as [|a l IH]; [reflexivity|]. cbn. rewrite IH. reflexivity. Qed.
Lemma perm_flat : forall A B (f : A -> list B) l l', Permutation l l' -> Permutation (flat_map f l) (flat_map f l').
Proof. intros A B f l l' H. induction H; cbn; [constructor|apply Permutation_app_head; auto|rewrite !app_assoc; apply Permutation_app_tail, Permutation_app_comm|etransitivity; eauto]. Qed.
Lemma over_ins : forall A (f : cid -> list A), Permutation (flat_map (fun r => flat_map (fun i => f (w_in w r i)) (seq 0 (c_in (w_cfg w r)))) (seq 0 (w_n w)))
  (flat_map (fun n => f (Inj n)) (seq 0 (w_nodes w)) ++ flat_map (fun c => f (Ch c)) (seq 0 (w_chans w))).
Proof.
  intros A f. rewrite <- (flat_ports _ (fun r => c_in (w_cfg w r)) (fun r i => f (w_in w r i))). rewrite <- (flat_map_map _ _ _ f Inj), <- (flat_map_map _ _ _ f Ch), <- flat_map_app. rewrite <- (perm_flat _ _ _ _ _ ins_perm). rewrite flat_map_map. reflexivity.
Qed.
Lemma over_outs : forall A (f : cid -> list A), Permutation (flat_map (fun r => flat_map (fun o => f (w_out w r o)) (seq 0 (c_outs (w_cfg w r)))) (seq 0 (w_n w)))
  (flat_map (fun d => f (Ej d)) (seq 0 (w_nodes w)) ++ flat_map (fun c => f (Ch c)) (seq 0 (w_chans w))).
Proof.
  intros A f. rewrite <- (flat_ports _ (fun r => c_outs (w_cfg w r)) (fun r i => f (w_out w r i))). rewrite <- (flat_map_map _ _ _ f Ej), <- (flat_map_map _ _ _ f Ch), <- flat_map_app. rewrite <- (perm_flat _ _ _ _ _ outs_perm). rewrite flat_map_map. reflexivity.
Qed.

Lemma perm_shuffle : forall A (p a k x y : list A), Permutation (p ++ a ++ k ++ x ++ y) (x ++ y ++ p ++ k ++ a).
Proof.
  intros A p a k x y. transitivity ((p ++ k ++ a) ++ (x ++ y)).
  - rewrite <- !app_assoc. apply Permutation_app_head. rewrite !app_assoc. do 2 apply Permutation_app_tail. apply Permutation_app_comm.
  - rewrite (app_assoc x). apply Permutation_app_comm.
Qed.
Lemma net_balance : forall ts zs s xs ys, NI P w ok ts zs s xs ys ->
  Permutation (map tag (flat_map (injected ts) (seq 0 (w_nodes w)))) (map tag (flat_map (ejected zs) (seq 0 (w_nodes w)) ++ inside w s)).
Proof.
  intros ts zs s xs ys N. pose proof (ni_car _ _ _ _ _ _ _ _ N) as C.
  set (ent := entered w ts ys). set (way := fun c => opt (ch_out (n_f s c)) ++ pend (n_f s c)).
  assert (I1 : Permutation (flat_map (fun n => ent (Inj n)) (seq 0 (w_nodes w)) ++ flat_map (fun c => ent (Ch c)) (seq 0 (w_chans w)))
                 (flat_map (fun r => flat_map (rx (xs r)) (seq 0 (c_in (w_cfg w r)))) (seq 0 (w_n w)) ++ flat_map (fun n => way (Inj n)) (seq 0 (w_nodes w)) ++ flat_map (fun c => way (Ch c)) (seq 0 (w_chans w)))).
  { rewrite <- (over_ins _ ent), <- (over_ins _ way), <- flat_app. apply flat_perm. intros r Hr. apply in_seq in Hr. rewrite <- flat_app. apply flat_perm. intros i Hi. apply in_seq in Hi.
    unfold ent. rewrite <- (cr_flit _ _ _ _ _ _ C (w_in w r i) r i); [reflexivity|]. apply (wi_in w W). split; [lia|]. split; [lia|auto]. }
  assert (O1 : Permutation (flat_map (fun r => flat_map (tx (ys r)) (seq 0 (c_outs (w_cfg w r)))) (seq 0 (w_n w))) (flat_map (fun d => ent (Ej d)) (seq 0 (w_nodes w)) ++ flat_map (fun c => ent (Ch c)) (seq 0 (w_chans w)))).
  { rewrite <- (over_outs _ ent). apply flat_perm. intros r Hr. apply in_seq in Hr. apply flat_perm. intros o Ho. apply in_seq in Ho. unfold ent, entered.
    rewrite (proj2 (wi_out w W (w_out w r o) r o)); [reflexivity|]. split; [lia|]. split; [lia|auto]. }
  assert (B1 : Permutation (map tag (flat_map (fun r => flat_map (rx (xs r)) (seq 0 (c_in (w_cfg w r)))) (seq 0 (w_n w))))
                 (map tag (flat_map (fun r => flat_map (tx (ys r)) (seq 0 (c_outs (w_cfg w r)))) (seq 0 (w_n w)) ++ flat_map (fun r => stock (w_cfg w r) (rt s r)) (seq 0 (w_n w))))).
  { rewrite <- flat_app, !map_flat. apply flat_perm. intros r Hr. apply in_seq in Hr. destruct (ni_run _ _ _ _ _ _ _ _ N r) as [D E]; [lia|]. apply router_balance; auto. lia. }
  assert (E1 : flat_map (fun n => ent (Inj n)) (seq 0 (w_nodes w)) = flat_map (injected ts) (seq 0 (w_nodes w))).
  { apply flat_ext. intros n _. unfold ent, entered. rewrite (proj1 (wi_inj w W n)). reflexivity. }
  assert (E2 : Permutation (flat_map (fun d => ent (Ej d)) (seq 0 (w_nodes w))) (flat_map (ejected zs) (seq 0 (w_nodes w)) ++ flat_map (fun d => pend (n_f s (Ej d))) (seq 0 (w_nodes w)))).
  { rewrite <- flat_app. apply flat_perm. intros d Hd. apply in_seq in Hd. destruct (w_src w (Ej d)) as [[r o]|] eqn:E; [|exfalso; apply (proj2 (proj2 (wi_ej w W d))); [lia|auto]].
    unfold ent. rewrite <- (cr_eject _ _ _ _ _ _ C d r o E). reflexivity. }
  rewrite E1 in I1. apply (Permutation_map tag) in I1, O1, E2. rewrite !map_app in *. rewrite B1, O1, E2 in I1. unfold inside. fold way. rewrite !map_app.
  set (a := map tag (flat_map (fun c => ent (Ch c)) (seq 0 (w_chans w)))) in *. apply (Permutation_app_inv_r a). rewrite I1. clear.
  rewrite <- !app_assoc. apply Permutation_app_head. apply perm_shuffle.
Qed.
End Net.
