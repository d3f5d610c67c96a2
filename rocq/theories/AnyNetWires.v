(** The wiring of networks described in a file, and the way of packets through them. *)
From Coq Require Import ZArith Arith Bool List Lia Permutation.
From Verif Require Import Fupd AllocModel AllocSpec BufferModel RouteModel ChannelModel IqRouterModel IqRouterSpec IqRouterInv NetModel NetSpec NetMeshModel NetMeshSpec NetMeshProofs AnyNetModel AnyNetSpec AnyNetRoute.
Import ListNotations.
Open Scope nat_scope.

Lemma filter_seq : forall A (P : A -> bool) l (d : A) a, map (fun c => nth (c - a) l d) (filter (fun c => P (nth (c - a) l d)) (seq a (length l))) = filter P l.
Proof.
  intros A P l d. induction l as [|x l IH]; intros a; [reflexivity|]. cbn [length seq filter]. rewrite Nat.sub_diag. change (nth 0 (x :: l) d) with x.
  assert (E : forall c, In c (seq (S a) (length l)) -> nth (c - a) (x :: l) d = nth (c - S a) l d) by (intros c Hc; apply in_seq in Hc; replace (c - a) with (S (c - S a)) by lia; reflexivity).
  assert (B : map (fun c => nth (c - a) (x :: l) d) (filter (fun c => P (nth (c - a) (x :: l) d)) (seq (S a) (length l))) = filter P l).
  { rewrite <- (IH (S a)). rewrite (filter_ext_in _ (fun c => P (nth (c - S a) l d))) by (intros c Hc; rewrite E; auto). apply map_ext_in. intros c Hc. apply filter_In in Hc. apply E. tauto. }
  destruct (P x); cbn [map]; rewrite B; auto. rewrite Nat.sub_diag. reflexivity.
Qed.
Lemma filter_at : forall A (P : A -> bool) l (d : A), map (fun c => nth c l d) (filter (fun c => P (nth c l d)) (seq 0 (length l))) = filter P l.
Proof.
  intros A P l d. rewrite <- (filter_seq A P l d 0). rewrite (filter_ext _ (fun c => P (nth (c - 0) l d))) by (intros c; rewrite Nat.sub_0_r; auto). apply map_ext. intros c. rewrite Nat.sub_0_r. auto.
Qed.
Lemma nth_nth : forall A (l : list A) c x d, nth_error l c = Some x -> nth c l d = x.
Proof. intros A l. induction l as [|y l IH]; intros [|c] x d E; try discriminate; cbn in *; [congruence|auto]. Qed.
Lemma nth_some : forall A (l : list A) c d, c < length l -> nth_error l c = Some (nth c l d).
Proof. intros A l. induction l as [|y l IH]; intros [|c] d H; cbn in *; try lia; auto. apply IH. lia. Qed.

Section Wires.
Variable F : anyfile.
Hypothesis CL : clean F.
Let n := an_size F.
Let dl := (0, 0).

Lemma links_in : forall a b, In (a, b) (links F) <-> lat F a b <> None.
Proof.
  intros a b. unfold links. rewrite in_flat_map. split.
  - intros [r [_ H]]. apply in_map_iff in H. destruct H as [e [E H]]. injection E as <- <-. unfold lat. intros X. apply nm_none in X. apply X. apply in_map. auto.
  - intros H. destruct (lat F a b) as [x|] eqn:E; [|congruence]. exists a. split; [rewrite (cl_local F CL); apply in_seq; destruct (lat_lt F CL _ _ _ E); lia|].
    apply in_map_iff. exists (b, x). split; auto. apply nm_in. auto.
Qed.
Lemma nodup_pairs : forall (g : nat -> list (nat * nat)) l, NoDup l -> (forall r, NoDup (g r)) -> (forall r x, In x (g r) -> fst x = r) -> NoDup (flat_map g l).
Proof.
  intros g l N G H. induction N as [|r l N1 N2 IH]; cbn [flat_map]; [constructor|]. apply NoDup_app; auto. intros x X Y. apply in_flat_map in Y.
  destruct Y as [r' [Y1 Y2]]. apply H in X, Y2. congruence.
Qed.
Lemma links_nodup : NoDup (links F).
Proof.
  apply nodup_pairs; [rewrite (cl_local F CL); apply seq_NoDup| |].
  - intros r. rewrite <- (map_map fst (pair r)). apply FinFun.Injective_map_NoDup; [intros a b E; injection E; auto|apply (cl_once F CL r)].
  - intros r x Hx. apply in_map_iff in Hx. destruct Hx as [e [<- _]]. reflexivity.
Qed.
Lemma filter_own_pairs : forall (g : nat -> list nat) r l, NoDup l -> In r l -> filter (fun e => Nat.eqb (fst e) r) (flat_map (fun a => map (pair a) (g a)) l) = map (pair r) (g r).
Proof.
  intros g r l. induction l as [|a l IH]; intros N H; [destruct H|]. inversion N as [|? ? N1 N2]; subst. cbn [flat_map]. rewrite filter_app.
  assert (X : forall a k, filter (fun e => Nat.eqb (fst e) r) (map (pair a) k) = if Nat.eqb a r then map (pair a) k else @nil (nat * nat)).
  { intros b k. induction k as [|y k IHk]; cbn [map filter fst]; [destruct (Nat.eqb b r); auto|]. rewrite IHk. destruct (Nat.eqb b r); auto. }
  rewrite X. destruct (Nat.eqb_spec a r) as [->|Na].
  - replace (filter _ (flat_map _ l)) with (@nil (nat * nat)); [apply app_nil_r|]. symmetry. clear - X N1. induction l as [|b l IH]; [reflexivity|]. cbn [flat_map]. rewrite filter_app, X.
    destruct (Nat.eqb_spec b r) as [->|]; [exfalso; apply N1; left; auto|]. cbn [app]. apply IH. intros Y. apply N1. right. auto.
  - destruct H as [H|H]; [congruence|]. cbn [app]. auto.
Qed.
Lemma outs_links : forall r, r < n -> map (fun c => nth c (links F) dl) (outs F r) = map (fun e => (r, fst e)) (adj F r).
Proof.
  intros r Hr. unfold outs, dl. rewrite (filter_at _ (fun e => Nat.eqb (fst e) r)). unfold links.
  rewrite (flat_map_ext _ (fun a => map (pair a) (map fst (adj F a)))) by (intros a; rewrite map_map; reflexivity). rewrite (filter_own_pairs (fun a => map fst (adj F a))).
  - rewrite map_map. reflexivity.
  - rewrite (cl_local F CL). apply seq_NoDup.
  - rewrite (cl_local F CL). apply in_seq. unfold n in Hr. lia.
Qed.
Lemma outs_in : forall r c, In c (outs F r) <-> c < length (links F) /\ fst (nth c (links F) dl) = r.
Proof. intros r c. unfold outs. rewrite filter_In, in_seq, Nat.eqb_eq. unfold dl. intuition lia. Qed.
Lemma ins_in : forall r c, In c (ins F r) <-> c < length (links F) /\ snd (nth c (links F) dl) = r.
Proof. intros r c. unfold ins. rewrite filter_In, in_seq, Nat.eqb_eq. unfold dl. intuition lia. Qed.
Lemma outs_nth : forall r k q, r < n -> nth_error (map fst (adj F r)) k = Some q -> exists c, nth_error (outs F r) k = Some c /\ nth_error (links F) c = Some (r, q).
Proof.
  intros r k q Hr E. pose proof (outs_links r Hr) as O. assert (E2 : nth_error (map (fun e => (r, fst e)) (adj F r)) k = Some (r, q)).
  { rewrite nth_error_map in E |- *. destruct (nth_error (adj F r) k); [|discriminate]. cbn in *. congruence. }
  rewrite <- O, nth_error_map in E2. destruct (nth_error (outs F r) k) as [c|] eqn:Ec; [|discriminate]. injection E2 as E2. exists c. split; auto.
  apply nth_error_In in Ec. apply outs_in in Ec. rewrite (nth_some _ _ _ dl) by tauto. congruence.
Qed.
Lemma outs_len : forall r, r < n -> length (outs F r) = length (adj F r).
Proof. intros r Hr. pose proof (outs_links r Hr) as O. apply (f_equal (@length _)) in O. rewrite !map_length in O. exact O. Qed.
Lemma ins_len : forall r, r < n -> length (ins F r) = length (adj F r).
Proof.
  intros r Hr. rewrite <- (map_length (fun c => nth c (links F) dl) (ins F r)). unfold ins, dl. rewrite (filter_at _ (fun e => Nat.eqb (snd e) r)). rewrite <- (map_length fst (filter _ _)), <- (map_length fst (adj F r)).
  apply Permutation_length, NoDup_Permutation.
  - apply NoDup_map; [apply NoDup_filter, links_nodup|]. intros [a b] [a' b'] X Y E. apply filter_In in X, Y. destruct X as [_ X], Y as [_ Y]. apply Nat.eqb_eq in X, Y. cbn in *. congruence.
  - apply (cl_once F CL r).
  - intros a. rewrite in_map_iff. split.
    + intros [[a' b] [E X]]. cbn in E. subst a'. apply filter_In in X. destruct X as [X Y]. apply Nat.eqb_eq in Y. cbn in Y. subst b. apply links_in in X. apply (cl_sym F CL) in X. apply nm_key. unfold lat in X. destruct (nm_get a (adj F r)); [eauto|congruence].
    + intros X. exists (a, r). split; auto. apply filter_In. split; [|apply Nat.eqb_refl]. apply links_in. apply (cl_sym F CL). apply nm_key in X. destruct X as [x X]. unfold lat. congruence.
Qed.
Lemma link_at : forall c a b, nth_error (links F) c = Some (a, b) -> a < n /\ b < n /\ In c (outs F a) /\ In c (ins F b) /\ lat F a b <> None.
Proof.
  intros c a b E. assert (L : lat F a b <> None) by (apply links_in; eapply nth_error_In; eauto). destruct (lat F a b) as [x|] eqn:El; [|congruence]. destruct (lat_lt F CL _ _ _ El) as [A B]. split; auto. split; auto.
  assert (Lc : c < length (links F)) by (apply nth_error_Some; congruence). pose proof (nth_nth _ _ _ _ dl E) as En. split; [apply outs_in; rewrite En; auto|]. split; [apply ins_in; rewrite En; auto|congruence].
Qed.

(** The ports. *)
Lemma port_iff : forall (at_ : nat -> list cid) (d : cid), (forall r, r < n -> length (at_ r) = radix F r) -> (forall r, r < n -> NoDup (at_ r)) -> (forall r r' c, r < n -> r' < n -> In c (at_ r) -> In c (at_ r') -> r = r') ->
  forall c r i, any_port F (fun r i => nth i (at_ r) d) c = Some (r, i) <-> (r < n /\ i < radix F r /\ nth i (at_ r) d = c).
Proof.
  intros at_ d HL HN HU c r i. unfold any_port.
  assert (IN : forall a, In a (rev (flat_map (fun r => map (pair r) (seq 0 (radix F r))) (seq 0 (an_size F)))) <-> fst a < n /\ snd a < radix F (fst a)).
  { intros [a b]. rewrite <- in_rev, in_flat_map. cbn [fst snd]. split.
    - intros [r0 [X Y]]. apply in_map_iff in Y. destruct Y as [j [E Y]]. injection E as <- <-. apply in_seq in X, Y. unfold n. lia.
    - intros [X Y]. exists a. split; [apply in_seq; unfold n in X; lia|]. apply in_map. apply in_seq. lia. }
  assert (INJ : forall r i r' i', r < n -> i < radix F r -> r' < n -> i' < radix F r' -> nth i (at_ r) d = nth i' (at_ r') d -> r = r' /\ i = i').
  { intros a b a' b' Ha Hb Ha' Hb' E. assert (a = a') as <- by (apply (HU a a' (nth b (at_ a) d)); auto; [|rewrite E]; apply nth_In; rewrite HL; auto). split; auto.
    apply (proj1 (NoDup_nth (at_ a) d) (HN a Ha)); auto; rewrite HL; auto. }
  split.
  - intros E. apply find_some in E. destruct E as [E1 E2]. apply IN in E1. apply cid_eqb_eq in E2. cbn [fst snd] in *. tauto.
  - intros [Hr [Hi E]]. destruct (find _ _) as [[r' i']|] eqn:Ef.
    + apply find_some in Ef. destruct Ef as [E1 E2]. apply IN in E1. apply cid_eqb_eq in E2. cbn [fst snd] in *. destruct (INJ r i r' i') as [-> ->]; try tauto. congruence.
    + exfalso. pose proof (find_none _ _ Ef (r, i) (proj2 (IN (r, i)) (conj Hr Hi))) as N. cbn [fst snd] in N. rewrite (proj2 (cid_eqb_eq _ _) E) in N. discriminate.
Qed.
Lemma in_ports : forall r, r < n -> length (map Inj (locals F r) ++ map Ch (ins F r)) = radix F r /\ NoDup (map Inj (locals F r) ++ map Ch (ins F r)).
Proof.
  intros r Hr. split; [rewrite app_length, !map_length, ins_len; auto|]. apply NoDup_app.
  - apply FinFun.Injective_map_NoDup; [intros a b E; injection E; auto|apply (cl_once F CL r)].
  - apply FinFun.Injective_map_NoDup; [intros a b E; injection E; auto|]. apply NoDup_filter, seq_NoDup.
  - intros x X Y. apply in_map_iff in X, Y. destruct X as [? [<- _]], Y as [? [Y _]]. discriminate.
Qed.
Lemma out_ports : forall r, r < n -> length (map Ej (locals F r) ++ map Ch (outs F r)) = radix F r /\ NoDup (map Ej (locals F r) ++ map Ch (outs F r)).
Proof.
  intros r Hr. split; [rewrite app_length, !map_length, outs_len; auto|]. apply NoDup_app.
  - apply FinFun.Injective_map_NoDup; [intros a b E; injection E; auto|apply (cl_once F CL r)].
  - apply FinFun.Injective_map_NoDup; [intros a b E; injection E; auto|]. apply NoDup_filter, seq_NoDup.
  - intros x X Y. apply in_map_iff in X, Y. destruct X as [? [<- _]], Y as [? [Y _]]. discriminate.
Qed.
Lemma at_in : forall r c, In c (map Inj (locals F r) ++ map Ch (ins F r)) <-> match c with Inj m => nm_get m (an_node F) = Some r | Ch k => k < length (links F) /\ snd (nth k (links F) dl) = r | Ej _ => False end.
Proof.
  intros r c. rewrite in_app_iff, !in_map_iff. destruct c as [m|m|k].
  - rewrite <- (cl_node F CL). split; [intros [[x [E H]]|[x [E H]]]; [injection E as <-; auto|discriminate]|intros H; left; eauto].
  - split; [intros [[x [E H]]|[x [E H]]]; discriminate|tauto].
  - rewrite <- ins_in. split; [intros [[x [E H]]|[x [E H]]]; [discriminate|injection E as <-; auto]|intros H; right; eauto].
Qed.
Lemma at_out : forall r c, In c (map Ej (locals F r) ++ map Ch (outs F r)) <-> match c with Ej m => nm_get m (an_node F) = Some r | Ch k => k < length (links F) /\ fst (nth k (links F) dl) = r | Inj _ => False end.
Proof.
  intros r c. rewrite in_app_iff, !in_map_iff. destruct c as [m|m|k].
  - split; [intros [[x [E H]]|[x [E H]]]; discriminate|tauto].
  - rewrite <- (cl_node F CL). split; [intros [[x [E H]]|[x [E H]]]; [injection E as <-; auto|discriminate]|intros H; left; eauto].
  - rewrite <- outs_in. split; [intros [[x [E H]]|[x [E H]]]; [discriminate|injection E as <-; auto]|intros H; right; eauto].
Qed.
Lemma any_snk : forall c r i, any_port F (any_in F) c = Some (r, i) <-> (r < n /\ i < radix F r /\ any_in F r i = c).
Proof.
  apply (port_iff (fun r => map Inj (locals F r) ++ map Ch (ins F r)) (Ch (length (links F)))).
  - intros r Hr. apply in_ports; auto.
  - intros r Hr. apply in_ports; auto.
  - intros r r' c _ _ X Y. apply at_in in X, Y. destruct c as [m|m|k]; [congruence|tauto|destruct X, Y; congruence].
Qed.
Lemma any_src : forall c r i, any_port F (any_out F) c = Some (r, i) <-> (r < n /\ i < radix F r /\ any_out F r i = c).
Proof.
  apply (port_iff (fun r => map Ej (locals F r) ++ map Ch (outs F r)) (Ch (length (links F)))).
  - intros r Hr. apply out_ports; auto.
  - intros r Hr. apply out_ports; auto.
  - intros r r' c _ _ X Y. apply at_out in X, Y. destruct c as [m|m|k]; [tauto|congruence|destruct X, Y; congruence].
Qed.
Lemma any_in_at : forall r i, r < n -> i < radix F r -> In (any_in F r i) (map Inj (locals F r) ++ map Ch (ins F r)).
Proof. intros r i Hr Hi. apply nth_In. rewrite (proj1 (in_ports r Hr)). auto. Qed.
Lemma any_out_at : forall r i, r < n -> i < radix F r -> In (any_out F r i) (map Ej (locals F r) ++ map Ch (outs F r)).
Proof. intros r i Hr Hi. apply nth_In. rewrite (proj1 (out_ports r Hr)). auto. Qed.
Lemma snk_at : forall c r, r < n -> In c (map Inj (locals F r) ++ map Ch (ins F r)) -> exists i, any_port F (any_in F) c = Some (r, i).
Proof. intros c r Hr H. apply (In_nth _ _ (Ch (length (links F)))) in H. destruct H as [i [Hi E]]. rewrite (proj1 (in_ports r Hr)) in Hi. exists i. apply any_snk. auto. Qed.
Lemma src_at : forall c r, r < n -> In c (map Ej (locals F r) ++ map Ch (outs F r)) -> exists i, any_port F (any_out F) c = Some (r, i).
Proof. intros c r Hr H. apply (In_nth _ _ (Ch (length (links F)))) in H. destruct H as [i [Hi E]]. rewrite (proj1 (out_ports r Hr)) in Hi. exists i. apply any_src. auto. Qed.
Lemma any_wired : forall b rd cd ob, wired (any_cfg F b rd cd ob).
Proof.
  intros b rd cd ob. assert (NR := node_router F CL). constructor.
  - intros r _. split; reflexivity.
  - intros c r i. apply any_snk.
  - intros c r o. apply any_src.
  - intros m. split.
    + destruct (w_src (any_cfg F b rd cd ob) (Inj m)) as [[r o]|] eqn:E; auto. exfalso. apply any_src in E. destruct E as [E1 [E2 E]]. pose proof (any_out_at r o E1 E2) as X. rewrite E in X. apply at_out in X. exact X.
    + apply (some_ne True); auto; cbn [any_cfg w_snk w_nodes].
      * intros r i E. apply any_snk in E. destruct E as [E1 [E2 E]]. pose proof (any_in_at r i E1 E2) as X. rewrite E in X. apply at_in in X. assert (I : In m (map fst (an_node F))) by (apply nm_key; eauto). rewrite (cl_seq F CL) in I. apply in_seq in I. lia.
      * intros Hm. destruct (NR m Hm) as [r [E [Hr H]]]. destruct (snk_at (Inj m) r Hr) as [i Ei]; [apply at_in; auto|eauto].
  - intros m. split.
    + destruct (w_snk (any_cfg F b rd cd ob) (Ej m)) as [[r o]|] eqn:E; auto. exfalso. apply any_snk in E. destruct E as [E1 [E2 E]]. pose proof (any_in_at r o E1 E2) as X. rewrite E in X. apply at_in in X. exact X.
    + apply (some_ne True); auto; cbn [any_cfg w_src w_nodes].
      * intros r i E. apply any_src in E. destruct E as [E1 [E2 E]]. pose proof (any_out_at r i E1 E2) as X. rewrite E in X. apply at_out in X. assert (I : In m (map fst (an_node F))) by (apply nm_key; eauto). rewrite (cl_seq F CL) in I. apply in_seq in I. lia.
      * intros Hm. destruct (NR m Hm) as [r [E [Hr H]]]. destruct (src_at (Ej m) r Hr) as [i Ei]; [apply at_out; auto|eauto].
  - intros c. assert (B : c < length (links F) -> fst (nth c (links F) dl) < n /\ snd (nth c (links F) dl) < n).
    { intros Hc. pose proof (nth_some _ _ _ dl Hc) as E. destruct (nth c (links F) dl) as [x y]. apply link_at in E. cbn. tauto. }
    split; apply (some_ne True); auto; cbn [any_cfg w_src w_snk w_chans].
    + intros r i E. apply any_snk in E. destruct E as [E1 [E2 E]]. pose proof (any_in_at r i E1 E2) as X. rewrite E in X. apply at_in in X. tauto.
    + intros Hc. destruct (snk_at (Ch c) (snd (nth c (links F) dl))) as [i Ei]; [apply B; auto|apply at_in; auto|eauto].
    + intros r i E. apply any_src in E. destruct E as [E1 [E2 E]]. pose proof (any_out_at r i E1 E2) as X. rewrite E in X. apply at_out in X. tauto.
    + intros Hc. destruct (src_at (Ch c) (fst (nth c (links F) dl))) as [i Ei]; [apply B; auto|apply at_out; auto|eauto].
Qed.
(** Everything is within its bounds. *)
Lemma same_list_eq : forall a b, a = b -> same_list a b = true.
Proof. intros a b ->. unfold same_list. destruct (list_eq_dec Nat.eq_dec b b); congruence. Qed.
Lemma clean_fits : any_fits F = true.
Proof.
  unfold any_fits. rewrite (same_list_eq _ _ (cl_local F CL)), (same_list_eq _ _ (cl_link F CL)). cbn [andb]. apply forallb_forall. intros r Hr. apply in_seq in Hr. repeat (apply andb_true_iff; split).
  - apply forallb_forall. intros m Hm. apply Nat.ltb_lt. apply (cl_node F CL) in Hm. assert (I : In m (map fst (an_node F))) by (apply nm_key; eauto). rewrite (cl_seq F CL) in I. apply in_seq in I. lia.
  - apply forallb_forall. intros [q x] He. apply Nat.ltb_lt. cbn [fst]. assert (El : lat F r q = Some x) by (apply nm_of_in; auto; apply (cl_once F CL r)). apply (lat_lt F CL) in El. tauto.
  - apply Nat.eqb_eq. apply ins_len. unfold n. lia.
  - apply forallb_forall. intros [q x] He. apply Z.leb_le. cbn [snd]. apply in_app_iff in He. destruct He as [He|He].
    + apply (cl_near F CL r q). apply nm_of_in; auto. apply (cl_once F CL r).
    + apply (cl_pos F CL r q). apply nm_of_in; auto. apply (cl_once F CL r).
Qed.

(** ** Packets *)
Hypothesis SH : short F.
Hypothesis CN : connected F.

(** One step of the way to node [m], at router [R]. *)
Lemma step_spec : forall s m R, s < n -> nm_get m (an_node F) = Some R -> exists p, table F s m = Some p /\ p < radix F s /\
  ((s = R /\ any_out F s p = Ej m) \/ (s <> R /\ exists c q x y, any_out F s p = Ch c /\ nth_error (links F) c = Some (s, q) /\ lat F s q = Some x /\ road F q R y /\ road F s R (x + y)%Z /\ forall z, road F s R z -> (x + y <= z)%Z)).
Proof.
  intros s m R Hs ER. assert (HR : R < n).
  { apply (cl_node F CL) in ER. unfold locals, sub in ER. destruct (nm_get R (an_local F)) as [l|] eqn:El; [|destruct ER]. assert (I : In R (map fst (an_local F))) by (apply nm_key; eauto). rewrite (cl_local F CL) in I. apply in_seq in I. unfold n. lia. }
  destruct (table_spec F CL SH CN s m R Hs ER HR) as [[-> [p [E Ep]]]|[Ns [q [k [x [y [E [Ek [Ex [Ry [Rz Mn]]]]]]]]]]].
  - exists p. split; auto. assert (Lp : p < length (locals F R)) by (apply nth_error_Some; congruence). split; [unfold radix; lia|]. left. split; auto. unfold any_out. rewrite app_nth1 by (rewrite map_length; auto).
    apply (nth_nth _ (map Ej (locals F R)) p (Ej m)). rewrite nth_error_map, Ep. reflexivity.
  - exists (length (locals F s) + k). split; auto. assert (Lk : k < length (adj F s)) by (rewrite <- (map_length fst); apply nth_error_Some; congruence). split; [unfold radix; lia|]. right. split; auto.
    destruct (outs_nth s k q Hs Ek) as [c [Ec El]]. exists c, q, x, y. split; auto. unfold any_out. rewrite app_nth2 by (rewrite map_length; lia). rewrite map_length. replace (length (locals F s) + k - length (locals F s)) with k by lia.
    apply (nth_nth _ (map Ch (outs F s)) k (Ch c)). rewrite nth_error_map, Ec. reflexivity.
Qed.
Definition least (r R : nat) (z : Z) : Prop := road F r R z /\ forall z', road F r R z' -> (z <= z')%Z.
Lemma hop_less : forall s m R c q p z, s < n -> nm_get m (an_node F) = Some R -> table F s m = Some p -> any_out F s p = Ch c -> nth_error (links F) c = Some (s, q) -> least s R z -> exists x, lat F s q = Some x /\ least q R (z - x)%Z.
Proof.
  intros s m R c q p z Hs ER E Eo El [Rz Mz]. destruct (step_spec s m R Hs ER) as [p' [E' [_ [[-> X]|[Ns [c' [q' [x [y [A1 [A2 [A3 [A4 [A5 A6]]]]]]]]]]]]]]; rewrite E in E'; injection E' as <-; [congruence|].
  rewrite Eo in A1. injection A1 as <-. rewrite El in A2. injection A2 as <-. exists x. split; auto. assert (z = (x + y)%Z) as -> by (apply Z.le_antisymm; auto). replace (x + y - x)%Z with y by lia. split; auto.
  intros z' Rz'. pose proof (Mz (x + z')%Z ltac:(eapply road_cons; eauto)). lia.
Qed.
Lemma least_some : forall r R, r < n -> R < n -> exists z, least r R z.
Proof.
  intros r R Hr HR. destruct (Nat.eq_dec r R) as [->|N].
  - exists 0%Z. split; [constructor; auto|]. intros z Rz. apply (road_ends F CL) in Rz. lia.
  - destruct SH as [W [HW [HW0 HS]]]. destruct (dj_all F W r CL HW HW0 HS Hr n 0 (dj0 F r) (di0 F W r Hr)) as [st [E [El D]]]; [apply seq_length|reflexivity|intros i Hi; apply CN; auto|].
    destruct (walk_ok F W r CL Hr st D El n R []) as [q [x [y [Ew [Ex [Rd Ed]]]]]]; auto; [constructor|intros v []|]. exists (x + y)%Z. split; [eapply road_cons; eauto|]. intros z Rz. rewrite <- Ed. apply (dist_min F W r CL Hr st D El); auto.
Qed.
Lemma travels_all : forall m R, nm_get m (an_node F) = Some R -> forall k r z, r < n -> least r R z -> (z < Z.of_nat k)%Z -> travels F m r z.
Proof.
  intros m R ER k. induction k as [|k IH]; intros r z Hr Lz Hk; [destruct Lz as [Rz _]; apply (road_ends F CL) in Rz; lia|].
  destruct (step_spec r m R Hr ER) as [p [E [Hp [[-> X]|[Ns [c [q [x [y [A1 [A2 [A3 [A4 [A5 A6]]]]]]]]]]]]]].
  - assert (z = 0%Z) as ->. { destruct Lz as [Rz Mz]. pose proof (Mz 0%Z ltac:(constructor; exact Hr)). apply (road_ends F CL) in Rz. lia. } eapply tr_here; eauto.
  - destruct (hop_less r m R c q p z Hr ER E A1 A2 Lz) as [x' [Ex' Lq]]. rewrite A3 in Ex'. injection Ex' as <-. pose proof (cl_pos F CL _ _ _ A3). replace z with (x + (z - x))%Z by lia. eapply tr_hop; eauto. apply IH; auto; [apply (lat_lt F CL _ _ _ A3)|lia].
Qed.
End Wires.
