(** Lemmas about the memory controller: what its queues contain in terms of what has been observed. *)
From Coq Require Import ZArith Bool List Lia Permutation.
From Verif Require Import MemCtrlModel MemCtrlSpec.
Import ListNotations.
Local Open Scope Z_scope.

(** ** Traces *)
Lemma aws_app : forall l m, aws (l ++ m) = aws l ++ aws m. Proof. intros. apply flat_map_app. Qed.
Lemma ws_app : forall l m, ws (l ++ m) = ws l ++ ws m. Proof. intros. apply flat_map_app. Qed.
Lemma ars_app : forall l m, ars (l ++ m) = ars l ++ ars m. Proof. intros. apply flat_map_app. Qed.
Lemma bs_app : forall l m, bs (l ++ m) = bs l ++ bs m. Proof. intros. apply flat_map_app. Qed.
Lemma rs_app : forall l m, rs (l ++ m) = rs l ++ rs m. Proof. intros. apply flat_map_app. Qed.
Lemma stores_app : forall l m, stores (l ++ m) = stores l ++ stores m. Proof. intros. apply flat_map_app. Qed.
Lemma arsn_app : forall l m n, arsn_from n (l ++ m) = arsn_from n l ++ arsn_from (n + length (stores l)) m.
Proof.
  induction l as [|e l IH]; intros m n; cbn [app arsn_from]; [rewrite Nat.add_0_r; reflexivity|].
  destruct e; cbn [stores flat_map app length]; rewrite IH; try reflexivity. rewrite Nat.add_succ_r. reflexivity.
Qed.
Lemma arsn_ars : forall l n, map fst (arsn_from n l) = ars l.
Proof. induction l as [|e l IH]; intros n; [reflexivity|]. destruct e; cbn [arsn_from ars flat_map app map fst]; rewrite IH; reflexivity. Qed.
Lemma arsn_le : forall l n, Forall (fun x => (snd x <= n + length (stores l))%nat) (arsn_from n l).
Proof.
  induction l as [|e l IH]; intros n; [constructor|].
  destruct e; cbn [arsn_from stores flat_map app length]; try apply IH.
  - constructor; [cbn [snd]; lia|apply IH].
  - eapply Forall_impl; [|apply IH]. cbn beta. intros x Hx. fold (stores l). lia.
Qed.

(** ** Values *)
Lemma value_snoc : forall mem st a d b, value mem (st ++ [(a, d)]) b = if b =? a then d else value mem st b.
Proof.
  intros. unfold value. rewrite rev_app_distr. cbn [rev app find fst]. destruct (b =? a) eqn:E.
  - apply Z.eqb_eq in E. subst. rewrite Z.eqb_refl. reflexivity.
  - rewrite Z.eqb_sym, E. reflexivity.
Qed.

(** ** The invariant *)
Definition sw (x : Z * Z * bool) : Z * Z * bool := (snd (fst x), fst (fst x), snd x).
Definition ok_resp (mem : Z -> option Z) (st : list (Z * Z)) (x : Z * Z * bool * nat) (y : Z * Z * bool) : Prop :=
  ul (fst x) = ul y /\ exists n, (snd x <= n <= length st)%nat /\ snd (fst y) = value mem (firstn n st) (snd (fst (fst x))).
Lemma ok_resp_more : forall mem st more x y, ok_resp mem st x y -> ok_resp mem (st ++ more) x y.
Proof.
  intros mem st more x y [H (n & H1 & H2)]. split; [exact H|]. exists n. rewrite app_length. split; [lia|]. rewrite H2, firstn_app.
  replace (n - length st)%nat with 0%nat by lia. cbn [firstn]. rewrite app_nil_r. reflexivity.
Qed.

Lemma Forall2_impl : forall (A B : Type) (P Q : A -> B -> Prop) l m, (forall x y, P x y -> Q x y) -> Forall2 P l m -> Forall2 Q l m.
Proof. intros A B P Q l m H F. induction F; constructor; auto. Qed.

(** Responses to writes do not precede the stores. *)
Definition pre (l : list mev) : Prop := forall l1 l2, l = l1 ++ l2 -> (length (bs l1) <= length (filter snd (firstn (length (stores l1)) (aws l))))%nat.
Lemma filter_firstn_mono : forall (A : Type) (p : A -> bool) l n m, (n <= m)%nat -> (length (filter p (firstn n l)) <= length (filter p (firstn m l)))%nat.
Proof.
  induction l as [|x l IH]; intros n m H; [rewrite !firstn_nil; cbn; lia|]. destruct n as [|n]; [cbn; lia|]. destruct m as [|m]; [lia|].
  cbn [firstn filter]. specialize (IH n m ltac:(lia)). destruct (p x); cbn [length]; lia.
Qed.
Lemma filter_firstn_app : forall (A : Type) (p : A -> bool) l m n, (length (filter p (firstn n l)) <= length (filter p (firstn n (l ++ m))))%nat.
Proof. intros. rewrite firstn_app, filter_app, app_length. lia. Qed.
Lemma pre_app : forall l e, pre l -> (stores e = [] \/ bs e = []) -> (length (bs (l ++ e)) <= length (filter snd (firstn (length (stores (l ++ e))) (aws (l ++ e)))))%nat -> pre (l ++ e).
Proof.
  intros l e H He Hle l1 l2 E. destruct (app_eq_app _ _ _ _ E) as (q & [[E1 E2]|[E1 E2]]).
  - subst l. rewrite aws_app. etransitivity; [apply (H l1 q eq_refl)|apply filter_firstn_app].
  - subst l1 e. rewrite app_assoc in *. destruct He as [He|He].
    + rewrite stores_app in He. apply app_eq_nil in He. destruct He as [He1 He2]. rewrite (stores_app (l ++ q)), He2, app_nil_r in Hle. etransitivity; [|exact Hle]. rewrite (bs_app (l ++ q)), app_length. lia.
    + rewrite bs_app in He. apply app_eq_nil in He. destruct He as [He1 He2]. rewrite (bs_app l), He1, app_nil_r.
      etransitivity; [apply (H l [] ltac:(rewrite app_nil_r; reflexivity))|]. rewrite (aws_app (l ++ q)), (aws_app l). rewrite <- app_assoc.
      etransitivity; [apply filter_firstn_app|]. apply filter_firstn_mono. rewrite stores_app, app_length. lia.
Qed.

Section INV.
Variable X : dram.
Variable c : mcfg.
Variable mem0 : Z -> option Z.
Variable strict : bool.

Record minv (R W : list Z) (s : mst X) (l : list mev) : Prop := {
  mi_ar : exists dn rest, arsn_from 0 l = dn ++ rest /\ map fst rest = map sw (ms_ord s) ++ ms_raq s /\ Forall2 (ok_resp mem0 (stores l)) dn (rs l ++ ms_orr s);
  mi_cnt : forall a, count_occ Z.eq_dec (map (fun x : Z * Z * bool => fst (fst x)) (ms_ord s)) a = (count_occ Z.eq_dec R a + ms_ooo s a)%nat;
  mi_head : match ms_ord s with [] => True | x :: _ => ms_ooo s (fst (fst x)) = O end;
  mi_mem : forall a, word_at (ms_mem s) a = value mem0 (stores l) a;
  mi_wr : exists dn, stores l = map (fun x => (w_addr x, w_data x)) dn /\ aws l = map fst dn ++ combine W (map snd (ms_owr s)) ++ ms_waq s /\
    ws l = map snd dn ++ map fst (ms_owr s) ++ ms_wdq s /\ length W = length (ms_owr s) /\
    (length (bs l) <= length (filter w_last dn))%nat /\ skipn (length (bs l)) (map w_user (filter w_last dn)) = ms_owb s;
  mi_len : strict = true -> (length (ws l) <= length (aws l))%nat;
  mi_rv : ms_rvalid s = true -> exists r, ms_orr s = ms_r s :: r;
  mi_bv : ms_bvalid s = true -> ms_owb s <> [];
  mi_pre : pre l }.
Lemma count_dn : forall (dn : list (Z * bool * (Z * Z))), length (filter w_last dn) = length (filter snd (map fst dn)).
Proof. induction dn as [|x dn IH]; [reflexivity|]. cbn [map filter]. unfold w_last at 1. destruct (snd (fst x)); cbn [length]; rewrite IH; reflexivity. Qed.
Lemma count_all : forall l dn q, stores l = map (fun x => (w_addr x, w_data x)) dn -> aws l = map fst dn ++ q -> (length (bs l) <= length (filter w_last dn))%nat ->
  (length (bs l) <= length (filter snd (firstn (length (stores l)) (aws l))))%nat.
Proof.
  intros l dn q E1 E2 H. rewrite E1, E2, map_length, firstn_app, map_length, Nat.sub_diag, firstn_all2 by (rewrite map_length; lia). cbn [firstn]. rewrite app_nil_r, <- count_dn. exact H.
Qed.

(** ** Callbacks *)
Lemma bump_at : forall f a g x, bump f a g x = if x =? a then g (f x) else f x. Proof. reflexivity. Qed.
Lemma release_ok : forall junk mem ord ooo,
  (forall a, ooo a <= count_occ Z.eq_dec (map (fun x : Z * Z * bool => fst (fst x)) ord) a)%nat ->
  exists l ord' ooo' dn, release junk mem ord ooo = Some (l, ord', ooo') /\ ord = dn ++ ord' /\ l = map (fun x => (snd (fst x), word_at mem (fst (fst x)), snd x)) dn /\
    (forall a, ooo a = (count_occ Z.eq_dec (map (fun x : Z * Z * bool => fst (fst x)) dn) a + ooo' a)%nat) /\
    match ord' with [] => True | x :: _ => ooo' (fst (fst x)) = O end.
Proof.
  intros junk mem. induction ord as [|[[a u] b] r IH]; intros ooo H; cbn [release].
  - specialize (H junk). cbn in H. destruct (ooo junk); [|lia]. exists [], [], ooo, []. repeat split; reflexivity.
  - destruct (ooo a) as [|k] eqn:E.
    + exists [], ((a, u, b) :: r), ooo, []. repeat split; try reflexivity. exact E.
    + destruct (IH (bump ooo a pred)) as (l & ord' & ooo' & dn & -> & Er & El & Hc & Hh).
      { intro x. specialize (H x). cbn [map fst] in H. rewrite bump_at. destruct (Z.eqb_spec x a) as [Exa|Hn]; [subst x|].
        - rewrite count_occ_cons_eq in H by reflexivity. rewrite E in *. cbn [pred]. lia.
        - rewrite count_occ_cons_neq in H by congruence. exact H. }
      exists ((u, word_at mem a, b) :: l), ord', ooo', ((a, u, b) :: dn). split; [reflexivity|]. split; [rewrite Er; reflexivity|]. split; [rewrite El; reflexivity|]. split; [|exact Hh].
      intro x. cbn [map fst]. specialize (Hc x). rewrite bump_at in Hc. destruct (Z.eqb_spec x a) as [Exa|Hn]; [subst x|].
      * rewrite count_occ_cons_eq by reflexivity. rewrite E in *. cbn [pred] in Hc. lia.
      * rewrite count_occ_cons_neq by congruence. exact Hc.
Qed.

Lemma read_callback_ok : forall R W s l a, minv (a :: R) W s l -> exists s', read_callback X c s a = Some s' /\ minv R W s' l /\
  ms_dram s' = ms_dram s.
Proof.
  intros R W s l a H. unfold read_callback. pose proof (mi_cnt _ _ _ _ H) as Hc. pose proof (mi_head _ _ _ _ H) as Hh.
  destruct (ms_ord s) as [|[[fa u] b] r] eqn:Eo.
  - exfalso. specialize (Hc a). cbn [map] in Hc. rewrite count_occ_cons_eq in Hc by reflexivity. cbn in Hc. lia.
  - cbn [fst] in Hh. destruct (Z.eqb_spec fa a) as [->|Hne].
    + destruct (release_ok (m_junk c) (ms_mem s) r (ms_ooo s)) as (q & ord' & ooo' & dn & -> & Er & Eq & Hq & Hh').
      { intro x. specialize (Hc x). cbn [map fst] in Hc. destruct (Z.eq_dec a x) as [->|Hn].
        - rewrite !count_occ_cons_eq in Hc by reflexivity. lia.
        - rewrite !count_occ_cons_neq in Hc by congruence. lia. }
      eexists. split; [reflexivity|]. split; [|reflexivity]. destruct (mi_ar _ _ _ _ H) as (dn0 & rest & E1 & E2 & E3).
      rewrite Eo in E2. cbn [map sw fst snd] in E2. destruct rest as [|x rest]; [discriminate|]. cbn [map] in E2. injection E2 as Ex E2.
      rewrite Er, map_app in E2. rewrite <- app_assoc in E2.
      assert (Hsp : exists r1 r2, rest = r1 ++ r2 /\ map fst r1 = map sw dn /\ map fst r2 = map sw ord' ++ ms_raq s).
      { exists (firstn (length dn) rest), (skipn (length dn) rest). split; [symmetry; apply firstn_skipn|]. rewrite <- firstn_map, <- skipn_map, E2.
        split; [rewrite firstn_app, map_length, Nat.sub_diag, firstn_all2 by (rewrite map_length; lia); apply app_nil_r|].
        rewrite skipn_app, map_length, Nat.sub_diag, skipn_all2 by (rewrite map_length; lia). reflexivity. }
      destruct Hsp as (r1 & r2 & -> & F1 & F2).
      assert (Hle := arsn_le l 0). rewrite E1 in Hle. apply Forall_app in Hle. destruct Hle as [_ Hle]. apply Forall_cons_iff in Hle. destruct Hle as [Hx Hle']. apply Forall_app in Hle'. destruct Hle' as [Hr1 _].
      assert (Hone : forall (y : Z * Z * bool) n, (n <= length (stores l))%nat -> ok_resp mem0 (stores l) (sw y, n) (snd (fst y), word_at (ms_mem s) (fst (fst y)), snd y)).
      { intros [[ya yu] yb] n Hn. split; [reflexivity|]. exists (length (stores l)). cbn [fst snd sw] in *. split; [lia|]. rewrite firstn_all. apply (mi_mem _ _ _ _ H). }
      constructor; cbn [set_back ms_ord ms_raq ms_orr ms_ooo ms_mem ms_owr ms_waq ms_wdq ms_owb ms_rvalid ms_r ms_bvalid].
      * exists (dn0 ++ x :: r1), r2. split; [rewrite E1, <- app_assoc; reflexivity|]. split; [exact F2|]. rewrite app_assoc. apply Forall2_app; [exact E3|].
        constructor; [destruct x as [x n]; cbn [fst snd] in *; subst x; apply (Hone (a, u, b)); exact Hx|].
        rewrite Eq. clear - F1 Hr1 Hone. revert dn F1. induction r1 as [|y r1 IH]; intros [|z dn] F1; try discriminate; [constructor|]. cbn [map] in F1. injection F1 as Fy F1. inversion Hr1; subst.
        constructor; [destruct y as [y n]; cbn [fst snd] in *; subst y; apply Hone; assumption|apply IH; assumption].
      * intro x0. specialize (Hc x0). specialize (Hq x0). rewrite Er in Hc. cbn [map fst] in Hc. rewrite map_app in Hc. destruct (Z.eq_dec a x0) as [->|Hn].
        -- rewrite !count_occ_cons_eq in Hc by reflexivity. rewrite count_occ_app in Hc. lia.
        -- rewrite !count_occ_cons_neq in Hc by congruence. rewrite count_occ_app in Hc. lia.
      * exact Hh'.
      * apply (mi_mem _ _ _ _ H).
      * apply (mi_wr _ _ _ _ H).
      * apply (mi_len _ _ _ _ H).
      * intro Hv. destruct (mi_rv _ _ _ _ H Hv) as (q0 & ->). eexists. cbn [app]. reflexivity.
      * apply (mi_bv _ _ _ _ H).
      * apply (mi_pre _ _ _ _ H).
    + eexists. split; [reflexivity|]. split; [|reflexivity]. rewrite <- Eo.
      constructor; cbn [set_back ms_ord ms_raq ms_orr ms_ooo ms_mem ms_owr ms_waq ms_wdq ms_owb ms_rvalid ms_r ms_bvalid];
        try solve [apply (mi_ar _ _ _ _ H)|apply (mi_mem _ _ _ _ H)|apply (mi_wr _ _ _ _ H)|apply (mi_len _ _ _ _ H)|apply (mi_rv _ _ _ _ H)|apply (mi_bv _ _ _ _ H)|apply (mi_pre _ _ _ _ H)].
      * rewrite Eo. intro x. specialize (Hc x). rewrite bump_at. destruct (Z.eqb_spec x a) as [Exa|Hn]; [subst x|].
        -- rewrite (count_occ_cons_eq _ _ (eq_refl a)) in Hc. lia.
        -- rewrite (count_occ_cons_neq _ _ (not_eq_sym Hn)) in Hc. exact Hc.
      * rewrite Eo. cbn [fst]. rewrite bump_at. destruct (Z.eqb_spec fa a) as [E|]; [contradiction|]. exact Hh.
Qed.

Lemma write_callback_ok : forall R W s l a, minv R (a :: W) s l -> exists s' e, write_callback X s a = Some (s', e) /\ minv R W s' (l ++ e) /\ ms_dram s' = ms_dram s.
Proof.
  intros R W s l a H. unfold write_callback. destruct (mi_wr _ _ _ _ H) as (dn & E1 & E2 & E3 & E4 & E5 & E6).
  destruct (ms_owr s) as [|[[u d] b] r] eqn:Eo; [discriminate|]. eexists _, _. split; [reflexivity|]. split; [|reflexivity].
  assert (Es : stores (l ++ [EvStore a d]) = stores l ++ [(a, d)]) by (rewrite stores_app; reflexivity).
  assert (Eaw : aws (l ++ [EvStore a d]) = aws l) by (rewrite aws_app; apply app_nil_r).
  assert (Ew : ws (l ++ [EvStore a d]) = ws l) by (rewrite ws_app; apply app_nil_r).
  assert (Eb : bs (l ++ [EvStore a d]) = bs l) by (rewrite bs_app; apply app_nil_r).
  assert (Er : rs (l ++ [EvStore a d]) = rs l) by (rewrite rs_app; apply app_nil_r).
  constructor; cbn [set_back ms_ord ms_raq ms_orr ms_ooo ms_mem ms_owr ms_waq ms_wdq ms_owb ms_rvalid ms_r ms_bvalid]; rewrite ?Es, ?Eaw, ?Ew, ?Eb, ?Er.
  - rewrite arsn_app. cbn [arsn_from]. rewrite app_nil_r. destruct (mi_ar _ _ _ _ H) as (dn0 & rest & F1 & F2 & F3). exists dn0, rest. split; [exact F1|]. split; [exact F2|].
    eapply Forall2_impl; [|exact F3]. intros x y. apply ok_resp_more.
  - apply (mi_cnt _ _ _ _ H).
  - apply (mi_head _ _ _ _ H).
  - intro x. rewrite value_snoc. unfold word_at. destruct (x =? a); [reflexivity|]. apply (mi_mem _ _ _ _ H).
  - cbn [length] in E4. cbn [map snd combine] in E2. cbn [map fst] in E3. exists (dn ++ [((a, b), (u, d))]). rewrite !map_app, filter_app. cbn [map fst snd filter]. change (w_last (a, b, (u, d))) with b.
    split; [rewrite E1; reflexivity|]. split; [rewrite E2, <- !app_assoc; reflexivity|]. split; [rewrite E3, <- !app_assoc; reflexivity|]. split; [lia|].
    destruct b.
    + rewrite app_length, map_app. cbn [length map]. split; [lia|]. rewrite skipn_app, E6, map_length. replace (length (bs l) - length (filter w_last dn))%nat with 0%nat by lia. reflexivity.
    + rewrite app_nil_r. auto.
  - apply (mi_len _ _ _ _ H).
  - apply (mi_rv _ _ _ _ H).
  - intros Hv. apply (mi_bv _ _ _ _ H) in Hv. destruct b; [|exact Hv]. destruct (ms_owb s); discriminate.
  - apply pre_app; [apply (mi_pre _ _ _ _ H)|right; reflexivity|]. rewrite Es, Eaw, Eb. etransitivity; [eapply count_all; eauto|]. apply filter_firstn_mono. rewrite app_length. lia.
Qed.

Lemma callbacks_ok : forall q R W s l, minv (rd_of q ++ R) (wr_of q ++ W) s l ->
  exists s' e, callbacks X c q s = Some (s', e) /\ minv R W s' (l ++ e) /\ ms_dram s' = ms_dram s /\ aws e = [] /\ ws e = [].
Proof.
  induction q as [|[a w] q IH]; intros R W s l H; cbn [callbacks].
  - exists s, []. rewrite app_nil_r. auto.
  - destruct w.
    + change (wr_of ((a, true) :: q) ++ W) with (a :: (wr_of q ++ W)) in H. change (rd_of ((a, true) :: q) ++ R) with (rd_of q ++ R) in H.
      destruct (write_callback_ok _ _ _ _ _ H) as (s1 & e1 & E1 & H1 & D1). rewrite E1.
      assert (Ee : aws e1 = [] /\ ws e1 = []) by (unfold write_callback in E1; destruct (ms_owr s) as [|[[? ?] ?] ?]; [discriminate|]; injection E1 as _ <-; auto).
      destruct (IH _ _ _ _ H1) as (s2 & e2 & -> & H2 & D2 & A2 & W2). eexists _, _. split; [reflexivity|]. rewrite app_assoc. rewrite aws_app, ws_app, A2, W2. destruct Ee as [-> ->]. split; [exact H2|]. split; [congruence|]. auto.
    + change (wr_of ((a, false) :: q) ++ W) with (wr_of q ++ W) in H. change (rd_of ((a, false) :: q) ++ R) with (a :: (rd_of q ++ R)) in H.
      destruct (read_callback_ok _ _ _ _ _ H) as (s1 & E1 & H1 & D1). rewrite E1.
      destruct (IH _ _ _ _ H1) as (s2 & e2 & -> & H2 & D2 & A2 & W2). exists s2, e2. split; [reflexivity|]. split; [exact H2|]. split; [congruence|]. auto.
Qed.

Lemma minv_perm : forall R R' W s l, Permutation R R' -> minv R W s l -> minv R' W s l.
Proof.
  intros R R' W s l HP H. constructor; try apply H. intro a. rewrite (mi_cnt _ _ _ _ H a). rewrite (proj1 (Permutation_count_occ Z.eq_dec R R') HP a). reflexivity.
Qed.
(** A change of what the invariant does not mention. *)
Lemma minv_same : forall R W s s' l, minv R W s l -> ms_mem s' = ms_mem s -> ms_waq s' = ms_waq s -> ms_wdq s' = ms_wdq s -> ms_raq s' = ms_raq s -> ms_owr s' = ms_owr s ->
  ms_ord s' = ms_ord s -> ms_ooo s' = ms_ooo s -> ms_orr s' = ms_orr s -> ms_owb s' = ms_owb s -> ms_rvalid s' = ms_rvalid s -> ms_r s' = ms_r s -> ms_bvalid s' = ms_bvalid s -> minv R W s' l.
Proof.
  intros R W s s' l H E1 E2 E3 E4 E5 E6 E7 E8 E9 E10 E11 E12.
  constructor; rewrite ?E1, ?E2, ?E3, ?E4, ?E5, ?E6, ?E7, ?E8, ?E9, ?E10, ?E11, ?E12; apply H.
Qed.

(** ** Tick *)
Lemma aws_evs : forall l, aws (map (fun x : Z * bool => EvAW (fst x) (snd x)) l) = l.
Proof. induction l as [|[a b] l IH]; [reflexivity|]. cbn [map aws flat_map app fst snd]. f_equal. exact IH. Qed.
Lemma ws_evs : forall l, ws (map (fun x : Z * Z => EvW (fst x) (snd x)) l) = l.
Proof. induction l as [|[a b] l IH]; [reflexivity|]. cbn [map ws flat_map app fst snd]. f_equal. exact IH. Qed.
Lemma arsn_evs : forall n l, arsn_from n (map (fun x : Z * Z * bool => EvAR (fst (fst x)) (snd (fst x)) (snd x)) l) = map (fun x => (x, n)) l.
Proof. intros n. induction l as [|[[a b] e] l IH]; [reflexivity|]. cbn [map arsn_from fst snd]. f_equal. exact IH. Qed.
Lemma nil_of : forall (A B : Type) (f : A -> list B) (l : list A), (forall x, In x l -> f x = []) -> flat_map f l = [].
Proof. induction l as [|x l IH]; intro H; [reflexivity|]. cbn [flat_map]. rewrite (H x) by (left; reflexivity). apply IH. intros y Hy. apply H. right. exact Hy. Qed.

Lemma tick_accept_ok : forall R W i s l, minv R W s l -> (strict = true -> i_wvalid i = true -> (length (ws l) < length (aws l))%nat) ->
  let '(s', e) := tick_accept X c i s in minv R W s' (l ++ e) /\ ms_dram s' = ms_dram s /\ ms_orr s' = ms_orr s /\ ms_owb s' = ms_owb s /\ bs e = [] /\ rs e = [] /\ stores e = [].
Proof.
  intros R W i s l H Hl. unfold tick_accept. cbn zeta.
  match goal with |- context [ms_waq s ++ ?A] => set (aw := A) end. match goal with |- context [ms_wdq s ++ ?A] => set (w := A) end. match goal with |- context [ms_raq s ++ ?A] => set (ar := A) end.
  set (eaw := map (fun x : Z * bool => EvAW (fst x) (snd x)) aw). set (ew := map (fun x : Z * Z => EvW (fst x) (snd x)) w).
  set (ear := map (fun x : Z * Z * bool => EvAR (fst (fst x)) (snd (fst x)) (snd x)) ar).
  assert (Ee : aws (eaw ++ ew ++ ear) = aw /\ ws (eaw ++ ew ++ ear) = w /\ bs (eaw ++ ew ++ ear) = [] /\ rs (eaw ++ ew ++ ear) = [] /\ stores (eaw ++ ew ++ ear) = []
               /\ arsn_from (length (stores l)) (eaw ++ ew ++ ear) = map (fun x => (x, length (stores l))) ar).
  { assert (N : forall (B : Type) (f : mev -> list B), (forall a b, f (EvAW a b) = []) -> flat_map f eaw = []) by (intros B f Hf; apply nil_of; intros x Hx; apply in_map_iff in Hx; destruct Hx as (y & <- & _); apply Hf).
    assert (N1 : forall (B : Type) (f : mev -> list B), (forall a b, f (EvW a b) = []) -> flat_map f ew = []) by (intros B f Hf; apply nil_of; intros x Hx; apply in_map_iff in Hx; destruct Hx as (y & <- & _); apply Hf).
    assert (N2 : forall (B : Type) (f : mev -> list B), (forall a b d, f (EvAR a b d) = []) -> flat_map f ear = []) by (intros B f Hf; apply nil_of; intros x Hx; apply in_map_iff in Hx; destruct Hx as (y & <- & _); apply Hf).
    assert (Ns : stores eaw = [] /\ stores ew = []) by (split; [apply N|apply N1]; reflexivity). destruct Ns as [Ns1 Ns2].
    split; [|split; [|split; [|split; [|split]]]].
    - rewrite !aws_app. unfold eaw at 1. rewrite aws_evs. unfold aws at 1 2. rewrite N1, N2 by reflexivity. apply app_nil_r.
    - rewrite !ws_app. unfold ew at 1. rewrite ws_evs. unfold ws at 1 2. rewrite N, N2 by reflexivity. apply app_nil_r.
    - unfold bs. rewrite !flat_map_app, N, N1, N2 by reflexivity. reflexivity.
    - unfold rs. rewrite !flat_map_app, N, N1, N2 by reflexivity. reflexivity.
    - unfold stores. rewrite !flat_map_app, N, N1, N2 by reflexivity. reflexivity.
    - rewrite !arsn_app, Ns1, Ns2. unfold ear. rewrite arsn_evs. cbn [length]. rewrite !Nat.add_0_r.
      assert (Na : forall n, arsn_from n eaw = []) by (intro n; unfold eaw; clear; induction aw as [|x q IH]; [reflexivity|exact IH]).
      assert (Nb : forall n, arsn_from n ew = []) by (intro n; unfold ew; clear; induction w as [|x q IH]; [reflexivity|exact IH]).
      rewrite Na, Nb. reflexivity. }
  destruct Ee as (Ea & Ew & Eb & Er & Es & En). split; [|repeat split; auto].
  constructor; cbn [set_occ set_front ms_ord ms_raq ms_orr ms_ooo ms_mem ms_owr ms_waq ms_wdq ms_owb ms_rvalid ms_r ms_bvalid]; rewrite ?(aws_app l), ?(ws_app l), ?(bs_app l), ?(rs_app l), ?(stores_app l), ?Ea, ?Ew, ?Eb, ?Er, ?Es, ?app_nil_r.
  - destruct (mi_ar _ _ _ _ H) as (dn & rest & F1 & F2 & F3). exists dn, (rest ++ map (fun x => (x, length (stores l))) ar). rewrite (arsn_app l (eaw ++ ew ++ ear) 0), Nat.add_0_l, En, F1. split; [rewrite <- app_assoc; reflexivity|].
    split; [|exact F3]. rewrite map_app, map_map, F2, <- app_assoc. cbn [fst]. rewrite map_id. reflexivity.
  - apply (mi_cnt _ _ _ _ H).
  - apply (mi_head _ _ _ _ H).
  - apply (mi_mem _ _ _ _ H).
  - destruct (mi_wr _ _ _ _ H) as (dn & F1 & F2 & F3 & F4 & F5 & F6). exists dn. rewrite F2, F3, <- !app_assoc. repeat (split; [assumption || reflexivity|]). exact F6.
  - intro Hs. rewrite !app_length. pose proof (mi_len _ _ _ _ H Hs) as Hm. unfold w. destruct (i_wvalid i) eqn:Ev; [|cbn; lia]. specialize (Hl Hs eq_refl). destruct (true && _); cbn; lia.
  - apply (mi_rv _ _ _ _ H).
  - apply (mi_bv _ _ _ _ H).
  - apply pre_app; [apply (mi_pre _ _ _ _ H)|left; exact Es|]. rewrite (bs_app l), (stores_app l), (aws_app l), Eb, Es, !app_nil_r.
    destruct (mi_wr _ _ _ _ H) as (dn & F1 & F2 & F3 & F4 & F5 & F6). etransitivity; [eapply count_all; eauto|apply filter_firstn_app].
Qed.

Lemma skipn_S : forall (A : Type) (l : list A) n x q, skipn n l = x :: q -> skipn (S n) l = q /\ (n < length l)%nat.
Proof.
  induction l as [|y l IH]; intros [|n] x q H; cbn [skipn] in *; try discriminate.
  - injection H as _ <-. cbn. split; [destruct l; reflexivity|lia].
  - destruct (IH _ _ _ H) as [E L]. split; [exact E|cbn; lia].
Qed.
Lemma tick_ok : forall R W i s l, minv R W s l -> (strict = true -> i_wvalid i = true -> (length (ws l) < length (aws l))%nat) ->
  exists s' e, tick X c i s = Some (s', e) /\ minv R W s' (l ++ e) /\ ms_dram s' = ms_dram s.
Proof.
  intros R W i s l H Hl. unfold tick. pose proof (tick_accept_ok _ _ _ _ _ H Hl) as HA. destruct (tick_accept X c i s) as [s1 e1]. destruct HA as (H1 & D1 & O1 & B1 & Eb & Er & Es).
  assert (HB : exists owb e2, (if ms_bvalid s && i_bready i then match ms_owb s1 with [] => None | _ :: r => Some (r, [EvB (ms_buser s)]) end else Some (ms_owb s1, [])) = Some (owb, e2) /\
    forall dn, (length (bs (l ++ e1)) <= length (filter w_last dn))%nat -> skipn (length (bs (l ++ e1))) (map w_user (filter w_last dn)) = ms_owb s1 ->
      (length (bs ((l ++ e1) ++ e2)) <= length (filter w_last dn))%nat /\ skipn (length (bs ((l ++ e1) ++ e2))) (map w_user (filter w_last dn)) = owb /\
      aws e2 = [] /\ ws e2 = [] /\ rs e2 = [] /\ stores e2 = [] /\ forall n, arsn_from n e2 = []).
  { destruct (ms_bvalid s && i_bready i) eqn:Ev.
    - apply andb_true_iff in Ev. destruct Ev as [Ev _]. pose proof (mi_bv _ _ _ _ H Ev) as Hn. rewrite B1. destruct (ms_owb s) as [|u q] eqn:Eq; [contradiction|].
      eexists _, _. split; [reflexivity|]. intros dn Hd Hk. rewrite bs_app. cbn [bs flat_map app]. rewrite app_length. cbn [length]. rewrite Nat.add_1_r. apply skipn_S in Hk. destruct Hk as [Hk Hd'].
      rewrite map_length in Hd'. split; [lia|]. split; [exact Hk|]. repeat split; reflexivity.
    - eexists _, _. split; [reflexivity|]. intros dn Hd Hk. rewrite app_nil_r. split; [exact Hd|]. split; [exact Hk|]. repeat split; reflexivity. }
  destruct HB as (owb & e2 & -> & HB).
  assert (HR : exists orr e3, (if ms_rvalid s && i_rready i then match ms_orr s1 with [] => None | _ :: r => Some (r, [EvR (fst (fst (ms_r s))) (snd (fst (ms_r s))) (snd (ms_r s))]) end else Some (ms_orr s1, [])) = Some (orr, e3) /\
     rs e3 ++ orr = ms_orr s1 /\ aws e3 = [] /\ ws e3 = [] /\ bs e3 = [] /\ stores e3 = [] /\ forall n, arsn_from n e3 = []).
  { destruct (ms_rvalid s && i_rready i) eqn:Ev.
    - apply andb_true_iff in Ev. destruct Ev as [Ev _]. destruct (mi_rv _ _ _ _ H Ev) as (q & Eq). rewrite O1, Eq. eexists _, _. split; [reflexivity|]. destruct (ms_r s) as [[? ?] ?]. repeat split; reflexivity.
    - eexists _, _. split; [reflexivity|]. repeat split; reflexivity. }
  destruct HR as (orr & e3 & -> & R1 & R2 & R3 & R4 & R5 & R6).
  eexists _, _. split; [reflexivity|]. split; [|exact D1]. rewrite !app_assoc.
  destruct (mi_wr _ _ _ _ H1) as (dn & F1 & F2 & F3 & F4 & F5 & F6). destruct (HB dn F5 F6) as (B2 & B3 & B4 & B5 & B6 & B7 & B8).
  constructor; cbn [set_resp set_back ms_ord ms_raq ms_orr ms_ooo ms_mem ms_owr ms_waq ms_wdq ms_owb ms_rvalid ms_r ms_bvalid].
  - rewrite (arsn_app _ e3), R6, app_nil_r, (arsn_app _ e2), B8, app_nil_r. rewrite (stores_app _ e3), R5, app_nil_r, (stores_app _ e2), B7, app_nil_r.
    rewrite (rs_app _ e3), (rs_app _ e2), B6, app_nil_r, <- app_assoc, R1. apply (mi_ar _ _ _ _ H1).
  - apply (mi_cnt _ _ _ _ H1).
  - apply (mi_head _ _ _ _ H1).
  - rewrite (stores_app _ e3), R5, app_nil_r, (stores_app _ e2), B7, app_nil_r. apply (mi_mem _ _ _ _ H1).
  - exists dn. rewrite (stores_app _ e3), R5, app_nil_r, (stores_app _ e2), B7, app_nil_r. rewrite (aws_app _ e3), R2, app_nil_r, (aws_app _ e2), B4, app_nil_r.
    rewrite (ws_app _ e3), R3, app_nil_r, (ws_app _ e2), B5, app_nil_r. rewrite (bs_app _ e3), R4, app_nil_r. auto 10.
  - rewrite (aws_app _ e3), R2, app_nil_r, (aws_app _ e2), B4, app_nil_r. rewrite (ws_app _ e3), R3, app_nil_r, (ws_app _ e2), B5, app_nil_r. apply (mi_len _ _ _ _ H1).
  - destruct orr as [|x q]; [discriminate|]. intros _. exists q. reflexivity.
  - destruct owb; [discriminate|]. intros _. discriminate.
  - rewrite <- app_assoc. apply pre_app; [apply (mi_pre _ _ _ _ H1)|left; rewrite stores_app, B7, R5; reflexivity|]. rewrite app_assoc.
    eapply (count_all _ dn); [rewrite (stores_app _ e3), R5, app_nil_r, (stores_app _ e2), B7, app_nil_r; exact F1|rewrite (aws_app _ e3), R2, app_nil_r, (aws_app _ e2), B4, app_nil_r; exact F2|rewrite (bs_app _ e3), R4, app_nil_r; exact B2].
Qed.

(** ** MemTick *)
Variable inv : dr X -> Prop.
Variables rd wr : dr X -> list Z.
Variable d0 : dr X.
Hypothesis DO : dram_ok X d0 inv rd wr.
Notation good := (fun s l => inv (ms_dram s) /\ minv (rd (ms_dram s)) (wr (ms_dram s)) s l).

Lemma issue_read_ok : forall s l, good s l -> exists s', issue_read X s = Some s' /\ good s' l.
Proof.
  intros s l [Hi H]. unfold issue_read. destruct (ms_raq s) as [|[[u a] b] r] eqn:Er; [exists s; auto|].
  destruct (d_will X (ms_dram s) a false) eqn:Ew; [|exists s; auto]. destruct (do_read _ _ _ _ _ DO _ _ Hi Ew) as (d' & -> & Hi' & HP & HW).
  eexists. split; [reflexivity|]. cbn [set_back set_front ms_dram]. split; [exact Hi'|]. apply (minv_perm _ _ _ _ _ (Permutation_sym HP)). rewrite HW.
  constructor; cbn [set_back set_front ms_ord ms_raq ms_orr ms_ooo ms_mem ms_owr ms_waq ms_wdq ms_owb ms_rvalid ms_r ms_bvalid];
    try solve [apply (mi_mem _ _ _ _ H)|apply (mi_wr _ _ _ _ H)|apply (mi_len _ _ _ _ H)|apply (mi_rv _ _ _ _ H)|apply (mi_bv _ _ _ _ H)|apply (mi_pre _ _ _ _ H)].
  - destruct (mi_ar _ _ _ _ H) as (dn & rest & F1 & F2 & F3). exists dn, rest. split; [exact F1|]. split; [|exact F3]. rewrite F2, Er, map_app, <- app_assoc. reflexivity.
  - intro x. rewrite map_app, count_occ_app, (mi_cnt _ _ _ _ H). cbn [map fst count_occ]. destruct (Z.eq_dec a x); lia.
  - pose proof (mi_head _ _ _ _ H) as Hh. pose proof (mi_cnt _ _ _ _ H a) as Hc. destruct (ms_ord s) as [|x q]; cbn [app fst]; [|exact Hh]. cbn in Hc. lia.
Qed.
Lemma issue_write_ok : forall s l, good s l -> (strict = false /\ issue_write X s = None) \/ exists s', issue_write X s = Some s' /\ good s' l.
Proof.
  intros s l [Hi H]. unfold issue_write. destruct (ms_wdq s) as [|[u d] r] eqn:Er; [right; exists s; auto|].
  destruct (ms_waq s) as [|[a b] q] eqn:Eq.
  - left. split; [|reflexivity]. destruct strict eqn:Es; [|reflexivity]. exfalso. pose proof (mi_len _ _ _ _ H Es) as Hl. destruct (mi_wr _ _ _ _ H) as (dn & F1 & F2 & F3 & F4 & _).
    rewrite F2, F3, Er, Eq, !app_length, !map_length, combine_length, !map_length, F4, Nat.min_id in Hl. cbn [length] in Hl. lia.
  - right. destruct (d_will X (ms_dram s) a true) eqn:Ew; [|exists s; auto]. destruct (do_write _ _ _ _ _ DO _ _ Hi Ew) as (d' & -> & Hi' & HP & HW).
    eexists. split; [reflexivity|]. cbn [set_back set_front ms_dram]. split; [exact Hi'|]. apply (minv_perm _ _ _ _ _ (Permutation_sym HP)). rewrite HW.
    constructor; cbn [set_back set_front ms_ord ms_raq ms_orr ms_ooo ms_mem ms_owr ms_waq ms_wdq ms_owb ms_rvalid ms_r ms_bvalid];
      try solve [apply (mi_ar _ _ _ _ H)|apply (mi_cnt _ _ _ _ H)|apply (mi_head _ _ _ _ H)|apply (mi_mem _ _ _ _ H)|apply (mi_len _ _ _ _ H)|apply (mi_rv _ _ _ _ H)|apply (mi_bv _ _ _ _ H)|apply (mi_pre _ _ _ _ H)].
    destruct (mi_wr _ _ _ _ H) as (dn & F1 & F2 & F3 & F4 & F5 & F6). exists dn. split; [exact F1|]. rewrite !map_app. cbn [map fst snd].
    assert (Ec : combine (wr (ms_dram s) ++ [a]) (map snd (ms_owr s) ++ [b]) = combine (wr (ms_dram s)) (map snd (ms_owr s)) ++ [(a, b)]).
    { assert (Hlen : length (wr (ms_dram s)) = length (map snd (ms_owr s))) by (rewrite map_length; exact F4). revert Hlen. generalize (wr (ms_dram s)) (map snd (ms_owr s)). clear.
      induction l as [|x l IH]; intros [|y m] E; try discriminate; [reflexivity|]. cbn [app combine]. f_equal. apply IH. cbn in E. lia. }
    rewrite Ec, F2, F3, Er, Eq, <- !app_assoc, !app_length, F4. cbn [app length]. auto.
Qed.
Lemma good_same : forall s s' l, good s l -> ms_dram s' = ms_dram s -> ms_mem s' = ms_mem s -> ms_waq s' = ms_waq s -> ms_wdq s' = ms_wdq s -> ms_raq s' = ms_raq s -> ms_owr s' = ms_owr s ->
  ms_ord s' = ms_ord s -> ms_ooo s' = ms_ooo s -> ms_orr s' = ms_orr s -> ms_owb s' = ms_owb s -> ms_rvalid s' = ms_rvalid s -> ms_r s' = ms_r s -> ms_bvalid s' = ms_bvalid s -> good s' l.
Proof. intros s s' l [H1 H2] Ed. intros. rewrite Ed. split; [exact H1|]. eapply minv_same; eauto. Qed.
Lemma mem_tick_ok : forall s l, good s l -> (strict = false /\ mem_tick X c s = None) \/ exists s' e, mem_tick X c s = Some (s', e) /\ good s' (l ++ e) /\ aws e = [] /\ ws e = [].
Proof.
  intros s l [Hi H]. unfold mem_tick. cbn zeta. cbn [set_mocc ms_dram]. destruct (do_tick _ _ _ _ _ DO _ Hi) as (d' & q & -> & Hi' & HP & HW).
  match goal with |- context [callbacks X c q ?s0] => set (s1 := s0) end.
  assert (H1 : minv (rd_of q ++ rd d') (wr_of q ++ wr d') s1 l).
  { apply (minv_perm _ _ _ _ _ HP). rewrite <- HW. eapply minv_same; [exact H|..]; reflexivity. }
  destruct (callbacks_ok _ _ _ _ _ H1) as (s2 & e & -> & H2 & D2 & A2 & W2).
  assert (G2 : good s2 (l ++ e)) by (rewrite D2; split; [exact Hi'|exact H2]).
  assert (HI : (strict = false /\ issue X s2 = None) \/ exists s3, issue X s2 = Some s3 /\ good s3 (l ++ e)).
  { assert (Hco : forall s3, good s3 (l ++ e) -> good (count_outstanding X s3) (l ++ e)) by (intros s3 G; eapply good_same; [exact G|..]; reflexivity).
    unfold issue. destruct (ms_rbw s2).
    - assert (HH : (strict = false /\ (match ms_raq s2 with [] => issue_write X s2 | _ => issue_read X s2 end) = None) \/ exists s3, (match ms_raq s2 with [] => issue_write X s2 | _ => issue_read X s2 end) = Some s3 /\ good s3 (l ++ e)).
      { destruct (ms_raq s2); [apply issue_write_ok; exact G2|right; apply issue_read_ok; exact G2]. }
      destruct HH as [[Hs ->]|(s3 & -> & G3)]; [left; auto|right; eexists; split; [reflexivity|apply Hco; exact G3]].
    - destruct (ms_wdq s2) eqn:Ewd; [|apply issue_write_ok; exact G2]. right. destruct (ms_raq s2); [exists s2; auto|].
      destruct (issue_read_ok _ _ G2) as (s3 & -> & G3). eexists. split; [reflexivity|apply Hco; exact G3]. }
  destruct HI as [[Hs ->]|(s3 & -> & G3)]; [left; auto|]. right. eexists _, _. split; [reflexivity|]. split; [|auto]. eapply good_same; [exact G3|..]; reflexivity.
Qed.
Lemma edge_ok : forall o i s l, good s l -> (strict = true -> i_wvalid i = true -> (length (ws l) < length (aws l))%nat) ->
  (strict = false /\ edge X c o i s = None) \/ exists s' e, edge X c o i s = Some (s', e) /\ good s' (l ++ e).
Proof.
  intros o i s l G Hl. unfold edge.
  assert (HH : (strict = false /\ (if o then match tick X c i s with None => None | Some (s1, e1) => match mem_tick X c s1 with None => None | Some (s2, e2) => Some (s2, e1 ++ e2) end end
      else match mem_tick X c s with None => None | Some (s1, e1) => match tick X c i s1 with None => None | Some (s2, e2) => Some (s2, e1 ++ e2) end end) = None) \/
     exists s' e, (if o then match tick X c i s with None => None | Some (s1, e1) => match mem_tick X c s1 with None => None | Some (s2, e2) => Some (s2, e1 ++ e2) end end
      else match mem_tick X c s with None => None | Some (s1, e1) => match tick X c i s1 with None => None | Some (s2, e2) => Some (s2, e1 ++ e2) end end) = Some (s', e) /\ good s' (l ++ e)).
  { destruct o.
    - destruct (tick_ok _ _ i _ _ (proj2 G) Hl) as (s1 & e1 & -> & H1 & D1). assert (G1 : good s1 (l ++ e1)) by (rewrite D1; split; [apply G|exact H1]).
      destruct (mem_tick_ok _ _ G1) as [[Hs ->]|(s2 & e2 & -> & G2 & _)]; [left; auto|right]. eexists _, _. split; [reflexivity|]. rewrite app_assoc. exact G2.
    - destruct (mem_tick_ok _ _ G) as [[Hs ->]|(s1 & e1 & -> & G1 & A1 & W1)]; [left; auto|right].
      destruct (tick_ok _ _ i _ _ (proj2 G1)) as (s2 & e2 & -> & H2 & D2); [rewrite aws_app, ws_app, A1, W1, !app_nil_r; exact Hl|].
      eexists _, _. split; [reflexivity|]. rewrite app_assoc, D2. split; [apply G1|exact H2]. }
  destruct HH as [[Hs ->]|(s' & e & -> & G')]; [left; auto|right]. eexists _, _. split; [reflexivity|]. destruct (i_other i || changed X s s'); [|exact G']. eapply good_same; [exact G'|..]; reflexivity.
Qed.
Lemma good_init : good (mst0 X c mem0 d0) [].
Proof.
  destruct (do_init _ _ _ _ _ DO) as (Hi & Hr & Hw). cbn [mst0 assign set_assign ms_dram]. split; [exact Hi|]. rewrite Hr, Hw.
  constructor; cbn [mst0 assign set_assign ms_ord ms_raq ms_orr ms_ooo ms_mem ms_owr ms_waq ms_wdq ms_owb ms_rvalid ms_r ms_bvalid]; try discriminate; try reflexivity; auto.
  - exists [], []. repeat split; try reflexivity. constructor.
  - exists []. repeat split; try reflexivity.
  - intros l1 l2 E. symmetry in E. apply app_eq_nil in E. destruct E as [-> ->]. cbn. lia.
Qed.
End INV.

(** ** Executions *)
Lemma mrun_from_app : forall X c es1 es2 s l, mrun_from X c (es1 ++ es2) s l = match mrun_from X c es1 s l with None => None | Some (s', l') => mrun_from X c es2 s' l' end.
Proof.
  induction es1 as [|[o i] es1 IH]; intros; cbn [app mrun_from]; [reflexivity|]. destruct (edge X c o i s) as [[s' e]|]; [apply IH|reflexivity].
Qed.
Lemma mrun_snoc : forall X c mem d es o i, mrun X c mem d (es ++ [(o, i)]) =
  match mrun X c mem d es with None => None | Some (s, l) => match edge X c o i s with None => None | Some (s', e) => Some (s', l ++ e) end end.
Proof. intros. unfold mrun. rewrite mrun_from_app. destruct (mrun_from X c es _ _) as [[s l]|]; [|reflexivity]. cbn [mrun_from]. destruct (edge X c o i s) as [[s' e]|]; reflexivity. Qed.
(** The invariant holds in every execution. *)
Lemma mrun_good : forall X c mem d inv rd wr, dram_ok X d inv rd wr -> forall es s l, mrun X c mem d es = Some (s, l) ->
  inv (ms_dram s) /\ minv X mem false (rd (ms_dram s)) (wr (ms_dram s)) s l.
Proof.
  intros X c mem d inv rd wr DO es. induction es as [|[o i] es IH] using rev_ind; intros s l H.
  - injection H as <- <-. apply (good_init X c mem false inv rd wr d DO).
  - rewrite mrun_snoc in H. destruct (mrun X c mem d es) as [[s1 l1]|] eqn:E; [|discriminate]. specialize (IH _ _ eq_refl).
    destruct (edge_ok X c mem false inv rd wr d DO o i s1 l1 IH ltac:(discriminate)) as [[_ Ee]|(s' & e & Ee & G)]; rewrite Ee in H; [discriminate|]. injection H as <- <-. exact G.
Qed.
(** With the contract for write data every execution goes on. *)
Lemma mrun_total : forall X c mem d inv rd wr, dram_ok X d inv rd wr -> forall es, announced X c mem d es -> exists s l, mrun X c mem d es = Some (s, l) /\
  inv (ms_dram s) /\ minv X mem true (rd (ms_dram s)) (wr (ms_dram s)) s l.
Proof.
  intros X c mem d inv rd wr DO es. induction es as [|[o i] es IH] using rev_ind; intros HA.
  - eexists _, _. split; [reflexivity|]. apply (good_init X c mem true inv rd wr d DO).
  - destruct IH as (s & l & E & G).
    { intros es1 o1 i1 es2 s l E1. apply (HA es1 o1 i1 (es2 ++ [(o, i)])). rewrite E1, <- app_assoc. reflexivity. }
    rewrite mrun_snoc, E. destruct (edge_ok X c mem true inv rd wr d DO o i s l G) as [[Hf _]|(s' & e & Ee & G')]; [|discriminate|].
    + intros _ Hv. apply (HA es o i [] s l eq_refl E Hv).
    + rewrite Ee. eexists _, _. split; [reflexivity|exact G'].
Qed.
