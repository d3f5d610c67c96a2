(** The DRAM simulator does what the memory controller needs. *)
From Coq Require Import ZArith Bool List Lia Permutation.
From Verif Require Import DramBankModel DramCtrlModel DramSpec DramCtrlProofs DramBooksProofs MemCtrlModel MemCtrlSpec MemDramModel.
Import ListNotations.
Local Open Scope Z_scope.

Definition reached (c : kcfg) (s : ctrl) : Prop := exists os h, drun c os = Some (s, h).
Definition sim_rd (s : ctrl) : list Z := map t_addr (filter (fun t => negb (t_write t)) (s_ret s) ++ s_prd s).
Definition sim_wr (s : ctrl) : list Z := map t_addr (filter t_write (s_ret s)).

Lemma drun_from_app : forall c os1 os2 s h, drun_from c (os1 ++ os2) s h = match drun_from c os1 s h with None => None | Some (s', h') => drun_from c os2 s' h' end.
Proof. induction os1 as [|o os1 IH]; intros; cbn [app drun_from]; [reflexivity|]. destruct (dstep c o s h) as [[s' h']|]; [apply IH|reflexivity]. Qed.
Lemma reached_add : forall c s a w s', reached c s -> will_accept c s w = true -> dram_add c s a w = Some s' -> reached c s'.
Proof.
  intros c s a w s' (os & h & E) Hw Ha. exists (os ++ [DOffer a w]). unfold drun in *. rewrite drun_from_app, E. cbn [drun_from dstep]. rewrite Hw, Ha. eexists. reflexivity.
Qed.
Lemma reached_binv : forall c s, reached c s -> exists h, binv s h.
Proof. intros c s (os & h & E). exists h. exact (binv_run _ _ _ _ _ _ binv0 E). Qed.
Lemma reached_tick : forall c s, cfg_ok c -> k_selfref c = false -> reached c s -> exists s' l y, dram_tick c s = Some (s', l, y) /\ reached c s'.
Proof.
  intros c s Hc Hs (os & h & E).
  destruct (drun_from_ok false c Hc Hs (os ++ [DTick]) ctrl0 hist0 ltac:(discriminate) (good0 c) (kinv0 false c Hc)) as (s2 & h2 & E2 & _).
  pose proof E2 as E3. rewrite drun_from_app in E2. unfold drun in E. rewrite E in E2. cbn [drun_from dstep] in E2.
  destruct (dram_tick c s) as [[[s' l] y]|]; [|discriminate]. exists s', l, y. split; [reflexivity|]. injection E2 as Ea Eb. rewrite Ea. eexists _, _. exact E3.
Qed.
Lemma map_filter_addr : forall p l, (forall t : trans, p (t_addr t, t_write t) = p (0, t_write t)) ->
  map fst (filter p (map (fun t => (t_addr t, t_write t)) l)) = map t_addr (filter (fun t => p (0, t_write t)) l).
Proof. intros p l H. induction l as [|t l IH]; [reflexivity|]. cbn [map filter]. rewrite H. destruct (p (0, t_write t)); cbn [map fst]; rewrite IH; reflexivity. Qed.
Lemma filter_perm_ext : forall (A : Type) (p : A -> bool) l m, Permutation l m -> Permutation (filter p l) (filter p m).
Proof. intros A p l m H. induction H; cbn [filter]; try destruct (p x); try destruct (p y); auto; [apply perm_swap|etransitivity; eauto]. Qed.
Lemma filter_all : forall (A : Type) (p : A -> bool) l, (forall x, In x l -> p x = true) -> filter p l = l.
Proof. induction l as [|x l IH]; intros H; [reflexivity|]. cbn [filter]. rewrite (H x (or_introl eq_refl)). f_equal. apply IH. intros y Hy. apply H. right. exact Hy. Qed.

Lemma sim_dram_ok : forall c, cfg_ok c -> k_selfref c = false -> dram_ok (sim_dram c) ctrl0 (reached c) sim_rd sim_wr.
Proof.
  intros c Hc Hs. constructor.
  - split; [|split; reflexivity]. exists [], hist0. reflexivity.
  - intros s a Hr Hw. cbn [sim_dram d_will d_add dr] in *. unfold dram_add at 1. rewrite Hw. eexists. split; [reflexivity|].
    split; [eapply reached_add; [exact Hr|exact Hw|unfold dram_add; rewrite Hw; reflexivity]|].
    destruct (add_trans_books c s a false) as [[[E1 E2]|(_ & E1 & E2)] _]; unfold sim_rd, sim_wr; rewrite E1, E2.
    + rewrite !filter_app. cbn [filter completes t_write negb]. rewrite !app_nil_r, !map_app. cbn [map completes t_addr]. split; [|reflexivity]. rewrite <- app_assoc. symmetry. apply Permutation_middle.
    + split; [|reflexivity]. rewrite !map_app. cbn [map t_addr]. rewrite app_assoc. symmetry. apply Permutation_cons_append.
  - intros s a Hr Hw. cbn [sim_dram d_will d_add dr] in *. unfold dram_add at 1. rewrite Hw. eexists. split; [reflexivity|].
    split; [eapply reached_add; [exact Hr|exact Hw|unfold dram_add; rewrite Hw; reflexivity]|].
    destruct (add_trans_books c s a true) as [[[E1 E2]|(E0 & _)] _]; [|discriminate]. unfold sim_rd, sim_wr; rewrite E1, E2.
    rewrite !filter_app. cbn [filter completes t_write negb]. rewrite app_nil_r, !map_app. cbn [map completes t_addr]. split; [apply Permutation_refl|reflexivity].
  - intros s Hr. destruct (reached_tick c s Hc Hs Hr) as (s' & l & y & E & Hr'). cbn [sim_dram d_tick dr]. rewrite E. exists s', (map (fun t => (t_addr t, t_write t)) l). split; [reflexivity|].
    split; [exact Hr'|]. destruct (reached_binv _ _ Hr) as (h & Hb). unfold dram_tick in E. destruct (drain _ _ _) as [l0 q] eqn:Ed.
    destruct (clock_tick _ _) as [[s2 y2]|] eqn:Ec; [|discriminate]. injection E as -> -> ->.
    destruct (drain_ok _ _ _ _ _ Ed (bi_order _ _ Hb)) as (D1 & D2 & _). apply clock_tick_books in Ec; [|exact (bi_prd _ _ Hb)]. destruct Ec as (B1 & B2 & B3 & _).
    unfold books in B1. cbn [with_trans s_ret s_prd s_clk] in *. unfold rd_of, wr_of, sim_rd, sim_wr. rewrite !map_filter_addr by reflexivity. cbn [snd]. split.
    + assert (HH : Permutation (map t_addr (filter (fun t => negb (t_write t)) (q ++ s_prd s))) (map t_addr (filter (fun t => negb (t_write t)) (s_ret s' ++ s_prd s')))).
      { assert (K : forall m, map t_addr (filter (fun t => negb (t_write t)) m) = map (fun k : Z * Z * bool => fst (fst k)) (filter (fun k => negb (snd k)) (map key m))).
        { induction m as [|t m IH]; [reflexivity|]. cbn [map filter]. unfold key at 1 3. cbn [snd]. destruct (negb (t_write t)); cbn [map fst]; rewrite IH; reflexivity. }
        rewrite !K. apply Permutation_map, filter_perm_ext. exact B1. }
      rewrite !filter_app in HH. rewrite (filter_all _ _ (s_prd s)) in HH by (intros t Ht; rewrite (bi_prd _ _ Hb t Ht); reflexivity).
      rewrite (filter_all _ _ (s_prd s')) in HH by (intros t Ht; rewrite (B3 t Ht); reflexivity).
      etransitivity; [|apply Permutation_app_head; exact HH]. rewrite !map_app, app_assoc. apply Permutation_app_tail. rewrite <- map_app, <- filter_app. apply Permutation_map, filter_perm_ext. exact D1.
    + rewrite <- map_app. f_equal. change (wr (s_ret s) = wr l ++ wr (s_ret s')). rewrite B2, D2. apply wr_app.
Qed.
