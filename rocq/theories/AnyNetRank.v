(** Ranks of the channels of networks described in a file. *)
From Coq Require Import ZArith Arith Bool List Lia Permutation.
From Verif Require Import Fupd AllocModel AllocSpec BufferModel RouteModel ChannelModel IqRouterModel IqRouterSpec IqRouterInv NetModel NetSpec NetMeshModel NetMeshSpec NetProgressSpec
  AnyNetModel AnyNetSpec AnyNetRoute AnyNetWires AnyNetProofs.
Import ListNotations.
Open Scope nat_scope.

Section Rank.
Variables (F : anyfile) (b : bcfg) (rd : bool) (cd ob : Z) (T : traffic).
Hypothesis CL : clean F.
Let n := an_size F.
Let w := any_cfg F b rd cd ob.
Let ok := any_ok F T (bc_vcs b).

Definition any_rank (rank : nat -> nat) (c : cid) (v : nat) : nat :=
  match c with Inj _ => 2 + list_max (map rank (seq 0 (length (links F)))) | Ch c => 1 + rank c | Ej _ => 0 end.
Lemma max_ge : forall rank c, c < length (links F) -> rank c <= list_max (map rank (seq 0 (length (links F)))).
Proof.
  intros rank c Hc. assert (X := proj1 (list_max_le (map rank (seq 0 (length (links F)))) _) (le_n _)). rewrite Forall_forall in X. apply X. apply in_map. apply in_seq. lia.
Qed.
Lemma src_link : forall c r o, w_src w (Ch c) = Some (r, o) -> r < n /\ o < radix F r /\ any_out F r o = Ch c /\ c < length (links F).
Proof.
  intros c r o E. apply (any_src F CL) in E. destruct E as [E1 [E2 E3]]. repeat split; auto. pose proof (any_out_at F CL r o E1 E2) as A. rewrite E3 in A. apply (at_out F CL) in A. tauto.
Qed.
Lemma any_descends : forall rank, ranked F rank -> descends w ok (any_rank rank).
Proof.
  intros rank RK c c' r i o f g Ei Eo Hh [Sid _] [A1 [A2 [A3 [A4 A5]]]] [B1 [B2 [B3 [B4 B5]]]].
  destruct c as [m|m|c]; destruct c' as [m'|m'|c']; cbn [any_rank]; try lia.
  - rewrite (proj1 (wi_inj w (any_wired F CL b rd cd ob) m')) in Eo. discriminate.
  - destruct (src_link c' r o Eo) as [_ [_ [_ H]]]. pose proof (max_ge rank c' H). lia.
  - rewrite (proj1 (wi_ej w (any_wired F CL b rd cd ob) m)) in Ei. discriminate.
  - rewrite (proj1 (wi_ej w (any_wired F CL b rd cd ob) m)) in Ei. discriminate.
  - rewrite (proj1 (wi_ej w (any_wired F CL b rd cd ob) m)) in Ei. discriminate.
  - rewrite (proj1 (wi_inj w (any_wired F CL b rd cd ob) m')) in Eo. discriminate.
  - rewrite Sid in *. destruct A5 as [u [p [R [E1 [E2 E3]]]]]. destruct B5 as [u' [p' [R' [E1' [E2' E3']]]]]. apply le_n_S. 
    destruct (src_link c' r o Eo) as [Hr [Ho [Ec Hc']]]. assert (u' = r) as ->.
    { pose proof (any_out_at F CL u' p' (reached_lt F CL _ _ _ R' B1) E2') as X. rewrite E3' in X. apply (at_out F CL) in X. pose proof (any_out_at F CL r o Hr Ho) as Y. rewrite Ec in Y. apply (at_out F CL) in Y. destruct X, Y. congruence. }
    pose proof (reached_lt F CL _ _ _ R B1) as Hu. pose proof (any_out_at F CL u p Hu E2) as X. rewrite E3 in X. apply (at_out F CL) in X. destruct X as [X1 X2].
    apply (any_snk F CL) in Ei. destruct Ei as [Y1 [Y2 Y3]]. pose proof (any_in_at F CL r i Y1 Y2) as Y. rewrite Y3 in Y. apply (at_in F CL) in Y. destruct Y as [_ Y].
    assert (En : nth_error (links F) c = Some (u, r)) by (rewrite (nth_some _ _ _ (0, 0) X1); destruct (nth c (links F) (0, 0)) as [x y]; cbn in *; congruence).
    exact (RK _ _ u p c r p' c' B1 B2 R E1 E2 E3 En E1' E2' E3').
Qed.

(** A packet does not go back over the link it came by. *)
Lemma no_return : short F -> connected F -> forall d u p c v p' c', u < n -> table F u d = Some p -> any_out F u p = Ch c -> nth_error (links F) c = Some (u, v) -> table F v d = Some p' -> any_out F v p' = Ch c' -> nth_error (links F) c' = Some (v, u) -> d < an_nodes F -> False.
Proof.
  intros SH CN d u p c v p' c' Hu E1 E2 E3 E4 E5 E6 Hd. destruct (node_router F CL d Hd) as [R [ER [HR _]]]. destruct (least_some F CL SH CN u R Hu HR) as [z Lz].
  destruct (hop_less F CL SH CN u d R c v p z Hu ER E1 E2 E3 Lz) as [x [Ex Lv]]. pose proof (lat_lt F CL _ _ _ Ex) as [_ Hv].
  destruct (hop_less F CL SH CN v d R c' u p' _ Hv ER E4 E5 E6 Lv) as [y [Ey Lu]]. pose proof (cl_pos F CL _ _ _ Ex). pose proof (cl_pos F CL _ _ _ Ey). pose proof (least_one F R _ _ _ Lz Lu). lia.
Qed.
Definition tree_rank (parent depth : nat -> nat) (c : nat) : nat :=
  let (a, q) := nth c (links F) (0, 0) in let m := list_max (map depth (seq 0 n)) in if (Nat.eqb (parent a) q && Nat.eqb (depth a) (S (depth q)))%bool then m + depth a else m - depth q.
Lemma tree_ranked : short F -> connected F -> forall parent depth, tree F parent depth -> ranked F (tree_rank parent depth).
Proof.
  intros SH CN parent depth TR a d u p c v p' c' Ha Hd Re E1 E2 E3 E4 F1 F2 F3. pose proof (reached_lt F CL _ _ _ Re Ha) as Hu. destruct (link_at F CL _ _ _ E4) as [_ [Hv [_ [_ L]]]].
  pose proof (any_out_at F CL v p' Hv F2) as X. rewrite F3 in X. apply (at_out F CL) in X. destruct X as [X1 X2]. pose proof (nth_some _ _ _ (0, 0) X1) as En. destruct (nth c' (links F) (0, 0)) as [v' q] eqn:Eq. cbn [fst] in X2. subst v'.
  destruct (link_at F CL _ _ _ En) as [_ [Hq [_ [_ L']]]]. unfold tree_rank. rewrite Eq, (nth_nth _ _ _ _ (0, 0) E4).
  assert (M : forall r, r < n -> depth r <= list_max (map depth (seq 0 n))).
  { intros r Hr. assert (X := proj1 (list_max_le (map depth (seq 0 n)) _) (le_n _)). rewrite Forall_forall in X. apply X. apply in_map. apply in_seq. lia. }
  assert (NE : q <> u) by (intros ->; eapply (no_return SH CN d u p c v p' c'); eauto).
  pose proof (M u Hu). pose proof (M v Hv). pose proof (M q Hq). pose proof (TR _ _ L) as T1. pose proof (TR _ _ L') as T2.
  destruct (Nat.eqb_spec (parent u) v), (Nat.eqb_spec (depth u) (S (depth v))), (Nat.eqb_spec (parent v) q), (Nat.eqb_spec (depth v) (S (depth q))); cbn [andb]; try lia;
  destruct T1 as [[? ?]|[? ?]], T2 as [[? ?]|[? ?]]; try lia; try congruence.
Qed.
End Rank.
