(** In a mesh with dimension-order routing the channels have ranks. *)
From Coq Require Import ZArith Arith Bool List Lia Permutation.
From Verif Require Import Fupd AllocModel AllocSpec BufferModel BufferSpec RouteModel RouteSpec RouteProofs RouteMeshProofs ChannelModel IqRouterModel IqRouterSpec NetModel NetSpec NetProgressSpec
  NetMeshModel NetMeshSpec NetMeshProofs.
Import ListNotations.
Open Scope nat_scope.

Section Cube.
Variables (k : Z) (n : nat) (mesh nl : bool) (b : bcfg) (rd : bool) (cd ob : Z) (rf : rfun unit) (T : traffic) (dist : Z -> Z -> Z) (box : Z -> Z -> Z -> Prop) (lk : Z -> Z -> Prop).
Hypothesis K : (1 <= k)%Z.
Let w := cube mesh nl k n b rd cd ob.
Let size := Z.to_nat (powi k n).
Let ok := head_ok rf k n T (bc_vcs b).
Hypothesis DV : forall id, y_b T id <= y_e T id < bc_vcs b -> delivers rf k n (Z.of_nat (y_b T id)) (Z.of_nat (y_e T id)) dist box lk.
Hypothesis ONE : one_output rf.
Hypothesis DO : forall b e, dor_only rf k n b e.

Definition cube_rank (c : cid) (v : nat) : nat :=
  match c with
  | Inj _ => Z.to_nat (k * Z.of_nat n + 1)
  | Ch c => Z.to_nat (k * Z.of_nat n - drank k false n (Z.of_nat (c / (2 * n))) (c mod (2 * n)))
  | Ej _ => 0
  end.
Lemma chan_parts : forall u p, p < 2 * n -> (2 * n * u + p) / (2 * n) = u /\ (2 * n * u + p) mod (2 * n) = p.
Proof. intros u p Hp. split; [symmetry; apply (Nat.div_unique _ _ u p); lia|symmetry; apply (Nat.mod_unique _ _ u p); lia]. Qed.
Lemma rank_ch : forall u p v, p < 2 * n -> cube_rank (Ch (2 * n * u + p)) v = Z.to_nat (k * Z.of_nat n - drank k false n (Z.of_nat u) p).
Proof. intros u p v Hp. unfold cube_rank. destruct (chan_parts u p Hp) as [-> ->]. reflexivity. Qed.

(** A channel that a head has crossed is the one to which dimension order leads. *)
Lemma crossed : forall g l u p r i, on_grid k n (Z.of_nat (y_src T (f_id g))) -> on_grid k n (Z.of_nat (y_dest T (f_id g))) -> y_b T (f_id g) <= y_e T (f_id g) < bc_vcs b ->
  under_way rf k n T g (l ++ [(u, p, Z.of_nat (f_vc g))]) r i -> u <> Z.of_nat (y_dest T (f_id g)) /\ p = dor_next_mesh k n (k ^ Z.of_nat n) false u (Z.of_nat (y_dest T (f_id g))).
Proof.
  intros g l u p r i Gs Gd Hb G. unfold under_way in G. inversion G as [vc s B E|l0 u0 i0 vc0 s0 es s' x p0 v j vc' G0 R Hx Hp Hv Lk E]; subst; [destruct l; discriminate|].
  apply app_inj_tail in E. destruct E as [-> E]. injection E as -> ->. destruct s0.
  assert (Nu : u <> Z.of_nat (y_dest T (f_id g))).
  { intros ->. destruct (DV _ Hb _ _ _ _ _ _ _ Gs Gd G0) as [_ [_ [_ [_ [_ D]]]]]. destruct (D _ R) as [es1 [s1 [E1 [_ D1]]]]. injection E1 as <- <-. destruct (D1 x Hx) as [_ [_ D2]]. rewrite Z.eqb_refl in D2.
    apply linked_iff in Lk; auto. lia. }
  split; auto. pose proof (DO _ _ _ _ _ _ _ _ _ _ _ Nu R Hx) as E. lia.
Qed.
Lemma cube_descends : descends w ok cube_rank.
Proof.
  intros c c' r i o f g Es Ed Hh [Sg _] Of Og. apply cube_snk in Es; auto. apply cube_src in Ed; auto. destruct Es as [Hr [Hi Ei]], Ed as [_ [Ho Eo]].
  assert (Pos : forall y v, 0 < n -> 0 < cube_rank (Ch y) v < Z.to_nat (k * Z.of_nat n + 1)).
  { intros y v Hn. unfold cube_rank. pose proof (drank_bound k n false (Z.of_nat (y / (2 * n))) (y mod (2 * n)) K (Nat.mod_upper_bound y (2 * n) ltac:(lia))) as B. split; [apply (Z2Nat.inj_lt 0); lia|apply Z2Nat.inj_lt; lia]. }
  assert (Hn : forall r p, cube_out n r p = Ch (2 * n * r + p) -> p < 2 * n) by (intros r' p E; destruct (Nat.lt_ge_cases p (2 * n)); auto; rewrite cube_out_ge in E by auto; discriminate).
  destruct (Nat.lt_ge_cases i (2 * n)) as [Li|Li].
  - rewrite cube_in_lt in Ei by auto. subst c. destruct Of as [O1 [O2 [O3 [O4 O5]]]]. destruct O5 as [l [u [p [r' [i' [G [Lk E]]]]]]]. pose proof Lk as Lk'. apply linked_iff in Lk'; auto. destruct Lk' as [Gu [Hp [Ev Eq]]].
    destruct (cube_link k n K u p (proj2 (grid_nat k n K u) Gu) Hp) as [C1 C2]. rewrite cube_out_lt in C1 by auto. rewrite <- Ev, Nat2Z.id, <- Eq in C1. rewrite <- Ev, Nat2Z.id in C2.
    assert (r' = r /\ i' = i) as [-> ->].
    { apply (in_inj k n K); auto; [subst i'; pose proof (mate_lt p n Hp); lia|]. rewrite C1, cube_in_lt by auto. rewrite <- E. reflexivity. }
    rewrite E. destruct (Nat.lt_ge_cases o (2 * n)) as [Lo|Lo].
    + rewrite cube_out_lt in Eo by auto. subst c'. destruct Og as [P1 [P2 [P3 [P4 [l' [u' [p' [r1 [i1 [G' [Lk1 E']]]]]]]]]]]. pose proof Lk1 as Lk2. apply linked_iff in Lk2; auto. destruct Lk2 as [Gu' [Hp' _]].
      assert (u' = r /\ p' = o) as [-> ->] by (destruct (chan_parts r o Lo) as [A1 A2]; destruct (chan_parts u' p' Hp') as [B1 B2]; rewrite E' in A1, A2; split; congruence).
      destruct (crossed _ _ _ _ _ _ O1 O2 O3 G) as [N1 X1]. destruct (crossed _ _ _ _ _ _ P1 P2 P3 G') as [N2 X2]. rewrite Sg in N2, X2. rewrite !rank_ch by auto.
      rewrite X1 in Lk. pose proof (drank_step k n false _ _ _ _ K O2 N1 Lk N2) as St. rewrite <- X1, <- X2 in St. pose proof (drank_bound k n false (Z.of_nat r) o K Lo). pose proof (drank_bound k n false (Z.of_nat u) p K Hp). lia.
    + rewrite cube_out_ge in Eo by auto. subst c'. change (cube_rank (Ej r) (f_vc g)) with 0. apply Pos. lia.
  - rewrite cube_in_ge in Ei by auto. subst c. destruct (Nat.lt_ge_cases o (2 * n)) as [Lo|Lo].
    + rewrite cube_out_lt in Eo by auto. subst c'. apply Pos. lia.
    + rewrite cube_out_ge in Eo by auto. subst c'. cbn [cube_rank]. nia.
Qed.
Lemma cube_leads : forall t, routes_by rf T t -> leads w ok t.
Proof.
  intros t R r i f Hr Hi Hh O. destruct (R r i f Hh) as [res [R1 ->]]. destruct (lawful_of k n K mesh nl b rd cd ob rf T dist box lk DV ONE r i f res Hr Hi O R1) as [es [s' [-> [Ne _]]]]. exact Ne.
Qed.
Lemma cube_set_out : forall ts zs t, mdecent rf k n T w ts zs t -> set_out w t.
Proof.
  intros ts zs t [_ _ _ M4 _] m f Hm Et Hh Hrd. destruct (M4 m f Hm Et) as [A [B [C D]]]. destruct (D Hh) as [D1 [D2 [D3 [D4 D5]]]]. change (bc_vcs (w_b w)) with (bc_vcs b) in D4. destruct (D5 Hrd) as [s' R].
  assert (O' : ok (w_in w m (2 * n)) f).
  { change (ok (cube_in k n m (2 * n)) f). rewrite cube_in_ge by auto. unfold ok, head_ok. split; [apply grid_nat; auto; rewrite <- D1; exact Hm|]. split; [apply grid_nat; auto|]. split; [lia|]. split; [lia|auto]. }
  destruct (lawful_of k n K mesh nl b rd cd ob rf T dist box lk DV ONE m (2 * n) f _ Hm ltac:(lia) O' R) as [es [s1 [E [Ne _]]]]. injection E as <- _. exact Ne.
Qed.
End Cube.
