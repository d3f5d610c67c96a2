(** The wiring of meshes and tori, and their routes in the network. *)
From Coq Require Import ZArith Arith Bool List Lia Permutation.
From Verif Require Import Fupd AllocModel AllocSpec BufferModel RouteModel RouteSpec RouteProofs ChannelModel IqRouterModel IqRouterSpec NetModel NetSpec NetMeshModel NetMeshSpec.
Import ListNotations.
Open Scope nat_scope.

Lemma cid_eqb_eq : forall a b, cid_eqb a b = true <-> a = b.
Proof. intros [x|x|x] [y|y|y]; cbn; try (split; congruence); rewrite Nat.eqb_eq; split; congruence. Qed.

Lemma Ch_inj : forall a b, Ch a = Ch b -> a = b.
Proof. congruence. Qed.

Lemma last_port_iff : forall n m f c r i,
  (forall r i r' i', r < n -> i < m -> r' < n -> i' < m -> f r i = f r' i' -> r = r' /\ i = i') ->
  last_port n m f c = Some (r, i) <-> (r < n /\ i < m /\ f r i = c).
Proof.
  intros n m f c r i I. unfold last_port. split.
  - intros E. apply find_some in E. destruct E as [E1 E2]. apply in_rev in E1. apply in_prod_iff in E1. destruct E1 as [E1 E3]. apply in_seq in E1, E3.
    apply cid_eqb_eq in E2. cbn in E2. split; [lia|]. split; [lia|auto].
  - intros [Hr [Hi E]]. destruct (find _ _) as [[r' i']|] eqn:F.
    + apply find_some in F. destruct F as [E1 E2]. apply in_rev in E1. apply in_prod_iff in E1. destruct E1 as [E1 E3]. apply in_seq in E1, E3.
      apply cid_eqb_eq in E2. cbn in E2. destruct (I r i r' i' Hr Hi) as [-> ->]; try lia; congruence.
    + exfalso. pose proof (find_none _ _ F (r, i)) as N. cbn beta in N. rewrite (proj2 (cid_eqb_eq _ _)) in N; [|exact E]. discriminate N.
      apply -> in_rev. apply in_prod_iff. split; apply in_seq; lia.
Qed.

Section Cube.
Variables (k : Z) (n : nat). Hypothesis K : (1 <= k)%Z.
Let size := Z.to_nat (powi k n).

Lemma size_pow : Z.of_nat size = (k ^ Z.of_nat n)%Z.
Proof. unfold size. rewrite powi_pow, Z2Nat.id; auto. pose proof (pow_pos k n K). lia. Qed.
Lemma grid_nat : forall r, r < size <-> on_grid k n (Z.of_nat r).
Proof. intros r. unfold on_grid. rewrite <- size_pow. lia. Qed.
Lemma grid_back : forall u, on_grid k n u -> Z.of_nat (Z.to_nat u) = u /\ Z.to_nat u < size.
Proof. intros u [H1 H2]. rewrite Z2Nat.id by lia. split; auto. apply grid_nat. rewrite Z2Nat.id by lia. split; auto. Qed.

Lemma cube_in_lt : forall r i, r < size -> i < 2 * n -> cube_in k n r i = Ch (Z.to_nat (2 * Z.of_nat n * hop k (Z.of_nat r) i + Z.of_nat (mate i))).
Proof. intros r i Hr Hi. unfold cube_in. rewrite in_chan; auto. apply grid_nat; auto. Qed.
Lemma cube_in_ge : forall r i, 2 * n <= i -> cube_in k n r i = Inj r.
Proof. intros r i Hi. unfold cube_in. rewrite in_chan_ge; auto. Qed.
Lemma cube_out_lt : forall r o, o < 2 * n -> cube_out n r o = Ch (2 * n * r + o).
Proof. intros r o Ho. unfold cube_out. rewrite out_chan; auto. f_equal. lia. Qed.
Lemma cube_out_ge : forall r o, 2 * n <= o -> cube_out n r o = Ej r.
Proof. intros r o Ho. unfold cube_out. rewrite out_chan_ge; auto. Qed.

Lemma hop_pos : forall u p, p < 2 * n -> on_grid k n u -> (0 <= hop k u p)%Z.
Proof. intros u p Hp Hu. apply (hop_grid k n u p K Hp Hu). Qed.
Lemma in_inj : forall r i r' i', r < size -> i < 2 * n + 1 -> r' < size -> i' < 2 * n + 1 -> cube_in k n r i = cube_in k n r' i' -> r = r' /\ i = i'.
Proof.
  intros r i r' i' Hr Hi Hr' Hi' E. destruct (Nat.lt_ge_cases i (2 * n)) as [L|L], (Nat.lt_ge_cases i' (2 * n)) as [L'|L'].
  - rewrite !cube_in_lt in E by auto. apply Ch_inj in E. pose proof (proj1 (grid_nat r) Hr) as G. pose proof (proj1 (grid_nat r') Hr') as G'.
    pose proof (hop_pos _ _ L G). pose proof (hop_pos _ _ L' G'). apply Z2Nat.inj in E; [|apply Z.add_nonneg_nonneg; [apply Z.mul_nonneg_nonneg|]; lia|apply Z.add_nonneg_nonneg; [apply Z.mul_nonneg_nonneg|]; lia].
    apply chan_inj in E; try (apply mate_lt; auto). destruct E as [E1 E2]. assert (i = i') by (rewrite <- (mate_mate i), <- (mate_mate i'); congruence).
    subst i'. split; auto. assert (Z.of_nat r = Z.of_nat r'); [|lia]. rewrite <- (hop_mate k n (Z.of_nat r) i), <- (hop_mate k n (Z.of_nat r') i) by auto. congruence.
  - rewrite cube_in_lt, cube_in_ge in E by auto. discriminate.
  - rewrite (cube_in_ge r), cube_in_lt in E by auto. discriminate.
  - rewrite !cube_in_ge in E by auto. injection E as ->. split; auto. lia.
Qed.
Lemma out_inj : forall r i r' i', r < size -> i < 2 * n + 1 -> r' < size -> i' < 2 * n + 1 -> cube_out n r i = cube_out n r' i' -> r = r' /\ i = i'.
Proof.
  intros r i r' i' _ Hi _ Hi' E. destruct (Nat.lt_ge_cases i (2 * n)) as [L|L], (Nat.lt_ge_cases i' (2 * n)) as [L'|L'].
  - rewrite !cube_out_lt in E by auto. injection E as E. assert (r = r'); [|split; [auto|subst; lia]]. apply (Nat.div_mod_unique (2 * n) r r' i i'); auto.
  - rewrite cube_out_lt, cube_out_ge in E by auto. discriminate.
  - rewrite (cube_out_ge r), cube_out_lt in E by auto. discriminate.
  - rewrite !cube_out_ge in E by auto. injection E as ->. split; auto. lia.
Qed.

(** The two ends of a channel. *)
Lemma cube_link : forall r p, r < size -> p < 2 * n -> cube_in k n (Z.to_nat (hop k (Z.of_nat r) p)) (mate p) = cube_out n r p /\ Z.to_nat (hop k (Z.of_nat r) p) < size.
Proof.
  intros r p Hr Hp. pose proof (proj1 (grid_nat r) Hr) as G. pose proof (hop_grid k n _ p K Hp G) as G'. destruct (grid_back _ G') as [E L]. split; auto.
  rewrite cube_in_lt, cube_out_lt; auto using mate_lt. rewrite E, (hop_mate k n), mate_mate by auto. f_equal. lia.
Qed.

Variables (mesh nl : bool) (b : bcfg) (rd : bool) (cd ob : Z).
Let w := cube mesh nl k n b rd cd ob.
Lemma cube_snk : forall c r i, w_snk w c = Some (r, i) <-> (r < size /\ i < 2 * n + 1 /\ cube_in k n r i = c).
Proof. intros. apply last_port_iff. apply in_inj. Qed.
Lemma cube_src : forall c r o, w_src w c = Some (r, o) <-> (r < size /\ o < 2 * n + 1 /\ cube_out n r o = c).
Proof. intros. apply last_port_iff. apply out_inj. Qed.

Lemma some_ne : forall A (x : option (nat * nat)) (Q : Prop), (forall r i, x = Some (r, i) -> Q) -> (Q -> exists r i, x = Some (r, i)) -> A -> (x <> None <-> Q).
Proof. intros A x Q H1 H2 _. split; [destruct x as [[r i]|]; [intros _; eauto|congruence]|intros q; destruct (H2 q) as [r [i ->]]; discriminate]. Qed.
Lemma cube_wired : wired w.
Proof.
  constructor.
  - intros r _. split; reflexivity.
  - intros c r i. apply cube_snk.
  - intros c r o. apply cube_src.
  - intros s. split.
    + destruct (w_src w (Inj s)) as [[r o]|] eqn:E; auto. exfalso. apply cube_src in E. destruct E as [_ [_ E]]. unfold cube_out in E. destruct (nth_error _ _); discriminate.
    + apply (some_ne True); auto.
      * intros r i E. apply cube_snk in E. destruct E as [E1 [_ E]]. unfold cube_in in E. destruct (nth_error _ _); [discriminate|]. injection E as <-. auto.
      * intros Hs. exists s, (2 * n). apply cube_snk. split; auto. split; [lia|]. apply cube_in_ge. auto.
  - intros d. split.
    + destruct (w_snk w (Ej d)) as [[r i]|] eqn:E; auto. exfalso. apply cube_snk in E. destruct E as [_ [_ E]]. unfold cube_in in E. destruct (nth_error _ _); discriminate.
    + apply (some_ne True); auto.
      * intros r i E. apply cube_src in E. destruct E as [E1 [_ E]]. unfold cube_out in E. destruct (nth_error _ _); [discriminate|]. injection E as <-. auto.
      * intros Hs. exists d, (2 * n). apply cube_src. split; auto. split; [lia|]. apply cube_out_ge. auto.
  - intros c.
    assert (O : forall r o, r < size -> o < 2 * n -> 2 * n * r + o < 2 * n * size) by (intros; nia).
    assert (B : c < 2 * n * size -> exists r o, r < size /\ o < 2 * n /\ cube_out n r o = Ch c).
    { intros Hc. assert (n <> 0) by (intros ->; lia). exists (c / (2 * n)), (c mod (2 * n)). pose proof (Nat.mod_upper_bound c (2 * n) ltac:(lia)).
      split; [apply Nat.div_lt_upper_bound; lia|]. split; auto. rewrite cube_out_lt by auto. f_equal. rewrite <- Nat.div_mod; lia. }
    split; apply (some_ne True); auto; change (w_chans w) with (2 * n * size).
    + intros r i E. apply cube_snk in E. destruct E as [E1 [E2 E]]. destruct (Nat.lt_ge_cases i (2 * n)) as [L|L]; [|rewrite cube_in_ge in E by auto; discriminate].
      pose proof (proj1 (grid_nat r) E1) as G. pose proof (hop_grid k n _ i K L G) as G'. destruct (grid_back _ G') as [G1 G2].
      pose proof (cube_link (Z.to_nat (hop k (Z.of_nat r) i)) (mate i) G2 (mate_lt _ _ L)) as [C _]. rewrite G1, (hop_mate k n), mate_mate, Nat2Z.id in C by auto.
      rewrite E in C. rewrite cube_out_lt in C by (apply mate_lt; auto). injection C as ->. apply O; auto. apply mate_lt; auto.
    + intros Hc. destruct (B Hc) as [r [o [Hr [Ho E]]]]. destruct (cube_link r o Hr Ho) as [C1 C2]. exists (Z.to_nat (hop k (Z.of_nat r) o)), (mate o). apply cube_snk.
      split; auto. split; [pose proof (mate_lt _ _ Ho); lia|congruence].
    + intros r o E. apply cube_src in E. destruct E as [E1 [E2 E]]. destruct (Nat.lt_ge_cases o (2 * n)) as [L|L]; [|rewrite cube_out_ge in E by auto; discriminate].
      rewrite cube_out_lt in E by auto. injection E as <-. auto.
    + intros Hc. destruct (B Hc) as [r [o [Hr [Ho E]]]]. exists r, o. apply cube_src. split; auto. split; auto. lia.
Qed.

Variables (rf : rfun unit) (T : traffic) (dist : Z -> Z -> Z) (box : Z -> Z -> Z -> Prop) (lk : Z -> Z -> Prop).
Hypothesis DV : forall id, y_b T id <= y_e T id < bc_vcs b -> delivers rf k n (Z.of_nat (y_b T id)) (Z.of_nat (y_e T id)) dist box lk.
Hypothesis ONE : one_output rf.
Let ok := head_ok rf k n T (bc_vcs b).

(** The head at an input of a router has come there by the routing function. *)
Lemma ok_gone : forall r i f, r < size -> i < 2 * n + 1 -> ok (w_in w r i) f -> exists l, under_way rf k n T f l r i.
Proof.
  intros r i f Hr Hi [O1 [O2 [O3 [O4 O5]]]]. change (w_in w r i) with (cube_in k n r i) in O5. destruct (Nat.lt_ge_cases i (2 * n)) as [L|L].
  - rewrite cube_in_lt in O5 by auto. destruct O5 as [l [u [p [r' [i' [G [Lk E]]]]]]]. pose proof Lk as Lk'. apply linked_iff in Lk; auto. destruct Lk as [Gu [Hp [Ev Eq]]].
    destruct (cube_link u p (proj2 (grid_nat u) Gu) Hp) as [C1 C2]. rewrite cube_out_lt in C1 by auto. rewrite <- Ev, Nat2Z.id, <- Eq in C1. rewrite <- Ev, Nat2Z.id in C2.
    assert (r' = r /\ i' = i) as [-> ->].
    { apply in_inj; auto; [subst i'; pose proof (mate_lt p n Hp); lia|]. rewrite C1, cube_in_lt by auto. rewrite <- E. reflexivity. }
    eauto.
  - rewrite cube_in_ge in O5 by auto. assert (i = 2 * n) as -> by lia. exists []. unfold under_way. rewrite O5. apply gone_nil. lia.
Qed.

Lemma lawful_of : forall r i f res, r < size -> i < 2 * n + 1 -> ok (w_in w r i) f -> rf tt (asked T r i f) res ->
  exists es s', res = Some (es, s') /\ es <> [] /\ lawful w ok r f es.
Proof.
  intros r i f res Hr Hi O R. destruct (ok_gone r i f Hr Hi O) as [l G]. destruct O as [O1 [O2 [O3 [O4 _]]]].
  destruct (DV (f_id f) O3 _ _ _ _ _ _ _ O1 O2 G) as [Gr [_ [_ [_ [_ D]]]]]. destruct (D res R) as [es [[] [-> [NE D1]]]]. exists es, tt. split; auto. split; auto.
  pose proof (ONE _ _ _ _ R) as L1. destruct es as [|x [|]]; [congruence| |cbn in L1; lia]. specialize (D1 x (or_introl eq_refl)). destruct D1 as [B1 [B2 D1]].
  assert (PX : exists p, o_port x = Z.of_nat p /\ p < 2 * n + 1 /\
     forall g, same f g -> y_b T (f_id f) <= f_vc g <= y_e T (f_id f) -> (o_lo x <= Z.of_nat (f_vc g) <= o_hi x)%Z -> ok (cube_out n r p) g).
  { destruct (Z.eqb_spec (Z.of_nat r) (Z.of_nat (y_dest T (f_id f)))) as [E|E].
    - exists (2 * n). split; auto. split; [lia|]. intros g [S1 _] Hv _. rewrite cube_out_ge by auto. unfold ok, head_ok. rewrite S1. repeat split; auto; try (apply O1); try (apply O2); lia.
    - destruct D1 as [p [v [j [E1 [Lk _]]]]]. exists p. split; auto. pose proof Lk as Lk'. apply linked_iff in Lk'; auto. destruct Lk' as [_ [Hp [Ev Eq]]]. split; [lia|].
      intros g [S1 _] Hv Hx. rewrite cube_out_lt by auto. unfold ok, head_ok. rewrite S1. split; auto. split; auto. split; auto. split; auto.
      assert (Gv : on_grid k n v) by (subst v; apply hop_grid; auto). destruct (grid_back v Gv) as [V1 V2].
      exists l, r, p, (Z.to_nat v), j. rewrite V1. split; [|auto]. unfold under_way. rewrite S1, V1. eapply gone_hop; [exact G|exact R|left; reflexivity|exact E1|exact Hx|exact Lk]. }
  destruct PX as [p [EP [Hp OK]]]. split.
  - split.
    + constructor; [|constructor]. change (c_outs (w_cfg w r)) with (2 * n + 1). change (c_vcs (w_cfg w r)) with (bc_vcs b). lia.
    + unfold channels_of. cbn [flat_map]. rewrite app_nil_r. unfold elem_pairs. apply FinFun.Injective_map_NoDup; [intros a c E; injection E; auto|].
      apply seq_NoDup.
  - intros o v g Hin Sg Ev. unfold channels_of in Hin. cbn [flat_map] in Hin. rewrite app_nil_r in Hin. unfold elem_pairs in Hin. apply in_map_iff in Hin. destruct Hin as [v' [E Hin]].
    injection E as <- <-. apply in_seq in Hin. rewrite EP, Nat2Z.id. change (w_out w r p) with (cube_out n r p). apply OK; auto; lia.
Qed.

Lemma cube_lawful : forall t, routes_by rf T t -> forall r i f, r < w_n w -> i < c_in (w_cfg w r) -> f_head f = true -> ok (w_in w r i) f -> lawful w ok r f (t_rf t r i f).
Proof.
  intros t R r i f Hr Hi Hh O. destruct (R r i f Hh) as [res [R1 ->]]. destruct (lawful_of r i f res Hr Hi O R1) as [es [s' [-> [_ L]]]]. exact L.
Qed.

Lemma cube_decent : forall ts zs t, mdecent rf k n T w ts zs t -> ndecent w ok ts zs t.
Proof.
  intros ts zs t [M1 M2 M3 M4 M5]. constructor; auto.
  - apply cube_lawful. auto.
  - intros m f r i Et Es. assert (Hm : m < w_nodes w) by (apply (wi_inj w cube_wired m); congruence). destruct (M4 m f Hm Et) as [A [B [C D]]]. split; auto. split; auto. split; auto.
    intros Hh. destruct (D Hh) as [D1 [D2 [D3 [D4 D5]]]]. change (bc_vcs (w_b w)) with (bc_vcs b) in D4. assert (O : ok (Inj m) f).
    { unfold ok, head_ok. split; [apply grid_nat; rewrite <- D1; exact Hm|]. split; [apply grid_nat; exact D2|]. split; [lia|]. split; [lia|auto]. }
    split; auto. intros Hrd. destruct (D5 Hrd) as [s' R]. apply cube_snk in Es. destruct Es as [E1 [E2 E3]].
    assert (r = m /\ i = 2 * n) as [-> ->].
    { destruct (Nat.lt_ge_cases i (2 * n)) as [L|L]; [rewrite cube_in_lt in E3 by auto; discriminate|]. rewrite cube_in_ge in E3 by auto. injection E3 as ->. split; auto. lia. }
    assert (O' : ok (w_in w m (2 * n)) f) by (change (ok (cube_in k n m (2 * n)) f); rewrite E3; auto).
    destruct (lawful_of m (2 * n) f _ E1 E2 O' R) as [es [s1 [E [_ L]]]]. injection E as <- _. exact L.
Qed.
Lemma cube_decent_from : forall P ts hts hzs (s : net P), mdecent_from rf k n T w hts hzs ts s -> ndecent_from w ok hts hzs ts s.
Proof.
  intros P ts. induction ts as [|t ts IH]; intros hts hzs s M; [exact Logic.I|]. destruct M as [M1 M2]. split; [apply cube_decent; auto|]. intros s' z E. apply IH. auto.
Qed.
End Cube.
