(** C114, C115: the destinations that the traffic patterns give. *)
From Coq Require Import ZArith Arith Bool List Lia Permutation.
From Verif Require Import TrafficModel TrafficSpec TrafficProofs.
Import ListNotations.
Open Scope Z_scope.

(** ** C114: permutations *)
(** The patterns over bits start for the powers of 2 and for no other number of nodes. *)
Theorem C114_start : forall nodes, 0 < nodes -> bit_ok nodes = true <-> exists m, 0 <= m /\ nodes = 2 ^ m.
Proof. exact bit_ok_pow. Qed.
Print Assumptions C114_start.
Example C114_start_ex : bit_ok 16 = true /\ bit_ok 24 = false /\ 0 < 16.
Proof. vm_compute. auto. Qed.

(** bitcomp inverts every bit. *)
Theorem C114_bitcomp : forall m, 0 <= m ->
  permutes (2 ^ m) (bitcomp (2 ^ m)) /\ (forall s, 0 <= s < 2 ^ m -> bitcomp (2 ^ m) s = 2 ^ m - 1 - s /\ (forall i, 0 <= i < m -> Z.testbit (bitcomp (2 ^ m) s) i = negb (Z.testbit s i))).
Proof.
  intros m Hm. split.
  - apply permutes_ok.
    + intros x Hx. rewrite comp_is by auto. lia.
    + intros x y Hx Hy. rewrite !comp_is by auto. lia.
  - intros s Hs. split; [apply comp_is; auto|]. intros i Hi. apply comp_bits. auto.
Qed.
Print Assumptions C114_bitcomp.
Example C114_bitcomp_ex : 0 <= 4 /\ bitcomp (2 ^ 4) 3 = 12.
Proof. vm_compute. split; [discriminate|reflexivity]. Qed.

(** transpose starts if the number of bits is even, exchanges the halves of the source, and is its own inverse. *)
Theorem C114_transpose : forall m,
  match transpose_shift (2 ^ Z.of_nat m) with
  | None => Nat.odd m = true
  | Some q => Z.of_nat m = 2 * q /\ permutes (2 ^ Z.of_nat m) (transpose q) /\ (forall s, 0 <= s < 2 ^ Z.of_nat m -> transpose q s = s / 2 ^ q + s mod 2 ^ q * 2 ^ q /\ transpose q (transpose q s) = s)
  end.
Proof.
  intros m. rewrite tshift_is. destruct (Nat.even m) eqn:E; [|rewrite <- Nat.negb_even, E; reflexivity].
  apply Nat.even_spec in E. destruct E as [c ->]. replace (Z.of_nat (2 * c)) with (Z.of_nat c * 2) by lia. rewrite Z.div_mul by lia. set (q := Z.of_nat c). assert (Hq : 0 <= q) by (unfold q; lia). clearbody q. rewrite (Z.mul_comm q 2).
  assert (P : 0 < 2 ^ q) by (apply Z.pow_pos_nonneg; lia). assert (E2 : 2 ^ (2 * q) = 2 ^ q * 2 ^ q) by (rewrite <- Z.pow_add_r by auto; f_equal; lia).
  assert (V : forall s, 0 <= s < 2 ^ (2 * q) -> 0 <= s / 2 ^ q < 2 ^ q /\ 0 <= s mod 2 ^ q < 2 ^ q) by (intros s Hs; split; [split; [apply Z.div_pos; lia|apply Z.div_lt_upper_bound; lia]|apply Z.mod_pos_bound; auto]).
  assert (B : forall s, 0 <= s < 2 ^ (2 * q) -> 0 <= transpose q s < 2 ^ (2 * q)) by (intros s Hs; rewrite transpose_is by auto; destruct (V s Hs); rewrite E2; nia).
  assert (T : forall s, 0 <= s < 2 ^ (2 * q) -> transpose q (transpose q s) = s).
  { intros s Hs. rewrite (transpose_is q (transpose q s)) by auto. rewrite transpose_is by auto. destruct (V s Hs) as [V1 V2]. rewrite Z.div_add, Z.mod_add by lia. rewrite (Z.div_small (s / 2 ^ q)), (Z.mod_small (s / 2 ^ q)) by auto. rewrite (Z.div_mod s (2 ^ q)) at 3 by lia. lia. }
  split; [reflexivity|]. split.
  - apply permutes_ok; [exact B|]. intros x y Hx Hy E. rewrite <- (T x Hx), <- (T y Hy), E. reflexivity.
  - intros s Hs. split; [apply transpose_is; auto|apply T; auto].
Qed.
Print Assumptions C114_transpose.
Example C114_transpose_ex : transpose_shift (2 ^ Z.of_nat 4) = Some 2 /\ transpose 2 6 = 9 /\ transpose_shift (2 ^ Z.of_nat 3) = None.
Proof. vm_compute. auto. Qed.

(** bitrev puts the bits in the other order. *)
Theorem C114_bitrev : forall m,
  permutes (2 ^ Z.of_nat m) (bitrev (2 ^ Z.of_nat m)) /\ (forall s i, 0 <= i < Z.of_nat m -> Z.testbit (bitrev (2 ^ Z.of_nat m) s) i = Z.testbit s (Z.of_nat m - 1 - i)).
Proof.
  intros m. split.
  - apply permutes_ok.
    + intros x Hx. rewrite bitrev_is. apply R_lt.
    + intros x y Hx Hy E. rewrite !bitrev_is in E. apply (bits_eq (Z.of_nat m)); auto. intros i Hi. replace i with (Z.of_nat m - 1 - (Z.of_nat m - 1 - i)) by lia. rewrite <- !R_bits by lia. rewrite E. reflexivity.
  - intros s i Hi. rewrite bitrev_is. apply R_bits. auto.
Qed.
Print Assumptions C114_bitrev.
Example C114_bitrev_ex : bitrev (2 ^ Z.of_nat 4) 3 = 12 /\ bitrev (2 ^ Z.of_nat 4) 2 = 4 /\ 0 <= 1 < Z.of_nat 4.
Proof. vm_compute. repeat split; discriminate. Qed.

(** shuffle moves every bit one place up and the highest to the lowest. *)
Theorem C114_shuffle : forall m, 0 <= m ->
  permutes (2 ^ (m + 1)) (shuffle (2 ^ (m + 1))) /\ (forall s, 0 <= s < 2 ^ (m + 1) -> shuffle (2 ^ (m + 1)) s = s mod 2 ^ m * 2 + s / 2 ^ m) /\ shuffle (2 ^ 0) 0 = 0.
Proof.
  intros m Hm. assert (P : 0 < 2 ^ m) by (apply Z.pow_pos_nonneg; lia). assert (E2 : 2 ^ (m + 1) = 2 ^ m * 2) by (rewrite Z.pow_add_r by lia; reflexivity).
  assert (V : forall s, 0 <= s < 2 ^ (m + 1) -> 0 <= s / 2 ^ m < 2 /\ 0 <= s mod 2 ^ m < 2 ^ m) by (intros s Hs; split; [split; [apply Z.div_pos; lia|apply Z.div_lt_upper_bound; lia]|apply Z.mod_pos_bound; auto]).
  split; [|split; [intros s Hs; apply shuffle_is; auto|reflexivity]]. apply permutes_ok.
  - intros x Hx. rewrite shuffle_is by auto. destruct (V x Hx). lia.
  - intros x y Hx Hy E. rewrite !shuffle_is in E by auto. destruct (V x Hx) as [X1 X2]. destruct (V y Hy) as [Y1 Y2]. rewrite (Z.div_mod x (2 ^ m)), (Z.div_mod y (2 ^ m)) by lia. assert (F1 : x / 2 ^ m = y / 2 ^ m) by lia. assert (F2 : x mod 2 ^ m = y mod 2 ^ m) by lia. congruence.
Qed.
Print Assumptions C114_shuffle.
Example C114_shuffle_ex : 0 <= 3 /\ shuffle (2 ^ (3 + 1)) 10 = 5.
Proof. vm_compute. split; [discriminate|reflexivity]. Qed.

(** tornado and neighbor add to every digit in base xr*k: almost half of the base, and 1. *)
Theorem C114_digits : forall k n xr, 0 < xr * k -> let kk := xr * k in
  permutes (kk ^ Z.of_nat n) (tornado k n xr) /\ permutes (kk ^ Z.of_nat n) (neighbor k n xr) /\
  (forall s i, 0 <= s < kk ^ Z.of_nat n -> (i < n)%nat ->
     (tornado k n xr s / kk ^ Z.of_nat i) mod kk = (s / kk ^ Z.of_nat i + ((kk + 1) / 2 - 1)) mod kk /\ (neighbor k n xr s / kk ^ Z.of_nat i) mod kk = (s / kk ^ Z.of_nat i + 1) mod kk).
Proof.
  intros k n xr H kk. fold kk in H. unfold tornado, neighbor. fold kk. assert (E : forall plus s, digit_loop n kk plus s 1 0 = D n kk plus s) by (intros plus s; rewrite digit_is by lia; rewrite Z.div_1_r; lia).
  assert (G : forall plus, permutes (kk ^ Z.of_nat n) (fun s => digit_loop n kk plus s 1 0)).
  { intros plus. apply permutes_ok; [intros x Hx; rewrite E; apply D_lt; auto|]. intros x y Hx Hy. rewrite !E. apply D_one; auto. }
  split; [apply G|]. split; [apply G|]. intros s i Hs Hi. rewrite !E. rewrite !D_digit by auto. rewrite !Zplus_mod_idemp_l. auto.
Qed.
Print Assumptions C114_digits.
Example C114_digits_ex : 0 < 1 * 8 /\ tornado 8 2 1 0 = 27 /\ neighbor 8 2 1 7 = 8 /\ 0 <= 7 < (1 * 8) ^ Z.of_nat 2.
Proof. vm_compute. repeat split; discriminate. Qed.

(** randperm: whatever numbers RandomInt gives, the assertion holds and the table holds every node once. *)
Theorem C114_random : forall nodes rnd, (forall i, 0 <= i < Z.of_nat nodes -> Z.of_nat (rnd i) <= Z.of_nat nodes - 1 - i) ->
  exists t, randperm nodes rnd = Some (map Some t) /\ length t = nodes /\ Permutation t (nodes_of (Z.of_nat nodes)).
Proof.
  intros nodes rnd H. destruct (free_repeat nodes) as [F0 F1]. destruct (loop_ok nodes 0 rnd (repeat None nodes) F0) as [l [E [L [F P]]]]; [intros j Hj; specialize (H j ltac:(lia)); lia|].
  exists (filled l). unfold randperm. rewrite E. rewrite <- (free_none l F). split; auto. rewrite F1 in P. cbn [app] in P. rewrite repeat_length in L. split.
  - rewrite <- L. rewrite (free_none l F) at 2. rewrite map_length. reflexivity.
  - rewrite P. unfold nodes_of. rewrite Nat2Z.id. erewrite map_ext; [reflexivity|]. intros a. cbn. lia.
Qed.
Print Assumptions C114_random.
Example C114_random_ex : randperm 4 (fun i => if i =? 0 then 3%nat else if i =? 1 then 1%nat else 0%nat) = Some (map Some [2; 1; 3; 0]).
Proof. reflexivity. Qed.

(** ** C115: random destinations *)
(** Every number that RandomInt gives leads to a node; background leaves out the excluded ones. *)
Theorem C115_range : forall nodes s, 0 <= s < nodes ->
  (forall x, 0 <= x < nodes -> 0 <= uniform x s < nodes) /\
  (forall ex xs d, (forall x, In x xs -> 0 <= x < nodes) -> background ex xs = Some d -> 0 <= d < nodes /\ ~ In d ex /\ exists a c, xs = a ++ d :: c /\ forall y, In y a -> In y ex) /\
  (forall x, (diagonal nodes x s = s /\ x <> 0) \/ (diagonal nodes x s = (if s =? nodes - 1 then 0 else s + 1) /\ x = 0)) /\
  (forall x, 2 <= nodes -> exists d, asymmetric nodes x s = Some d /\ 0 <= d < nodes /\ (nodes / 2 <= d <-> x <> 0)) /\
  (forall x y z u, nodes = 64 -> 0 <= u < 64 -> 0 <= y <= 2 -> 0 <= z <= 2 -> 0 <= taper64 x y z u s < nodes /\ (x = 0 -> taper64 x y z u s = u) /\ (x <> 0 -> taper64 x y z u s = (s + 8 * (y - 1) + (z - 1)) mod 64)).
Proof.
  intros nodes s Hs. split; [intros x Hx; exact Hx|]. split; [|split; [|split]].
  - intros ex xs. induction xs as [|x xs IH]; intros d Hx E; cbn [background] in E; [discriminate|]. destruct (existsb (Z.eqb x) ex) eqn:X.
    + destruct (IH d) as [A [B [a [c [-> Hc]]]]]; auto; [intros; apply Hx; right; auto|]. split; auto. split; auto. exists (x :: a), c. split; auto. intros y [<-|Hy]; auto. apply existsb_exists in X. destruct X as [y [Iy Ey]]. apply Z.eqb_eq in Ey. subst y. exact Iy.
    + inversion E. subst d. split; [apply Hx; left; auto|]. split; [|exists [], xs; split; auto; intros y []]. intros Hi. assert (T : existsb (Z.eqb x) ex = true) by (apply existsb_exists; exists x; rewrite Z.eqb_refl; auto). congruence.
  - intros x. unfold diagonal. destruct (Z.eqb_spec x 0) as [->|Nx]; [right|left; auto]. split; auto. destruct (Z.eqb_spec s (nodes - 1)) as [->|]; [replace (nodes - 1 + 1) with nodes by lia; apply Z.rem_same; lia|apply Z.rem_small; lia].
  - intros x H2. unfold asymmetric. cbv zeta. rewrite Z.quot_div_nonneg by lia. pose proof (Z.div_mod nodes 2 ltac:(lia)) as M. pose proof (Z.mod_pos_bound nodes 2 ltac:(lia)). set (h := nodes / 2) in *. destruct (Z.eqb_spec h 0); [lia|]. rewrite Z.rem_mod_nonneg by lia. pose proof (Z.mod_pos_bound s h ltac:(lia)).
    exists (s mod h + (if x =? 0 then 0 else h)). split; auto. destruct (Z.eqb_spec x 0); lia.
  - intros x y z u -> Hu Hy Hz. unfold taper64. destruct (Z.eqb_spec x 0) as [->|Nx]; [split; [auto|split; [auto|congruence]]|]. rewrite Z.rem_mod_nonneg by lia. split; [apply Z.mod_pos_bound; lia|]. split; [congruence|]. intros _. replace (64 + s + 8 * (y - 1) + (z - 1)) with (s + 8 * (y - 1) + (z - 1) + 1 * 64) by lia. apply Z.mod_add. lia.
Qed.
Print Assumptions C115_range.
Example C115_range_ex : 0 <= 7 < 9 /\ background [3; 4] [3; 4; 3; 8; 1] = Some 8 /\ diagonal 9 0 8 = 0 /\ asymmetric 9 1 7 = Some 7 /\ taper64 1 0 0 5 0 = 55.
Proof. vm_compute. repeat split; discriminate. Qed.

(** asymmetric among one node divides by 0. *)
Theorem C115_asymmetric_refuted : forall x s, asymmetric 1 x s = None.
Proof. reflexivity. Qed.
Print Assumptions C115_asymmetric_refuted.

(** bad_dragon gives a node, and if the groups are whole, one of the next group. *)
Theorem C115_dragon : forall nodes k s x, 0 < k -> 0 <= s < nodes -> 0 <= x < 2 * k * k ->
  0 <= bad_dragon nodes k x s < nodes /\ (forall g, nodes = g * (2 * k * k) -> bad_dragon nodes k x s / (2 * k * k) = (s / (2 * k * k) + 1) mod g).
Proof.
  intros nodes k s x Hk Hs Hx. unfold bad_dragon. cbv zeta. set (grp := 2 * k * k) in *. assert (Hg : 0 < grp) by lia. rewrite Z.quot_div_nonneg by lia. pose proof (Z.div_pos s grp ltac:(lia) Hg) as Hq. set (q := s / grp) in *. rewrite Z.rem_mod_nonneg by nia. split; [apply Z.mod_pos_bound; lia|].
  intros g ->. assert (G : 0 < g) by nia. pose proof (Z.div_mod (q + 1) g ltac:(lia)) as M. pose proof (Z.mod_pos_bound (q + 1) g G) as B. set (r := (q + 1) mod g) in *. set (t := (q + 1) / g) in *.
  assert (E : (x + (q + 1) * grp) mod (g * grp) = x + r * grp) by (symmetry; apply (Z.mod_unique_pos _ _ t); [nia|rewrite M; ring]). rewrite E. rewrite Z.div_add by lia. rewrite Z.div_small by auto. lia.
Qed.
Print Assumptions C115_dragon.
Example C115_dragon_ex : 0 < 2 /\ 0 <= 70 < 72 /\ 72 = 9 * (2 * 2 * 2) /\ bad_dragon 72 2 3 70 = 3.
Proof. vm_compute. repeat split; discriminate. Qed.

(** badperm_yarc gives a node of the source's row if there are (xr*k)^2 nodes. *)
Theorem C115_yarc : forall k xr s x, 0 < xr * k -> let kk := xr * k in 0 <= s < kk ^ 2 -> 0 <= x < kk ->
  0 <= badperm_yarc k xr x s < kk ^ 2 /\ badperm_yarc k xr x s mod kk = s / kk /\ badperm_yarc k xr x s / kk = x.
Proof.
  intros k xr s x H kk Hs Hx. unfold badperm_yarc. fold kk. fold kk in H. clearbody kk. rewrite Z.quot_div_nonneg by lia. rewrite Z.pow_2_r in *. assert (B : 0 <= s / kk < kk) by (split; [apply Z.div_pos; lia|apply Z.div_lt_upper_bound; lia]). split; [nia|]. rewrite Z.add_comm, Z.mod_add, Z.div_add by lia. rewrite (Z.mod_small (s / kk)), (Z.div_small (s / kk)) by exact B. auto.
Qed.
Print Assumptions C115_yarc.
Example C115_yarc_ex : 0 < 2 * 4 /\ 0 <= 17 < (2 * 4) ^ 2 /\ 0 <= 5 < 2 * 4 /\ badperm_yarc 4 2 5 17 = 42.
Proof. vm_compute. repeat split; discriminate. Qed.
(** With one dimension it names nodes that do not exist. *)
Theorem C115_yarc_refuted : exists k xr n s x, 0 < xr * k /\ 0 <= s < (xr * k) ^ n /\ 0 <= x <= xr * k - 1 /\ ~ badperm_yarc k xr x s < (xr * k) ^ n.
Proof. exists 4, 1, 1, 1, 3. vm_compute. repeat split; discriminate. Qed.
Print Assumptions C115_yarc_refuted.

(** hotspot: the assertion holds, and as many numbers lead to a hotspot as its rate says. *)
Theorem C115_hotspot : forall hs, hs <> [] -> (forall h, In h hs -> 0 < snd h) ->
  hot_max hs = weight hs - 1 /\ (forall x, 0 <= x <= hot_max hs -> exists h, In h hs /\ hotspot hs x = Some (fst h)) /\
  (forall a h c x, hs = a ++ h :: c -> weight a <= x < weight a + snd h -> hotspot hs x = Some (fst h)).
Proof.
  intros hs Hn Hr. split; [apply hot_max_is|]. split.
  - intros x Hx. rewrite hot_max_is in Hx. destruct (hot_loop_is hs x) as [a [h [c [E [E' _]]]]]; [lia|auto|]. destruct hs as [|g [|g' hs]]; [congruence|exists g; split; [left|]; reflexivity|]. exists h. split; [rewrite E; apply in_or_app; right; left; auto|exact E'].
  - intros a h c x E Hx. assert (T : hot_loop hs x = Some (fst h)) by (rewrite E; apply hot_loop_at; [rewrite <- E; exact Hr|exact Hx]). destruct hs as [|g [|g' hs]]; [congruence| |exact T]. cbn [hotspot]. destruct a as [|? [|? ?]]; inversion E. reflexivity.
Qed.
Print Assumptions C115_hotspot.
Example C115_hotspot_ex : map (hotspot [(5, 2); (9, 3); (5, 1)]) [0; 1; 2; 3; 4; 5] = map Some [5; 5; 9; 9; 9; 5] /\ hot_max [(5, 2); (9, 3); (5, 1)] = 5 /\ (forall h, In h [(5, 2); (9, 3); (5, 1)] -> 0 < snd h).
Proof. split; [reflexivity|]. split; [reflexivity|]. intros h [<-|[<-|[<-|[]]]]; reflexivity. Qed.
