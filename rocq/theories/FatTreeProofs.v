(** The fat tree: wiring and packets. *)
From Coq Require Import ZArith Arith Bool List Lia Permutation.
From Verif Require Import Fupd AllocModel AllocSpec BufferModel RouteModel ChannelModel IqRouterModel IqRouterSpec IqRouterInv NetModel NetSpec NetMeshModel NetMeshSpec NetMeshProofs NetProgressSpec FlyProofs FatTreeModel FatTreeSpec.
Import ListNotations.
Open Scope nat_scope.

Lemma port_iff : forall size (rad : nat -> nat) f c r i,
  (forall r i r' i', r < size -> i < rad r -> r' < size -> i' < rad r' -> f r i = f r' i' -> r = r' /\ i = i') ->
  find (fun a : nat * nat => cid_eqb (f (fst a) (snd a)) c) (rev (flat_map (fun r => map (pair r) (seq 0 (rad r))) (seq 0 size))) = Some (r, i) <-> (r < size /\ i < rad r /\ f r i = c).
Proof.
  intros size rad f c r i J.
  assert (M : forall r i, In (r, i) (rev (flat_map (fun r => map (pair r) (seq 0 (rad r))) (seq 0 size))) <-> r < size /\ i < rad r).
  { intros u j. rewrite <- in_rev, in_flat_map. split.
    - intros [x [Hx Hm]]. apply in_map_iff in Hm. destruct Hm as [y [E Hy]]. injection E as -> ->. apply in_seq in Hx, Hy. lia.
    - intros [H1 H2]. exists u. split; [apply in_seq; lia|]. apply in_map. apply in_seq. lia. }
  split.
  - intros E. apply find_some in E. destruct E as [E1 E2]. apply M in E1. apply cid_eqb_eq in E2. cbn [fst snd] in E2. tauto.
  - intros [Hr [Hi E]]. destruct (find _ _) as [[r' i']|] eqn:Fi.
    + apply find_some in Fi. destruct Fi as [E1 E2]. apply M in E1. apply cid_eqb_eq in E2. cbn [fst snd] in E2. destruct (J r i r' i') as [-> ->]; try tauto. congruence.
    + exfalso. pose proof (find_none _ _ Fi (r, i) (proj2 (M r i) (conj Hr Hi))) as X. cbn [fst snd] in X. rewrite (proj2 (cid_eqb_eq _ _) E) in X. discriminate.
Qed.

Section Fat.
Variables (k n : nat) (b : bcfg) (rd : bool) (cd ob : Z) (T : traffic).
Hypothesis Hk : 0 < k.
Hypothesis Hn : 0 < n.
Let per := k ^ (n - 1).
Let N := k ^ n.
Let size := n * per.
Let w := fat_tree k n b rd cd ob.
(** The weight of the digit that is put between levels [l] and [l + 1]. *)
Definition sh (l : nat) : nat := k ^ (n - 2 - l).

Lemma rt_at : forall s a, a < per -> (s * per + a) / per = s /\ (s * per + a) mod per = a.
Proof. intros s a H. apply dm. exact H. Qed.
Lemma pbox : forall a o, a < per -> o < k -> a * k + o < N.
Proof. apply (port_box k n Hk Hn). Qed.
Lemma NP : N = per * k.
Proof. apply N_per; auto. Qed.
Lemma dir_N : ft_dir k n = N /\ ft_level k n = 2 * N.
Proof. unfold ft_dir, ft_level. fold per. rewrite NP. lia. Qed.
Lemma sh_pos : forall l, 0 < sh l.
Proof. intros l. apply pow_pos. auto. Qed.
Lemma sh_S : forall l, S l < n -> k ^ (n - 1 - l) = sh l * k.
Proof. intros l Hl. unfold sh. replace (n - 1 - l) with (S (n - 2 - l)) by lia. cbn [Nat.pow]. lia. Qed.
Lemma sh_put : forall l a i, S l < n -> a < per -> i < k -> put k (sh l) a i < per.
Proof. intros l a i H1 H2 H3. unfold sh. replace (n - 2 - l) with (n - S l - 1) by lia. apply (put_per k n Hk Hn (S l)); auto. lia. Qed.
Lemma link_put : forall l a i, S l < n -> ft_link k n l a i = put k (sh l) a i * k + (a / sh l) mod k.
Proof.
  intros l a i Hl. unfold ft_link. rewrite sh_S by auto. replace (n - 1 - (l + 1)) with (n - 2 - l) by lia. fold (sh l). destruct (split3 k (sh l) a Hk (sh_pos l)) as [h [x [Hx E]]].
  assert (Hz : (a / sh l) mod k < k) by apply (dig_lt k n Hk Hn). set (z := (a / sh l) mod k) in *.
  assert (Ep : put k (sh l) a i = (h * k + i) * sh l + x) by (rewrite E at 1; apply put_at; auto). rewrite Ep.
  assert (Ea : a = h * (sh l * k) + (z * sh l + x)) by (rewrite E at 1; lia). assert (Hb : z * sh l + x < sh l * k) by (rewrite (Nat.mul_comm (sh l) k); apply box; auto).
  destruct (dm (sh l * k) h (z * sh l + x) Hb) as [D1 D2]. rewrite <- Ea in D1, D2. rewrite D1, D2. destruct (dm (sh l) z x Hx) as [D3 D4]. rewrite D3, D4. lia.
Qed.
Lemma rad_at : forall s a, a < per -> ft_radix k n (s * per + a) = if Nat.eqb s 0 then k else 2 * k.
Proof. intros s a H. unfold ft_radix. fold per. rewrite (proj1 (rt_at s a H)). reflexivity. Qed.
Lemma low_at : forall a i, a < per -> i < k -> ft_in k n ((n - 1) * per + a) i = Inj (a * k + i).
Proof. intros a i Ha Hi. unfold ft_in. fold per. rewrite (proj1 (rt_at (n - 1) a Ha)), (proj2 (rt_at (n - 1) a Ha)). destruct (Nat.ltb_spec i k); [|lia]. rewrite Nat.eqb_refl. reflexivity. Qed.
Lemma up_in_at : forall l a i, S l < n -> a < per -> i < k -> ft_in k n (l * per + a) i = ft_up k n l (put k (sh l) a i) ((a / sh l) mod k).
Proof.
  intros l a i Hl Ha Hi. unfold ft_in. fold per. rewrite (proj1 (rt_at l a Ha)), (proj2 (rt_at l a Ha)). destruct (Nat.ltb_spec i k); [|lia]. destruct (Nat.eqb_spec l (n - 1)); [lia|].
  rewrite link_put by auto. destruct dir_N as [-> ->]. unfold ft_up. fold N. f_equal. lia.
Qed.
Lemma down_in_at : forall l a i, S l < n -> a < per -> i < k -> ft_in k n (S l * per + a) (k + i) = ft_down k n l (put k (sh l) a i) ((a / sh l) mod k).
Proof.
  intros l a i Hl Ha Hi. unfold ft_in. fold per. rewrite (proj1 (rt_at (S l) a Ha)), (proj2 (rt_at (S l) a Ha)). destruct (Nat.ltb_spec (k + i) k); [lia|]. replace (S l - 1) with l by lia. replace (k + i - k) with i by lia.
  rewrite link_put by auto. destruct dir_N as [_ ->]. unfold ft_down. fold N. f_equal. 
Qed.
Lemma ej_at : forall a i, a < per -> i < k -> ft_out k n ((n - 1) * per + a) i = Ej (a * k + i).
Proof. intros a i Ha Hi. unfold ft_out. fold per. rewrite (proj1 (rt_at (n - 1) a Ha)), (proj2 (rt_at (n - 1) a Ha)). destruct (Nat.ltb_spec i k); [|lia]. rewrite Nat.eqb_refl. reflexivity. Qed.
Lemma down_at : forall l a i, S l < n -> a < per -> i < k -> ft_out k n (l * per + a) i = ft_down k n l a i.
Proof.
  intros l a i Hl Ha Hi. unfold ft_out. fold per. rewrite (proj1 (rt_at l a Ha)), (proj2 (rt_at l a Ha)). destruct (Nat.ltb_spec i k); [|lia]. destruct (Nat.eqb_spec l (n - 1)); [lia|].
  destruct dir_N as [_ ->]. unfold ft_down. fold N. f_equal. lia.
Qed.
Lemma up_at : forall l a i, S l < n -> a < per -> i < k -> ft_out k n (S l * per + a) (k + i) = ft_up k n l a i.
Proof.
  intros l a i Hl Ha Hi. unfold ft_out. fold per. rewrite (proj1 (rt_at (S l) a Ha)), (proj2 (rt_at (S l) a Ha)). destruct (Nat.ltb_spec (k + i) k); [lia|]. replace (k + i - k) with i by lia.
  destruct dir_N as [-> ->]. unfold ft_up. fold N. f_equal. lia.
Qed.
(** A port of a router leads to a node, down or up. *)
Inductive port : nat -> nat -> Prop :=
| po_node : forall a i, a < per -> i < k -> port ((n - 1) * per + a) i
| po_low : forall l a i, S l < n -> a < per -> i < k -> port (l * per + a) i
| po_high : forall l a i, S l < n -> a < per -> i < k -> port (S l * per + a) (k + i).
Lemma port_of : forall r i, r < size -> i < ft_radix k n r -> port r i.
Proof.
  intros r i Hr Hi. destruct (router_of k n Hk Hn r Hr) as [s [a [-> [Hs Ha]]]]. rewrite rad_at in Hi by auto. destruct (Nat.lt_ge_cases i k) as [L|G].
  - destruct (Nat.eq_dec s (n - 1)) as [->|Ne]; [apply po_node; auto|apply po_low; auto; lia].
  - destruct s as [|s]; cbn [Nat.eqb] in Hi; [lia|]. replace i with (k + (i - k)) by lia. apply po_high; auto; lia.
Qed.
Lemma port_lt : forall r i, port r i -> r < size /\ i < ft_radix k n r.
Proof.
  intros r i [a j Ha Hj|l a j Hl Ha Hj|l a j Hl Ha Hj]; (split; [apply (router_lt k n); auto; lia|]); rewrite rad_at by auto; try (destruct (Nat.eqb _ 0); lia); cbn [Nat.eqb]; lia.
Qed.
Lemma chan_eq : forall l x l' x', x < 2 * N -> x' < 2 * N -> l * (2 * N) + x = l' * (2 * N) + x' -> l = l' /\ x = x'.
Proof. intros l x l' x' H H' E. eapply dm_inj; eauto. Qed.
Lemma down_inj : forall l a p l' a' p', a < per -> p < k -> a' < per -> p' < k -> ft_down k n l a p = ft_down k n l' a' p' -> l = l' /\ a = a' /\ p = p'.
Proof.
  intros l a p l' a' p' Ha Hp Ha' Hp' E. injection E as E. fold N in E. pose proof (pbox a p Ha Hp). pose proof (pbox a' p' Ha' Hp').  apply dm_inj in E; [|lia|lia]. destruct E as [-> E].
  apply dm_inj in E; auto.
Qed.
Lemma up_inj : forall l a p l' a' p', a < per -> p < k -> a' < per -> p' < k -> ft_up k n l a p = ft_up k n l' a' p' -> l = l' /\ a = a' /\ p = p'.
Proof.
  intros l a p l' a' p' Ha Hp Ha' Hp' E. injection E as E. fold N in E. pose proof (pbox a p Ha Hp). pose proof (pbox a' p' Ha' Hp').  apply dm_inj in E; [|lia|lia]. destruct E as [-> E].
  assert (E' : a * k + p = a' * k + p') by lia. apply dm_inj in E'; auto.
Qed.
Lemma down_up : forall l a p l' a' p', a < per -> p < k -> a' < per -> p' < k -> ft_down k n l a p <> ft_up k n l' a' p'.
Proof.
  intros l a p l' a' p' Ha Hp Ha' Hp' E. injection E as E. fold N in E. pose proof (pbox a p Ha Hp). pose proof (pbox a' p' Ha' Hp').  apply dm_inj in E; [|lia|lia]. lia.
Qed.
Lemma fin_one : forall r i r' i', r < size -> i < ft_radix k n r -> r' < size -> i' < ft_radix k n r' -> ft_in k n r i = ft_in k n r' i' -> r = r' /\ i = i'.
Proof.
  intros r i r' i' Hr Hi Hr' Hi' E. apply port_of in Hi; auto. apply port_of in Hi'; auto. clear Hr Hr'.
  assert (DL : forall x, x mod k < k) by (intros; apply (dig_lt k n Hk Hn)).
  destruct Hi as [a j Ha Hj|l a j Hl Ha Hj|l a j Hl Ha Hj], Hi' as [a' j' Ha' Hj'|l' a' j' Hl' Ha' Hj'|l' a' j' Hl' Ha' Hj']; try rewrite low_at in E by auto; try rewrite up_in_at in E by auto; try rewrite down_in_at in E by auto;
    try rewrite low_at in E by auto; try rewrite up_in_at in E by auto; try rewrite down_in_at in E by auto; try (unfold ft_up, ft_down in E; discriminate).
  - injection E as E. apply dm_inj in E; auto. destruct E as [-> ->]. auto.
  - apply up_inj in E; auto using sh_put. destruct E as [-> [E1 E2]]. destruct (put_put k (sh l') a j Hk (sh_pos l') Hj) as [P1 P2], (put_put k (sh l') a' j' Hk (sh_pos l') Hj') as [Q1 Q2]. rewrite E1 in P1, P2. rewrite E2 in P1. split; [f_equal|]; congruence.
  - symmetry in E. apply down_up in E; auto using sh_put. destruct E.
  - apply down_up in E; auto using sh_put. destruct E.
  - apply down_inj in E; auto using sh_put. destruct E as [-> [E1 E2]]. destruct (put_put k (sh l') a j Hk (sh_pos l') Hj) as [P1 P2], (put_put k (sh l') a' j' Hk (sh_pos l') Hj') as [Q1 Q2]. rewrite E1 in P1, P2. rewrite E2 in P1. split; [f_equal|f_equal]; congruence.
Qed.
Lemma fout_one : forall r i r' i', r < size -> i < ft_radix k n r -> r' < size -> i' < ft_radix k n r' -> ft_out k n r i = ft_out k n r' i' -> r = r' /\ i = i'.
Proof.
  intros r i r' i' Hr Hi Hr' Hi' E. apply port_of in Hi; auto. apply port_of in Hi'; auto. clear Hr Hr'.
  destruct Hi as [a j Ha Hj|l a j Hl Ha Hj|l a j Hl Ha Hj], Hi' as [a' j' Ha' Hj'|l' a' j' Hl' Ha' Hj'|l' a' j' Hl' Ha' Hj']; try rewrite ej_at in E by auto; try rewrite up_at in E by auto; try rewrite down_at in E by auto;
    try rewrite ej_at in E by auto; try rewrite up_at in E by auto; try rewrite down_at in E by auto; try (unfold ft_up, ft_down in E; discriminate).
  - injection E as E. apply dm_inj in E; auto. destruct E as [-> ->]. auto.
  - apply down_inj in E; auto. destruct E as [-> [-> ->]]. auto.
  - apply down_up in E; auto. destruct E.
  - symmetry in E. apply down_up in E; auto. destruct E.
  - apply up_inj in E; auto. destruct E as [-> [-> ->]]. auto.
Qed.
Lemma ft_snk : forall c r i, w_snk w c = Some (r, i) <-> (r < size /\ i < ft_radix k n r /\ ft_in k n r i = c).
Proof. intros. apply port_iff. apply fin_one. Qed.
Lemma ft_src : forall c r o, w_src w c = Some (r, o) <-> (r < size /\ o < ft_radix k n r /\ ft_out k n r o = c).
Proof. intros. apply port_iff. apply fout_one. Qed.
Lemma inj_to : forall m, m < N -> w_snk w (Inj m) = Some ((n - 1) * per + m / k, m mod k).
Proof. intros m Hm. destruct (node_port k n Hk Hn m Hm) as [E1 [E2 E3]]. destruct (port_lt _ _ (po_node (m / k) (m mod k) E3 E2)) as [P1 P2]. apply ft_snk. split; auto. split; auto. rewrite low_at by auto. congruence. Qed.
Lemma ej_from : forall m, m < N -> w_src w (Ej m) = Some ((n - 1) * per + m / k, m mod k).
Proof. intros m Hm. destruct (node_port k n Hk Hn m Hm) as [E1 [E2 E3]]. destruct (port_lt _ _ (po_node (m / k) (m mod k) E3 E2)) as [P1 P2]. apply ft_src. split; auto. split; auto. rewrite ej_at by auto. congruence. Qed.
Lemma down_from : forall l a p, S l < n -> a < per -> p < k -> w_src w (ft_down k n l a p) = Some (l * per + a, p).
Proof. intros l a p Hl Ha Hp. destruct (port_lt _ _ (po_low l a p Hl Ha Hp)) as [P1 P2]. apply ft_src. split; auto. split; auto. apply down_at; auto. Qed.
Lemma up_from : forall l a p, S l < n -> a < per -> p < k -> w_src w (ft_up k n l a p) = Some (S l * per + a, k + p).
Proof. intros l a p Hl Ha Hp. destruct (port_lt _ _ (po_high l a p Hl Ha Hp)) as [P1 P2]. apply ft_src. split; auto. split; auto. apply up_at; auto. Qed.
Lemma up_to : forall l a p, S l < n -> a < per -> p < k -> w_snk w (ft_up k n l a p) = Some (l * per + put k (sh l) a p, (a / sh l) mod k).
Proof.
  intros l a p Hl Ha Hp. assert (Hd : (a / sh l) mod k < k) by apply (dig_lt k n Hk Hn). destruct (port_lt _ _ (po_low l (put k (sh l) a p) _ Hl (sh_put l a p Hl Ha Hp) Hd)) as [P1 P2]. apply ft_snk. split; auto. split; auto.
  rewrite up_in_at by auto using sh_put. destruct (put_put k (sh l) a p Hk (sh_pos l) Hp) as [Q1 Q2]. rewrite Q1, Q2. reflexivity.
Qed.
Lemma down_to : forall l a p, S l < n -> a < per -> p < k -> w_snk w (ft_down k n l a p) = Some (S l * per + put k (sh l) a p, k + (a / sh l) mod k).
Proof.
  intros l a p Hl Ha Hp. assert (Hd : (a / sh l) mod k < k) by apply (dig_lt k n Hk Hn). destruct (port_lt _ _ (po_high l (put k (sh l) a p) _ Hl (sh_put l a p Hl Ha Hp) Hd)) as [P1 P2]. apply ft_snk. split; auto. split; auto.
  rewrite down_in_at by auto using sh_put. destruct (put_put k (sh l) a p Hk (sh_pos l) Hp) as [Q1 Q2]. rewrite Q1, Q2. reflexivity.
Qed.
Lemma chans_N : w_chans w = (n - 1) * (2 * N).
Proof. change (w_chans w) with (2 * k * per * (n - 1)). rewrite NP. lia. Qed.
Lemma chan_view : forall c, c < w_chans w -> exists l a p, S l < n /\ a < per /\ p < k /\ (Ch c = ft_down k n l a p \/ Ch c = ft_up k n l a p).
Proof.
  intros c Hc. rewrite chans_N in Hc. assert (HN : 0 < N) by (apply pow_pos; auto). destruct (dme (2 * N) c ltac:(lia)) as [E H]. assert (Hl : c / (2 * N) < n - 1) by (apply Nat.div_lt_upper_bound; lia). set (l := c / (2 * N)) in *. set (x := c mod (2 * N)) in *.
  destruct (Nat.lt_ge_cases x N) as [L|G].
  - destruct (node_port k n Hk Hn x L) as [E1 [E2 E3]]. exists l, (x / k), (x mod k). split; [lia|]. split; auto. split; auto. left. unfold ft_down. fold N. rewrite <- E1. congruence.
  - assert (L : x - N < N) by lia. destruct (node_port k n Hk Hn (x - N) L) as [E1 [E2 E3]]. exists l, ((x - N) / k), ((x - N) mod k). split; [lia|]. split; auto. split; auto. right. unfold ft_up. fold N. rewrite <- E1. replace (N + (x - N)) with x by lia. congruence.
Qed.
Lemma down_lt : forall l a p, S l < n -> a < per -> p < k -> l * (2 * N) + (a * k + p) < w_chans w.
Proof. intros l a p Hl Ha Hp. rewrite chans_N. pose proof (pbox a p Ha Hp).  apply box; lia. Qed.
Lemma up_lt : forall l a p, S l < n -> a < per -> p < k -> l * (2 * N) + (N + (a * k + p)) < w_chans w.
Proof. intros l a p Hl Ha Hp. rewrite chans_N. pose proof (pbox a p Ha Hp).  apply box; lia. Qed.
Lemma ft_wired : wired w.
Proof.
  assert (DL : forall x, x mod k < k) by (intros; apply (dig_lt k n Hk Hn)).
  constructor.
  - intros r _. split; reflexivity.
  - intros c r i. apply ft_snk.
  - intros c r o. apply ft_src.
  - intros m. split.
    + destruct (w_src w (Inj m)) as [[r o]|] eqn:E; auto. exfalso. apply ft_src in E. destruct E as [E1 [E2 E]]. apply port_of in E2; auto. destruct E2; [rewrite ej_at in E by auto|rewrite down_at in E by auto|rewrite up_at in E by auto]; discriminate.
    + apply (some_ne True); auto; change (w_nodes w) with N.
      * intros r i E. apply ft_snk in E. destruct E as [E1 [E2 E]]. apply port_of in E2; auto. destruct E2; [rewrite low_at in E by auto|rewrite up_in_at in E by auto; discriminate|rewrite down_in_at in E by auto; discriminate]. injection E as <-. apply pbox; auto.
      * intros Hm. rewrite (inj_to m Hm). eauto.
  - intros m. split.
    + destruct (w_snk w (Ej m)) as [[r o]|] eqn:E; auto. exfalso. apply ft_snk in E. destruct E as [E1 [E2 E]]. apply port_of in E2; auto. destruct E2; [rewrite low_at in E by auto|rewrite up_in_at in E by auto|rewrite down_in_at in E by auto]; discriminate.
    + apply (some_ne True); auto; change (w_nodes w) with N.
      * intros r i E. apply ft_src in E. destruct E as [E1 [E2 E]]. apply port_of in E2; auto. destruct E2; [rewrite ej_at in E by auto|rewrite down_at in E by auto; discriminate|rewrite up_at in E by auto; discriminate]. injection E as <-. apply pbox; auto.
      * intros Hm. rewrite (ej_from m Hm). eauto.
  - intros c. split; apply (some_ne True); auto.
    + intros r i E. apply ft_snk in E. destruct E as [E1 [E2 E]]. apply port_of in E2; auto. destruct E2; [rewrite low_at in E by auto; discriminate|rewrite up_in_at in E by auto|rewrite down_in_at in E by auto]; injection E as <-; [apply up_lt|apply down_lt]; auto using sh_put.
    + intros Hc. destruct (chan_view c Hc) as [l [a [p [Hl [Ha [Hp [-> | ->]]]]]]]; [rewrite down_to by auto|rewrite up_to by auto]; eauto.
    + intros r i E. apply ft_src in E. destruct E as [E1 [E2 E]]. apply port_of in E2; auto. destruct E2; [rewrite ej_at in E by auto; discriminate|rewrite down_at in E by auto|rewrite up_at in E by auto]; injection E as <-; [apply down_lt|apply up_lt]; auto.
    + intros Hc. destruct (chan_view c Hc) as [l [a [p [Hl [Ha [Hp [-> | ->]]]]]]]; [rewrite down_from by auto|rewrite up_from by auto]; eauto.
Qed.

(** ** Packets *)
(** What a router at depth [D] does. *)
Lemma put_div : forall l a p, S l < n -> p < k -> put k (sh l) a p / sh l = a / (sh l * k) * k + p /\ put k (sh l) a p / (sh l * k) = a / (sh l * k).
Proof.
  intros l a p Hl Hp. destruct (split3 k (sh l) a Hk (sh_pos l)) as [h [x [Hx E]]]. assert (Hz : (a / sh l) mod k < k) by apply (dig_lt k n Hk Hn). set (z := (a / sh l) mod k) in *.
  assert (Ep : put k (sh l) a p = (h * k + p) * sh l + x) by (rewrite E at 1; apply put_at; auto). assert (D1 : put k (sh l) a p / sh l = h * k + p) by (rewrite Ep; apply (dm (sh l) (h * k + p) x Hx)).
  assert (D2 : a / sh l = h * k + z) by (rewrite E at 1; apply (dm (sh l) (h * k + z) x Hx)). pose proof (sh_pos l). rewrite <- !Nat.div_div by lia. rewrite D1, D2. rewrite (proj1 (dm k h p Hp)), (proj1 (dm k h z Hz)). auto.
Qed.
Lemma step_at : forall D pos i d up, D < n -> pos < per -> d < N ->
  ft_step k n (D * per + pos) i d up = if Nat.eqb (d / k ^ (n - D)) (pos / k ^ (n - 1 - D)) then Some ((d / k ^ (n - 1 - D)) mod k) else if Nat.ltb i k then Some (k + up) else None.
Proof.
  intros D pos i d up HD Hp Hd. unfold ft_step. fold per. rewrite (proj1 (rt_at D pos Hp)), (proj2 (rt_at D pos Hp)). replace (n - D - 1) with (n - 1 - D) by lia. set (h := pos / k ^ (n - 1 - D)). set (C := k ^ (n - D)).
  assert (HC : 0 < C) by (apply pow_pos; auto). destruct (dme C d HC) as [E H]. assert (EC : C = k ^ (n - 1 - D) * k) by (unfold C; replace (n - D) with (S (n - 1 - D)) by lia; cbn [Nat.pow]; lia).
  destruct (Nat.eqb_spec (d / C) h) as [Eh|Nh].
  - replace (Nat.ltb d ((h + 1) * C)) with true by (symmetry; apply Nat.ltb_lt; rewrite <- Eh; lia). replace (Nat.leb (h * C) d) with true by (symmetry; apply Nat.leb_le; rewrite <- Eh; lia). cbn [andb].
    destruct (Nat.eqb_spec D (n - 1)) as [->|Ne]; [rewrite Nat.sub_diag; cbn [Nat.pow]; rewrite Nat.div_1_r; reflexivity|]. f_equal. replace (n - (D + 1)) with (n - 1 - D) by lia.
    replace (d - h * C) with (d mod C) by (rewrite <- Eh; lia). rewrite EC. set (M := k ^ (n - 1 - D)). assert (HM : 0 < M) by (apply pow_pos; auto). rewrite Nat.mod_mul_r by lia. rewrite (Nat.mul_comm M), Nat.add_comm. apply (dm M). apply Nat.mod_upper_bound. lia.
  - replace ((Nat.ltb d ((h + 1) * C) && Nat.leb (h * C) d)%bool) with false; [reflexivity|]. symmetry. apply andb_false_iff. destruct (Nat.lt_trichotomy (d / C) h) as [L|[L|L]]; [right; apply Nat.leb_gt|contradiction|left; apply Nat.ltb_ge].
    + pose proof (Nat.mul_le_mono_r (S (d / C)) h C L). lia.
    + pose proof (Nat.mul_le_mono_r (S h) (d / C) C L). lia.
Qed.
Let ok := ft_ok k n T (bc_vcs b).
(** Where a head is, at an input: it comes from below or from above. *)
Lemma ok_at : forall r i f, w_snk w (w_in w r i) = Some (r, i) -> ok (w_in w r i) f -> exists D pos, D < n /\ pos < per /\ r = D * per + pos /\
  ((i < k /\ pos / k ^ (n - 1 - D) = y_src T (f_id f) / k ^ (n - D)) \/ (k <= i /\ pos / k ^ (n - 1 - D) = y_dest T (f_id f) / k ^ (n - D))).
Proof.
  intros r i f Es [O1 [O2 [O3 [O4 O5]]]]. set (a := y_src T (f_id f)) in *. set (d := y_dest T (f_id f)) in *. destruct (w_in w r i) as [m|m|c].
  - subst m. rewrite (inj_to a O1) in Es. injection Es as <- <-. destruct (node_port k n Hk Hn a O1) as [E1 [E2 E3]]. exists (n - 1), (a / k). split; [lia|]. split; auto. split; auto. left. split; auto.
    rewrite Nat.sub_diag. replace (n - (n - 1)) with 1 by lia. cbn [Nat.pow]. rewrite Nat.mul_1_r, Nat.div_1_r. reflexivity.
  - rewrite (proj1 (wi_ej w ft_wired m)) in Es. discriminate.
  - destruct O5 as [l [pos [p [Hl [Hpos [Hp [[Ec [E1 E2]]|[Ec [E1 E2]]]]]]]]]; fold per in Hpos; rewrite Ec in Es.
    + rewrite down_to in Es by auto. injection Es as <- <-. exists (S l), (put k (sh l) pos p). split; auto. split; [apply sh_put; auto|]. split; auto. right. split; [lia|]. destruct (put_div l pos p Hl Hp) as [P1 _].
      replace (n - 1 - S l) with (n - 2 - l) by lia. fold (sh l). rewrite P1. rewrite <- sh_S by auto. rewrite E1. subst p. replace (n - l) with (S (n - 1 - l)) by lia. cbn [Nat.pow]. rewrite (Nat.mul_comm k). set (M := k ^ (n - 1 - l)).
      assert (HM : 0 < M) by (apply pow_pos; auto). rewrite <- Nat.div_div by lia. replace (n - S l) with (n - 1 - l) by lia. fold M. symmetry. apply (dme k (d / M) Hk).
    + rewrite up_to in Es by auto. injection Es as <- <-. exists l, (put k (sh l) pos p). split; [lia|]. split; [apply sh_put; auto|]. split; auto. left. split; [apply (dig_lt k n Hk Hn)|]. destruct (put_div l pos p Hl Hp) as [_ P2].
      rewrite sh_S by auto. rewrite P2. pose proof (sh_pos l). rewrite <- Nat.div_div by lia. unfold sh. rewrite E1. replace (n - l) with (S (n - 1 - l)) by lia. cbn [Nat.pow]. rewrite (Nat.mul_comm k). assert (HM : 0 < k ^ (n - 1 - l)) by (apply pow_pos; auto).
      rewrite <- Nat.div_div by lia. reflexivity.
Qed.
(** The port that it is given. *)
Lemma go_at : forall r i f x, r < size -> i < ft_radix k n r -> x < k -> ok (ft_in k n r i) f -> exists p, ft_step k n r i (y_dest T (f_id f)) x = Some p /\ p < ft_radix k n r /\
  forall g, f_id g = f_id f -> y_b T (f_id f) <= f_vc g <= y_e T (f_id f) -> ok (ft_out k n r p) g.
Proof.
  intros r i f x Hr Hi Hx O. assert (Es : w_snk w (w_in w r i) = Some (r, i)) by (apply ft_snk; auto). destruct (ok_at r i f Es O) as [D [pos [HD [Hpos [-> Wh]]]]]. destruct O as [O1 [O2 [O3 [O4 _]]]]. set (a := y_src T (f_id f)) in *. set (d := y_dest T (f_id f)) in *.
  rewrite step_at by auto. rewrite rad_at by auto. assert (G : forall g, f_id g = f_id f -> y_b T (f_id f) <= f_vc g <= y_e T (f_id f) -> forall c, (match c with Inj m => m = a | Ej m => m = d | Ch _ => exists l pos p, S l < n /\ pos < k ^ (n - 1) /\ p < k /\
      ((c = ft_down k n l pos p /\ pos / k ^ (n - 1 - l) = d / k ^ (n - l) /\ p = (d / k ^ (n - 1 - l)) mod k) \/ (c = ft_up k n l pos p /\ pos / k ^ (n - 2 - l) = a / k ^ (n - 1 - l) /\ a / k ^ (n - 1 - l) <> d / k ^ (n - 1 - l))) end) -> ok c g).
  { intros g Eg Hg c Hc. unfold ok, ft_ok. rewrite Eg. fold a d. split; auto. }
  destruct (Nat.eqb_spec (d / k ^ (n - D)) (pos / k ^ (n - 1 - D))) as [E|Ne].
  - exists ((d / k ^ (n - 1 - D)) mod k). split; auto. assert (Hq : (d / k ^ (n - 1 - D)) mod k < k) by apply (dig_lt k n Hk Hn). split; [destruct (Nat.eqb D 0); lia|]. intros g Eg Hg. apply G; auto. destruct (Nat.eq_dec D (n - 1)) as [->|Nd].
    + rewrite ej_at by auto. rewrite Nat.sub_diag in *. replace (n - (n - 1)) with 1 in E by lia. cbn [Nat.pow] in *. rewrite Nat.mul_1_r, Nat.div_1_r in *. rewrite <- E. symmetry. apply (node_port k n Hk Hn d O2).
    + rewrite down_at by (auto; lia). unfold ft_down at 1. exists D, pos, ((d / k ^ (n - 1 - D)) mod k). split; [lia|]. split; auto.
  - destruct Wh as [[Wi Wp]|[Wi Wp]]; [|congruence]. destruct (Nat.ltb_spec i k); [|lia]. exists (k + x). split; auto.
    destruct D as [|D].
    { exfalso. apply Ne. rewrite !Nat.sub_0_r. fold N per. rewrite !Nat.div_small by auto. reflexivity. }
    cbn [Nat.eqb]. split; [lia|]. intros g Eg Hg. apply G; auto. rewrite up_at by auto. unfold ft_up at 1. exists D, pos, x. split; auto. split; auto. split; auto. right. split; auto. replace (n - 2 - D) with (n - 1 - S D) by lia. replace (n - 1 - D) with (n - S D) by lia. split; auto. congruence.
Qed.
Lemma one_range : forall r p f, p < ft_radix k n r -> y_b T (f_id f) <= y_e T (f_id f) < bc_vcs b -> (forall g, f_id g = f_id f -> y_b T (f_id f) <= f_vc g <= y_e T (f_id f) -> ok (ft_out k n r p) g) ->
  lawful w ok r f [add_range (Z.of_nat p) (Z.of_nat (y_b T (f_id f))) (Z.of_nat (y_e T (f_id f)))].
Proof.
  intros r p f Hp O3 G. split.
  - split.
    + constructor; [|constructor]. cbn [add_range o_port o_lo o_hi]. change (c_outs (w_cfg w r)) with (ft_radix k n r). change (c_vcs (w_cfg w r)) with (bc_vcs b). lia.
    + unfold channels_of. cbn [flat_map]. rewrite app_nil_r. unfold elem_pairs. apply FinFun.Injective_map_NoDup; [intros x y E; injection E; auto|]. apply seq_NoDup.
  - intros o v g Hin Sg Ev. unfold channels_of in Hin. cbn [flat_map] in Hin. rewrite app_nil_r in Hin. unfold elem_pairs in Hin. apply in_map_iff in Hin. destruct Hin as [v' [E Hin]].
    cbn [add_range o_port o_lo o_hi] in *. injection E as <- <-. apply in_seq in Hin. rewrite !Nat2Z.id. change (w_out w) with (ft_out k n). destruct Sg as [Eg _]. apply G; auto. lia.
Qed.
Lemma ft_lawful : forall r i f es, r < w_n w -> i < c_in (w_cfg w r) -> ok (w_in w r i) f -> ft_may k n T r i f es -> lawful w ok r f es /\ es <> [].
Proof.
  intros r i f es Hr Hi O M. assert (O3 : y_b T (f_id f) <= y_e T (f_id f) < bc_vcs b) by apply O.
  assert (X : exists x, x < k /\ es = match fattree_nca k n r i (y_dest T (f_id f)) x (Z.of_nat (y_b T (f_id f))) (Z.of_nat (y_e T (f_id f))) with Some l => l | None => [] end).
  { destruct M as [M|[x [y [used [Hx [Hy E]]]]]]; auto. unfold fattree_anca in E. destruct (_ <? _)%Z; eauto. }
  destruct X as [x [Hx ->]]. destruct (go_at r i f x Hr Hi Hx O) as [p [Ep [Hp G]]]. unfold fattree_nca. rewrite Ep. cbn [option_map]. split; [|discriminate]. apply one_range; auto.
Qed.
Lemma ft_safe : forall r i f, r < w_n w -> i < c_in (w_cfg w r) -> f_head f = true -> ok (w_in w r i) f -> ft_sure k n T r i f.
Proof.
  intros r i f Hr Hi _ O x y used b0 e. assert (A : forall z, ft_step k n r i (y_dest T (f_id f)) z <> None).
  { intros z. destruct (go_at r i f 0 Hr Hi Hk O) as [p [Ep _]]. revert Ep. unfold ft_step. destruct (_ && _)%bool; [destruct (Nat.eqb _ _); discriminate|]. destruct (Nat.ltb i k); discriminate. }
  unfold fattree_nca, fattree_anca. split; [specialize (A x); destruct (ft_step _ _ _ _ _ x); [discriminate|contradiction]|]. specialize (A (if Z.ltb (used (k + y)) (used (k + x)) then y else x)). destruct (ft_step _ _ _ _ _ _); [discriminate|contradiction].
Qed.
Lemma ft_start : forall f, y_src T (f_id f) < w_nodes w -> y_dest T (f_id f) < w_nodes w -> y_b T (f_id f) <= f_vc f <= y_e T (f_id f) -> y_e T (f_id f) < bc_vcs (w_b w) -> ok (Inj (y_src T (f_id f))) f.
Proof. intros f H1 H2 H3 H4. change (bc_vcs (w_b w)) with (bc_vcs b) in H4. unfold ok, ft_ok. split; auto. split; auto. split; [lia|]. split; [lia|]. reflexivity. Qed.
Lemma ft_end : forall d f, ok (Ej d) f -> y_dest T (f_id f) = d.
Proof. intros d f [O1 [O2 [O3 [O4 O5]]]]. auto. Qed.
(** Up channels, the lowest first, then down channels. *)
Definition ft_rank (c : cid) (v : nat) : nat :=
  match c with Inj _ => 2 * n + 1 | Ch c => if Nat.ltb (c mod (2 * k ^ n)) (k ^ n) then n - c / (2 * k ^ n) else n + 1 + c / (2 * k ^ n) | Ej _ => 0 end.
Lemma rank_down : forall l a p v, a < per -> p < k -> ft_rank (ft_down k n l a p) v = n - l.
Proof.
  intros l a p v Ha Hp. unfold ft_down, ft_rank. fold N. pose proof (pbox a p Ha Hp) as B.  destruct (dm (2 * N) l (a * k + p)) as [D1 D2]; [lia|]. rewrite D1, D2. destruct (Nat.ltb_spec (a * k + p) N); [reflexivity|lia].
Qed.
Lemma rank_up : forall l a p v, a < per -> p < k -> ft_rank (ft_up k n l a p) v = n + 1 + l.
Proof.
  intros l a p v Ha Hp. unfold ft_up, ft_rank. fold N. pose proof (pbox a p Ha Hp) as B.  destruct (dm (2 * N) l (N + (a * k + p))) as [D1 D2]; [lia|]. rewrite D1, D2. destruct (Nat.ltb_spec (N + (a * k + p)) N); [lia|reflexivity].
Qed.
Lemma ft_descends : descends w ok ft_rank.
Proof.
  intros c c' r i o f g Ei Eo Hh [Sid _] A B. assert (A' := A). destruct A as [A1 [A2 [A3 [A4 A5]]]]. destruct B as [B1 [B2 [B3 [B4 B5]]]]. rewrite Sid in *. set (a := y_src T (f_id f)) in *. set (d := y_dest T (f_id f)) in *.
  destruct c' as [m'|m'|c']; [rewrite (proj1 (wi_inj w ft_wired m')) in Eo; discriminate| |].
  - destruct c as [m|m|c]; [cbn; lia|rewrite (proj1 (wi_ej w ft_wired m)) in Ei; discriminate|]. destruct A5 as [l [pos [p [Hl [Hpos [Hp [[-> _]|[-> _]]]]]]]]; [rewrite rank_down by auto|rewrite rank_up by auto]; cbn [ft_rank]; lia.
  - destruct B5 as [l' [pos' [p' [Hl' [Hpos' [Hp' X]]]]]]. fold per in Hpos'.
    assert (RB : ft_rank (Ch c') (f_vc g) <= 2 * n) by (destruct X as [[-> _]|[-> _]]; [rewrite rank_down by auto|rewrite rank_up by auto]; lia).
    destruct c as [m|m|c]; [cbn [ft_rank] in *; lia|rewrite (proj1 (wi_ej w ft_wired m)) in Ei; discriminate|].
    destruct A5 as [l [pos [p [Hl [Hpos [Hp Y]]]]]]. fold per in Hpos. destruct X as [[Ec' [X1 X2]]|[Ec' [X1 X2]]]; rewrite Ec' in *.
    + rewrite rank_down by auto. rewrite down_from in Eo by auto. injection Eo as <- <-. destruct Y as [[Ec [Y1 Y2]]|[Ec [Y1 Y2]]]; rewrite Ec in *.
      * rewrite rank_down by auto. rewrite down_to in Ei by auto. injection Ei as Ei _. change (per + l * per) with (S l * per) in Ei. apply dm_inj in Ei; [|apply sh_put; auto|auto]. lia.
      * rewrite rank_up by auto. lia.
    + rewrite rank_up by auto. rewrite up_from in Eo by auto. injection Eo as <- <-. destruct Y as [[Ec [Y1 Y2]]|[Ec [Y1 Y2]]]; rewrite Ec in *.
      * exfalso. rewrite down_to in Ei by auto. injection Ei as Ei _. change (per + l' * per) with (S l' * per) in Ei. change (per + l * per) with (S l * per) in Ei. apply dm_inj in Ei; [|apply sh_put; auto|auto]. destruct Ei as [Ei Ep]. assert (l = l') by lia. subst l' pos'.
        destruct (put_div l pos p Hl Hp) as [P1 _]. fold (sh l) in X1. rewrite P1 in X1. rewrite <- sh_S in X1 by auto. apply X2. rewrite <- X1, Y1, Y2. replace (n - l) with (S (n - 1 - l)) by lia. cbn [Nat.pow]. rewrite (Nat.mul_comm k). set (M := k ^ (n - 1 - l)).
        assert (HM : 0 < M) by (apply pow_pos; auto). rewrite <- Nat.div_div by lia. symmetry. apply (dme k (d / M) Hk).
      * rewrite rank_up by auto. rewrite up_to in Ei by auto. injection Ei as Ei _. change (per + l' * per) with (S l' * per) in Ei. apply dm_inj in Ei; [|apply sh_put; auto|auto]. lia.
Qed.
(** ** Ways *)
Lemma nca_at : forall D pos i d x bb ee, D < n -> pos < per -> d < N -> d / k ^ (n - D) = pos / k ^ (n - 1 - D) -> fattree_nca k n (D * per + pos) i d x bb ee = Some [add_range (Z.of_nat ((d / k ^ (n - 1 - D)) mod k)) bb ee].
Proof. intros D pos i d x bb ee HD Hp Hd E. unfold fattree_nca. rewrite step_at by auto. rewrite E, Nat.eqb_refl. reflexivity. Qed.
Lemma pow_S' : forall m x, x / k ^ S m = x / k ^ m / k.
Proof. intros m x. cbn [Nat.pow]. rewrite (Nat.mul_comm k). assert (0 < k ^ m) by (apply pow_pos; auto). rewrite <- Nat.div_div by lia. reflexivity. Qed.
Lemma led_down : forall d g D pos c i, d < N -> g = n - 1 - D -> D < n -> pos < per -> w_snk w c = Some (D * per + pos, i) -> pos / k ^ (n - 1 - D) = d / k ^ (n - D) -> led k n d w c (n - D).
Proof.
  intros d g. induction g as [|g IH]; intros D pos c i Hd Eg HD Hpos Es E; assert (Hq : (d / k ^ (n - 1 - D)) mod k < k) by apply (dig_lt k n Hk Hn); replace (n - D) with (S (n - 1 - D)) by lia; rewrite <- Eg.
  - apply (led_hop k n d w c (D * per + pos) i (fun _ => (d / k ^ (n - 1 - D)) mod k)); auto.
    + intros x Hx. split; [change (c_outs (w_cfg w (D * per + pos))) with (ft_radix k n (D * per + pos)); rewrite rad_at by auto; destruct (Nat.eqb D 0); lia|]. intros bb ee. apply nca_at; auto.
    + intros x Hx. change (w_out w) with (ft_out k n). assert (D = n - 1) by lia. subst D. rewrite ej_at by auto. rewrite Nat.sub_diag in *. replace (n - (n - 1)) with 1 in E by lia. cbn [Nat.pow] in *. rewrite Nat.mul_1_r, Nat.div_1_r in *. rewrite E.
      rewrite <- (proj1 (node_port k n Hk Hn d Hd)). apply led_out.
  - apply (led_hop k n d w c (D * per + pos) i (fun _ => (d / k ^ (n - 1 - D)) mod k)); auto.
    + intros x Hx. split; [change (c_outs (w_cfg w (D * per + pos))) with (ft_radix k n (D * per + pos)); rewrite rad_at by auto; destruct (Nat.eqb D 0); lia|]. intros bb ee. apply nca_at; auto.
    + intros x Hx. change (w_out w) with (ft_out k n). rewrite down_at by (auto; lia). replace (S g) with (n - S D) by lia. eapply (IH (S D)); [exact Hd|lia|lia| |apply down_to; auto; lia|]; [apply sh_put; auto; lia|].
      destruct (put_div D pos _ ltac:(lia) Hq) as [P1 _]. replace (n - 1 - S D) with (n - 2 - D) by lia. fold (sh D). rewrite P1. rewrite <- sh_S by lia. rewrite E. replace (n - D) with (S (n - 1 - D)) by lia. rewrite pow_S'. replace (n - S D) with (n - 1 - D) by lia. symmetry. apply (dme k _ Hk).
Qed.
Lemma meet_lt : forall a d h, a < N -> d < N -> meet k a d h -> h < n.
Proof.
  intros a d h Ha Hd [M1 M2]. destruct (Nat.lt_ge_cases h n) as [|G]; auto. exfalso. apply (M2 (n - 1)); [lia|]. replace (n - 1 + 1) with n by lia. fold N. rewrite !Nat.div_small by auto. reflexivity.
Qed.
Lemma led_up : forall a d h m D pos c i, a < N -> d < N -> meet k a d h -> m = h - (n - 1 - D) -> n - 1 - D <= h -> D < n -> pos < per -> w_snk w c = Some (D * per + pos, i) -> i < k -> pos / k ^ (n - 1 - D) = a / k ^ (n - D) ->
  led k n d w c (2 * h + 1 - (n - 1 - D)).
Proof.
  intros a d h m. induction m as [|m IH]; intros D pos c i Ha Hd M Em Hg HD Hpos Es Hi E.
  - replace (2 * h + 1 - (n - 1 - D)) with (n - D) by lia. eapply led_down; eauto. rewrite E. destruct M as [M _]. replace (h + 1) with (n - D) in M by lia. exact M.
  - pose proof (meet_lt a d h Ha Hd M) as Hh. destruct D as [|D]; [lia|]. assert (Ne : d / k ^ (n - S D) <> pos / k ^ (n - 1 - S D)).
    { rewrite E. destruct M as [_ M]. specialize (M (n - 1 - S D) ltac:(lia)). replace (n - 1 - S D + 1) with (n - S D) in M by lia. congruence. }
    replace (2 * h + 1 - (n - 1 - S D)) with (S (2 * h + 1 - (n - 1 - D))) by lia. apply (led_hop k n d w c (S D * per + pos) i (fun x => k + x)); auto.
    + intros x Hx. split; [change (c_outs (w_cfg w (S D * per + pos))) with (ft_radix k n (S D * per + pos)); rewrite rad_at by auto; cbn [Nat.eqb]; lia|]. intros bb ee. unfold fattree_nca. rewrite step_at by auto.
      destruct (Nat.eqb_spec (d / k ^ (n - S D)) (pos / k ^ (n - 1 - S D))); [contradiction|]. destruct (Nat.ltb_spec i k); [reflexivity|lia].
    + intros x Hx. change (w_out w) with (ft_out k n). rewrite up_at by auto. eapply (IH D); [exact Ha|exact Hd|exact M|lia|lia|lia| |apply up_to; auto|apply (dig_lt k n Hk Hn)|]; [apply sh_put; auto|].
      destruct (put_div D pos x HD Hx) as [_ P2]. rewrite sh_S by auto. rewrite P2. pose proof (sh_pos D). rewrite <- Nat.div_div by lia. unfold sh. replace (n - 2 - D) with (n - 1 - S D) by lia. rewrite E. replace (n - D) with (S (n - S D)) by lia. rewrite pow_S'. reflexivity.
Qed.
Lemma inj_led : forall a d h, a < N -> d < N -> meet k a d h -> led k n d w (Inj a) (2 * h + 1).
Proof.
  intros a d h Ha Hd M. destruct (node_port k n Hk Hn a Ha) as [E1 [E2 E3]]. replace (2 * h + 1) with (2 * h + 1 - (n - 1 - (n - 1))) by lia. eapply led_up; [exact Ha|exact Hd|exact M|reflexivity|lia|lia|exact E3|apply inj_to; auto|exact E2|].
  rewrite Nat.sub_diag. replace (n - (n - 1)) with 1 by lia. cbn [Nat.pow]. rewrite Nat.mul_1_r, Nat.div_1_r. reflexivity.
Qed.
Lemma meet_ex : forall a d, a < N -> d < N -> exists h, meet k a d h.
Proof.
  intros a d Ha Hd. assert (X : forall m, (exists h, h < m /\ meet k a d h) \/ forall j, j < m -> a / k ^ (j + 1) <> d / k ^ (j + 1)).
  { induction m as [|m [IH|IH]]; [right; lia|left; destruct IH as [h [H M]]; exists h; split; [lia|exact M]|]. destruct (Nat.eq_dec (a / k ^ (m + 1)) (d / k ^ (m + 1))) as [E|Ne]; [left; exists m; split; [lia|split; auto]|right].
    intros j Hj. destruct (Nat.eq_dec j m) as [->|]; auto. apply IH. lia. }
  destruct (X n) as [[h [_ M]]|Y]; [exists h; exact M|]. exfalso. apply (Y (n - 1)); [lia|]. replace (n - 1 + 1) with n by lia. fold N. rewrite !Nat.div_small by auto. reflexivity.
Qed.
Lemma led_one : forall d c h, led k n d w c h -> forall h', led k n d w c h' -> h' = h.
Proof.
  intros d c h H. induction H as [|c r i p h E1 E2 H IH]; intros h' H'; inversion H' as [X Y|c1 r1 i1 p1 h1 F1 F2 F3 X Y]; subst; auto.
  - rewrite (proj1 (wi_ej w ft_wired d)) in F1. discriminate.
  - rewrite (proj1 (wi_ej w ft_wired d)) in E1. discriminate.
  - rewrite E1 in F1. injection F1 as <- <-. f_equal. apply (IH 0 Hk). destruct (E2 0 Hk) as [_ E2'], (F2 0 Hk) as [_ F2']. specialize (E2' 0%Z 0%Z). specialize (F2' 0%Z 0%Z). rewrite E2' in F2'. injection F2' as F2'. apply Nat2Z.inj in F2'. rewrite F2'. apply F3. exact Hk.
Qed.
(** No way over the wires is shorter. *)
Lemma same_high : forall g H x y, x / k ^ g = y / k ^ g -> g <= H -> x / k ^ H = y / k ^ H.
Proof. intros g H x y E L. replace H with (g + (H - g)) by lia. rewrite Nat.pow_add_r. assert (0 < k ^ g) by (apply pow_pos; auto). assert (0 < k ^ (H - g)) by (apply pow_pos; auto). rewrite <- !Nat.div_div by lia. congruence. Qed.
Lemma hops_far : forall c m c', hops w c m c' -> forall d D pos i, c' = Ej d -> D < n -> pos < per -> w_snk w c = Some (D * per + pos, i) ->
  exists H, n - 1 - D <= H /\ pos / k ^ H = d / k ^ (H + 1) /\ 2 * H + 1 <= m + (n - 1 - D).
Proof.
  intros c m c' Hh. induction Hh as [c|c r i o m c' Es Ho Hh IH]; intros d D pos j E HD Hpos Es'; [subst c; rewrite (proj1 (wi_ej w ft_wired d)) in Es'; discriminate|].
  rewrite Es in Es'. injection Es' as -> ->. change (c_outs (w_cfg w (D * per + pos))) with (ft_radix k n (D * per + pos)) in Ho. rewrite rad_at in Ho by auto. change (w_out w) with (ft_out k n) in *. destruct (Nat.lt_ge_cases o k) as [L|G].
  - destruct (Nat.eq_dec D (n - 1)) as [->|Nd].
    + rewrite ej_at in * by auto. subst c'. inversion Hh as [X Y Z|X r1 i1 o1 m1 X' F1 F2 F3 Y Z]; subst; [|rewrite (proj1 (wi_ej w ft_wired _)) in F1; discriminate]. exists 0. split; [lia|]. split; [|lia]. cbn [Nat.pow Nat.add]. rewrite Nat.mul_1_r, Nat.div_1_r. symmetry. apply (dm k pos o L).
    + rewrite down_at in * by (auto; lia). destruct (IH d (S D) _ _ E ltac:(lia) (sh_put D pos o ltac:(lia) Hpos L) (down_to D pos o ltac:(lia) Hpos L)) as [H [H1 [H2 H3]]]. destruct (put_div D pos o ltac:(lia) L) as [_ P2]. rewrite <- sh_S in P2 by lia.
      destruct (Nat.lt_ge_cases H (n - 1 - D)) as [L1|G1].
      * exists (n - 1 - D). split; [lia|]. split; [|lia]. rewrite <- P2. assert (H = n - 2 - D) by lia. subst H. replace (n - 1 - D) with (S (n - 2 - D)) by lia. rewrite pow_S', H2. replace (S (n - 2 - D) + 1) with (S (n - 2 - D + 1)) by lia. rewrite pow_S'. reflexivity.
      * exists H. split; [lia|]. split; [|lia]. rewrite <- H2. symmetry. eapply same_high; eauto.
  - destruct D as [|D]; [cbn [Nat.eqb] in Ho; lia|]. cbn [Nat.eqb] in Ho. replace o with (k + (o - k)) in * by lia. set (x := o - k) in *. assert (Hx : x < k) by lia. rewrite up_at in * by auto.
    destruct (IH d D _ _ E ltac:(lia) (sh_put D pos x HD Hpos Hx) (up_to D pos x HD Hpos Hx)) as [H [H1 [H2 H3]]]. destruct (put_div D pos x HD Hx) as [_ P2]. rewrite <- sh_S in P2 by lia. exists H. split; [lia|]. split; [|lia]. rewrite <- H2. symmetry. eapply same_high; eauto.
Qed.
Lemma ft_least : forall a d h m, a < N -> meet k a d h -> hops w (Inj a) m (Ej d) -> 2 * h + 1 <= m.
Proof.
  intros a d h m Ha [M1 M2] Hh. destruct (node_port k n Hk Hn a Ha) as [E1 [E2 E3]]. destruct (hops_far _ _ _ Hh d (n - 1) (a / k) (a mod k) eq_refl ltac:(lia) E3 (inj_to a Ha)) as [H [H1 [H2 H3]]].
  destruct (Nat.lt_ge_cases H h) as [L|]; [|lia]. exfalso. apply (M2 H L). rewrite <- H2. assert (0 < k ^ H) by (apply pow_pos; auto). rewrite Nat.div_div by lia. f_equal. replace (H + 1) with (S H) by lia. reflexivity.
Qed.
End Fat.
