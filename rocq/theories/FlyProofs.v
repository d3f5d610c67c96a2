(** The k-ary n-fly network: wiring and ways. *)
From Coq Require Import ZArith Arith Bool List Lia Permutation.
From Verif Require Import Fupd AllocModel AllocSpec BufferModel RouteModel ChannelModel IqRouterModel IqRouterSpec IqRouterInv NetModel NetSpec NetMeshModel NetMeshSpec NetMeshProofs NetProgressSpec FlyModel FlySpec.
Import ListNotations.
Open Scope nat_scope.

(** ** Digits *)
Lemma dm : forall q x r, r < q -> (x * q + r) / q = x /\ (x * q + r) mod q = r.
Proof. intros q x r H. rewrite Nat.add_comm. rewrite Nat.div_add, Nat.mod_add, Nat.div_small, Nat.mod_small by lia. lia. Qed.
Lemma dm_inj : forall q x r y t, r < q -> t < q -> x * q + r = y * q + t -> x = y /\ r = t.
Proof. intros q x r y t H1 H2 E. destruct (dm q x r H1) as [A1 A2], (dm q y t H2) as [B1 B2]. rewrite E in A1, A2. split; congruence. Qed.
Lemma dme : forall q x, 0 < q -> x = (x / q) * q + x mod q /\ x mod q < q.
Proof. intros q x H. split; [|apply Nat.mod_upper_bound; lia]. rewrite Nat.mul_comm. apply Nat.div_mod. lia. Qed.
Lemma box : forall x r q m, x < m -> r < q -> x * q + r < m * q.
Proof. intros x r q m H1 H2. nia. Qed.
Lemma pow_pos : forall k m, 0 < k -> 0 < k ^ m.
Proof. intros k m H. pose proof (Nat.pow_nonzero k m). lia. Qed.
Lemma iter_div : forall k m d, 0 < k -> Nat.iter m (fun x => x / k) d = d / k ^ m.
Proof.
  intros k m d Hk. induction m as [|m IH]; cbn [Nat.iter nat_rect]; [cbn [Nat.pow]; rewrite Nat.div_1_r; reflexivity|]. change (Nat.iter m (fun x => x / k) d / k = d / k ^ S m). rewrite IH.
  rewrite Nat.div_div by (try apply Nat.pow_nonzero; lia). f_equal. cbn [Nat.pow]. lia.
Qed.

(** A digit of a number is put in place of another: [sh] is the weight of the digit. *)
Definition put (k sh a p : nat) : nat := a - (a / sh) mod k * sh + p * sh.
Lemma split3 : forall k sh a, 0 < k -> 0 < sh -> exists h l, l < sh /\ a = (h * k + (a / sh) mod k) * sh + l.
Proof.
  intros k sh a Hk Hs. exists (a / sh / k), (a mod sh). destruct (dme sh a Hs) as [E1 E2]. split; auto. destruct (dme k (a / sh) Hk) as [E3 _]. rewrite <- E3. exact E1.
Qed.
Lemma put_at : forall k sh h z l p, 0 < k -> z < k -> l < sh -> put k sh ((h * k + z) * sh + l) p = (h * k + p) * sh + l.
Proof. intros k sh h z l p Hk Hz Hl. unfold put. rewrite (proj1 (dm sh (h * k + z) l Hl)), (proj2 (dm k h z Hz)). rewrite !Nat.mul_add_distr_r. lia. Qed.
Lemma digit_at : forall k sh h z l, z < k -> l < sh -> ((h * k + z) * sh + l) / sh mod k = z.
Proof. intros k sh h z l Hz Hl. rewrite (proj1 (dm sh (h * k + z) l Hl)). apply (dm k h z Hz). Qed.
Lemma put_put : forall k sh a p, 0 < k -> 0 < sh -> p < k -> put k sh (put k sh a p) ((a / sh) mod k) = a /\ (put k sh a p / sh) mod k = p.
Proof.
  intros k sh a p Hk Hs Hp. destruct (split3 k sh a Hk Hs) as [h [l [Hl E]]]. assert (Hz : (a / sh) mod k < k) by (apply Nat.mod_upper_bound; lia). set (z := (a / sh) mod k) in *.
  assert (Ep : put k sh a p = (h * k + p) * sh + l) by (rewrite E; apply put_at; auto). rewrite Ep, put_at by auto. rewrite digit_at by auto. auto.
Qed.
Lemma put_lt : forall k sh m a p, 0 < k -> 0 < sh -> p < k -> a < m * (k * sh) -> put k sh a p < m * (k * sh).
Proof.
  intros k sh m a p Hk Hs Hp Ha. destruct (split3 k sh a Hk Hs) as [h [l [Hl E]]]. assert (Hz : (a / sh) mod k < k) by (apply Nat.mod_upper_bound; lia). set (z := (a / sh) mod k) in *.
  assert (Ep : put k sh a p = (h * k + p) * sh + l) by (rewrite E; apply put_at; auto). rewrite Ep. assert (h < m).
  { destruct (Nat.lt_ge_cases h m) as [|G]; auto. exfalso. pose proof (Nat.mul_le_mono_r m h (k * sh) G). rewrite Nat.mul_add_distr_r in E. lia. }
  pose proof (box p l sh k Hp Hl) as B1. pose proof (Nat.mul_le_mono_r (S h) m (k * sh) ltac:(lia)). rewrite Nat.mul_add_distr_r. cbn [Nat.mul] in *. lia.
Qed.

Section Fly.
Variables (k n : nat) (b : bcfg) (rd : bool) (cd ob : Z) (T : traffic).
Hypothesis Hk : 0 < k.
Hypothesis Hn : 0 < n.
Let per := k ^ (n - 1).
Let N := k ^ n.
Let size := n * per.
Let w := fly k n b rd cd ob.

Lemma per_pos : 0 < per.
Proof. apply pow_pos. exact Hk. Qed.
Lemma N_per : N = per * k.
Proof. unfold N, per. replace n with (S (n - 1)) at 1 by lia. cbn [Nat.pow]. lia. Qed.
Lemma shift_per : forall s, 1 <= s -> s < n -> per = k ^ (s - 1) * (k * k ^ (n - s - 1)).
Proof. intros s H1 H2. unfold per. change (k * k ^ (n - s - 1)) with (k ^ S (n - s - 1)). rewrite <- Nat.pow_add_r. f_equal. lia. Qed.
Lemma router_at : forall s a, a < per -> (s * per + a) / per = s /\ (s * per + a) mod per = a.
Proof. intros s a H. apply dm. exact H. Qed.
Lemma router_of : forall r, r < size -> exists s a, r = s * per + a /\ s < n /\ a < per.
Proof. intros r Hr. destruct (dme per r per_pos) as [E H]. exists (r / per), (r mod per). split; auto. split; auto. apply Nat.div_lt_upper_bound; [pose proof per_pos; lia|]. unfold size in Hr. lia. Qed.
Lemma fin_at : forall s a i, a < per -> fly_in k n (s * per + a) i = if Nat.eqb s 0 then Inj (a * k + i) else Ch (fly_in_channel k n s a i).
Proof. intros s a i H. unfold fly_in. fold per. rewrite (proj1 (router_at s a H)), (proj2 (router_at s a H)). reflexivity. Qed.
Lemma fout_at : forall s a o, a < per -> fly_out k n (s * per + a) o = if Nat.eqb s (n - 1) then Ej (a * k + o) else Ch (fly_out_channel k n s a o).
Proof. intros s a i H. unfold fly_out. fold per. rewrite (proj1 (router_at s a H)), (proj2 (router_at s a H)). reflexivity. Qed.
Lemma in_chan : forall s a i, fly_in_channel k n s a i = (s - 1) * N + (put k (k ^ (n - s - 1)) a i * k + (a / k ^ (n - s - 1)) mod k).
Proof. intros s a i. unfold fly_in_channel, put. fold N. lia. Qed.
Lemma port_box : forall a o, a < per -> o < k -> a * k + o < N.
Proof. intros a o H1 H2. rewrite N_per. apply box; auto. Qed.
Lemma put_per : forall s a i, 1 <= s -> s < n -> a < per -> i < k -> put k (k ^ (n - s - 1)) a i < per.
Proof. intros s a i H1 H2 H3 H4. rewrite (shift_per s H1 H2) in *. apply put_lt; auto. apply pow_pos. auto. Qed.
Lemma dig_lt : forall x, x mod k < k.
Proof. intros x. apply Nat.mod_upper_bound. lia. Qed.

Lemma fin_inj : forall r i r' i', r < size -> i < k -> r' < size -> i' < k -> fly_in k n r i = fly_in k n r' i' -> r = r' /\ i = i'.
Proof.
  intros r i r' i' Hr Hi Hr' Hi' E. destruct (router_of r Hr) as [s [a [-> [Hs Ha]]]], (router_of r' Hr') as [s' [a' [-> [Hs' Ha']]]]. rewrite !fin_at in E by auto.
  destruct (Nat.eqb_spec s 0) as [->|Ns], (Nat.eqb_spec s' 0) as [->|Ns']; try discriminate.
  - injection E as E. apply dm_inj in E; [|assumption|assumption]. destruct E as [-> ->]. auto.
  - injection E as E. rewrite !in_chan in E. apply dm_inj in E; [|apply port_box; [apply put_per; auto; lia|apply dig_lt]|apply port_box; [apply put_per; auto; lia|apply dig_lt]].
    destruct E as [E1 E2]. assert (s = s') by lia. subst s'. apply dm_inj in E2; [|apply dig_lt|apply dig_lt]. destruct E2 as [E2 E3]. set (sh := k ^ (n - s - 1)) in *. assert (Hsh : 0 < sh) by (apply pow_pos; auto).
    destruct (put_put k sh a i Hk Hsh Hi) as [P1 P2], (put_put k sh a' i' Hk Hsh Hi') as [Q1 Q2]. rewrite E2 in P1, P2. rewrite E3 in P1. split; [f_equal|]; congruence.
Qed.
Lemma fout_inj : forall r i r' i', r < size -> i < k -> r' < size -> i' < k -> fly_out k n r i = fly_out k n r' i' -> r = r' /\ i = i'.
Proof.
  intros r i r' i' Hr Hi Hr' Hi' E. destruct (router_of r Hr) as [s [a [-> [Hs Ha]]]], (router_of r' Hr') as [s' [a' [-> [Hs' Ha']]]]. rewrite !fout_at in E by auto.
  destruct (Nat.eqb_spec s (n - 1)) as [Es|Ns], (Nat.eqb_spec s' (n - 1)) as [Es'|Ns']; try discriminate.
  - injection E as E. apply dm_inj in E; [|assumption|assumption]. destruct E as [-> ->]. subst. auto.
  - injection E as E. unfold fly_out_channel in E. fold N in E. rewrite <- !Nat.add_assoc in E. apply dm_inj in E; [|apply port_box; auto|apply port_box; auto]. destruct E as [-> E]. apply dm_inj in E; [|assumption|assumption]. destruct E as [-> ->]. auto.
Qed.
Lemma fly_snk : forall c r i, w_snk w c = Some (r, i) <-> (r < size /\ i < k /\ fly_in k n r i = c).
Proof. intros. apply last_port_iff. apply fin_inj. Qed.
Lemma fly_src : forall c r o, w_src w c = Some (r, o) <-> (r < size /\ o < k /\ fly_out k n r o = c).
Proof. intros. apply last_port_iff. apply fout_inj. Qed.
Lemma router_lt : forall s a, s < n -> a < per -> s * per + a < size.
Proof. intros s a H1 H2. apply box; auto. Qed.
Lemma node_port : forall m, m < N -> m = (m / k) * k + m mod k /\ m mod k < k /\ m / k < per.
Proof. intros m Hm. destruct (dme k m Hk) as [E H]. split; auto. split; auto. rewrite N_per in Hm. apply Nat.div_lt_upper_bound; lia. Qed.
Lemma snk_inj : forall m, m < N -> w_snk w (Inj m) = Some (m / k, m mod k).
Proof.
  intros m Hm. destruct (node_port m Hm) as [E1 [E2 E3]]. apply fly_snk. split; [|split; auto].
  - rewrite <- (Nat.add_0_l (m / k)). apply (router_lt 0); auto.
  - change (m / k) with (0 * per + m / k). rewrite fin_at by auto. cbn [Nat.eqb]. congruence.
Qed.
Lemma src_ej : forall m, m < N -> w_src w (Ej m) = Some ((n - 1) * per + m / k, m mod k).
Proof.
  intros m Hm. destruct (node_port m Hm) as [E1 [E2 E3]]. apply fly_src. split; [|split; auto].
  - apply router_lt; auto. lia.
  - rewrite fout_at by auto. rewrite Nat.eqb_refl. congruence.
Qed.
Lemma snk_chan : forall s a o, S s < n -> a < per -> o < k -> w_snk w (Ch (s * N + (a * k + o))) = Some (S s * per + put k (k ^ (n - S s - 1)) a o, (a / k ^ (n - S s - 1)) mod k).
Proof.
  intros s a o Hs Ha Ho. set (sh := k ^ (n - S s - 1)). assert (Hsh : 0 < sh) by (apply pow_pos; auto). assert (Hp : put k sh a o < per) by (apply put_per; auto; lia). apply fly_snk. split; [apply router_lt; auto|]. split; [apply dig_lt|].
  rewrite fin_at by auto. cbn [Nat.eqb]. f_equal. rewrite in_chan. fold sh. destruct (put_put k sh a o Hk Hsh Ho) as [P1 P2]. rewrite P1, P2. f_equal. f_equal. lia.
Qed.
Lemma src_chan : forall s a o, S s < n -> a < per -> o < k -> w_src w (Ch (s * N + (a * k + o))) = Some (s * per + a, o).
Proof.
  intros s a o Hs Ha Ho. apply fly_src. split; [apply router_lt; auto; lia|]. split; auto. rewrite fout_at by auto. destruct (Nat.eqb_spec s (n - 1)); [lia|]. unfold fly_out_channel. fold N. f_equal. lia.
Qed.
Lemma chan_of : forall c, c < (n - 1) * N -> exists s a o, c = s * N + (a * k + o) /\ S s < n /\ a < per /\ o < k.
Proof.
  intros c Hc. assert (HN : 0 < N) by (apply pow_pos; auto). destruct (dme N c HN) as [E H]. destruct (node_port _ H) as [E1 [E2 E3]]. exists (c / N), (c mod N / k), (c mod N mod k). rewrite <- E1. split; auto. split; auto.
  assert (c / N < n - 1) by (apply Nat.div_lt_upper_bound; lia). lia.
Qed.
Lemma fly_wired : wired w.
Proof.
  constructor.
  - intros r _. split; reflexivity.
  - intros c r i. apply fly_snk.
  - intros c r o. apply fly_src.
  - intros m. split.
    + destruct (w_src w (Inj m)) as [[r o]|] eqn:E; auto. exfalso. apply fly_src in E. destruct E as [E1 [E2 E]]. destruct (router_of r E1) as [s [a [-> [Hs Ha]]]]. rewrite fout_at in E by auto. destruct (Nat.eqb s (n - 1)); discriminate.
    + apply (some_ne True); auto; change (w_nodes w) with N.
      * intros r i E. apply fly_snk in E. destruct E as [E1 [E2 E]]. destruct (router_of r E1) as [s [a [-> [Hs Ha]]]]. rewrite fin_at in E by auto. destruct (Nat.eqb s 0); [|discriminate]. injection E as <-. apply port_box; auto.
      * intros Hm. rewrite (snk_inj m Hm). eauto.
  - intros m. split.
    + destruct (w_snk w (Ej m)) as [[r o]|] eqn:E; auto. exfalso. apply fly_snk in E. destruct E as [E1 [E2 E]]. destruct (router_of r E1) as [s [a [-> [Hs Ha]]]]. rewrite fin_at in E by auto. destruct (Nat.eqb s 0); discriminate.
    + apply (some_ne True); auto; change (w_nodes w) with N.
      * intros r i E. apply fly_src in E. destruct E as [E1 [E2 E]]. destruct (router_of r E1) as [s [a [-> [Hs Ha]]]]. rewrite fout_at in E by auto. destruct (Nat.eqb s (n - 1)); [|discriminate]. injection E as <-. apply port_box; auto.
      * intros Hm. rewrite (src_ej m Hm). eauto.
  - intros c. split; apply (some_ne True); auto; change (w_chans w) with ((n - 1) * N).
    + intros r i E. apply fly_snk in E. destruct E as [E1 [E2 E]]. destruct (router_of r E1) as [s [a [-> [Hs Ha]]]]. rewrite fin_at in E by auto. destruct (Nat.eqb_spec s 0); [discriminate|]. injection E as <-. rewrite in_chan.
      apply box; [lia|]. apply port_box; [apply put_per; auto; lia|apply dig_lt].
    + intros Hc. destruct (chan_of c Hc) as [s [a [o [-> [H1 [H2 H3]]]]]]. rewrite snk_chan by auto. eauto.
    + intros r i E. apply fly_src in E. destruct E as [E1 [E2 E]]. destruct (router_of r E1) as [s [a [-> [Hs Ha]]]]. rewrite fout_at in E by auto. destruct (Nat.eqb_spec s (n - 1)); [discriminate|]. injection E as <-. unfold fly_out_channel. fold N.
      rewrite <- Nat.add_assoc. apply box; [lia|]. apply port_box; auto.
    + intros Hc. destruct (chan_of c Hc) as [s [a [o [-> [H1 [H2 H3]]]]]]. rewrite src_chan by auto. eauto.
Qed.

(** ** The way from [a] to [d] *)
Section Way.
Variables (a d : nat).
Hypothesis Ha : a < N.
Hypothesis Hd : d < N.
Lemma at_lt : forall s, s < n -> fly_at k n a d s < per.
Proof.
  intros s Hs. unfold fly_at. set (m := k ^ (n - 1 - s)). assert (Hm : 0 < m) by (apply pow_pos; auto). assert (E : per = k ^ s * m) by (unfold per, m; rewrite <- Nat.pow_add_r; f_equal; lia). rewrite E.
  apply box; [|apply Nat.mod_upper_bound; lia]. apply Nat.div_lt_upper_bound; [apply Nat.pow_nonzero; lia|]. rewrite <- Nat.pow_add_r. replace (n - s + s) with n by lia. exact Hd.
Qed.
Lemma at_0 : fly_at k n a d 0 = a / k.
Proof.
  unfold fly_at. rewrite !Nat.sub_0_r. rewrite Nat.div_small by exact Hd. cbn [Nat.mul Nat.add]. apply Nat.mod_small. apply (node_port a Ha).
Qed.
Lemma at_last : fly_at k n a d (n - 1) = d / k.
Proof. unfold fly_at. replace (n - (n - 1)) with 1 by lia. rewrite Nat.sub_diag. cbn [Nat.pow]. rewrite !Nat.mul_1_r, Nat.mod_1_r. lia. Qed.
Lemma digit_last : fly_digit k n d (n - 1) = d mod k.
Proof. unfold fly_digit. rewrite Nat.sub_diag. cbn [Nat.pow]. rewrite Nat.div_1_r. reflexivity. Qed.
Lemma digit_lt : forall s, fly_digit k n d s < k.
Proof. intros s. apply dig_lt. Qed.
(** From a stage to the next one, a digit of the destination is put in. *)
Lemma at_S : forall s, S s < n -> fly_at k n a d (S s) = put k (k ^ (n - S s - 1)) (fly_at k n a d s) (fly_digit k n d s).
Proof.
  intros s Hs. set (sh := k ^ (n - S s - 1)). assert (Hsh : 0 < sh) by (apply pow_pos; auto). set (x := a / k).
  assert (E1 : k ^ (n - 1 - s) = sh * k) by (unfold sh; replace (n - 1 - s) with (S (n - S s - 1)) by lia; cbn [Nat.pow]; lia).
  assert (E2 : k ^ (n - s) = (sh * k) * k) by (replace (n - s) with (S (n - 1 - s)) by lia; cbn [Nat.pow]; rewrite E1; lia).
  assert (A1 : fly_at k n a d s = ((d / (sh * k * k)) * k + (x / sh) mod k) * sh + x mod sh).
  { unfold fly_at. rewrite E1, E2. fold x. rewrite (Nat.mod_mul_r x sh k) by lia. nia. }
  assert (A2 : fly_at k n a d (S s) = (d / (sh * k)) * sh + x mod sh) by (unfold fly_at; replace (n - S s) with (n - 1 - s) by lia; rewrite E1; replace (n - 1 - S s) with (n - S s - 1) by lia; fold sh x; reflexivity).
  assert (A3 : fly_digit k n d s = (d / (sh * k)) mod k) by (unfold fly_digit; rewrite E1; reflexivity).
  rewrite A1, put_at by (auto; try apply dig_lt; apply Nat.mod_upper_bound; lia). rewrite A2, A3. f_equal. f_equal. rewrite <- (Nat.div_div d (sh * k) k) by lia. apply (dme k (d / (sh * k)) Hk).
Qed.
Lemma hop_src : forall s, s < n -> w_src w (fly_hop k n a d s) = Some (s * per + fly_at k n a d s, fly_digit k n d s).
Proof.
  intros s Hs. unfold fly_hop. destruct (Nat.eqb_spec s (n - 1)) as [->|Ne].
  - rewrite at_last, digit_last. apply src_ej. exact Hd.
  - rewrite <- Nat.add_assoc. fold N. apply src_chan; [lia|apply at_lt; auto|apply digit_lt].
Qed.
Lemma hop_snk : forall s, S s < n -> exists i, w_snk w (fly_hop k n a d s) = Some (S s * per + fly_at k n a d (S s), i).
Proof.
  intros s Hs. unfold fly_hop. destruct (Nat.eqb_spec s (n - 1)) as [Es|Ne]; [lia|]. rewrite <- Nat.add_assoc. fold N. rewrite snk_chan by (try apply at_lt; try apply digit_lt; lia). rewrite <- at_S by auto. eauto.
Qed.
Lemma hop_last : w_snk w (fly_hop k n a d (n - 1)) = None.
Proof. unfold fly_hop. rewrite Nat.eqb_refl. apply (wi_ej w fly_wired d). Qed.
Lemma inj_snk : exists i, w_snk w (Inj a) = Some (0 * per + fly_at k n a d 0, i).
Proof. rewrite at_0, (snk_inj a Ha). cbn [Nat.mul Nat.add]. eauto. Qed.
Lemma stage_one : forall s s', s < n -> s' < n -> s * per + fly_at k n a d s = s' * per + fly_at k n a d s' -> s = s'.
Proof. intros s s' H H' E. apply dm_inj in E; [tauto|apply at_lt; auto|apply at_lt; auto]. Qed.
Lemma way_in : forall c r i, In c (fly_way k n a d) -> w_snk w c = Some (r, i) -> exists s, s < n /\ r = s * per + fly_at k n a d s /\ c = nth s (fly_way k n a d) (Ej d).
Proof.
  intros c r i Hc Es. destruct Hc as [<-|Hc].
  - destruct inj_snk as [j Ej]. rewrite Ej in Es. injection Es as <- _. exists 0. auto.
  - apply in_map_iff in Hc. destruct Hc as [s [<- Hs]]. apply in_seq in Hs. destruct (Nat.eq_dec s (n - 1)) as [->|Ne]; [rewrite hop_last in Es; discriminate|]. destruct (hop_snk s) as [j Ej]; [lia|]. rewrite Ej in Es. injection Es as <- _.
    exists (S s). split; [lia|]. split; auto. cbn [fly_way nth]. rewrite nth_indep with (d' := fly_hop k n a d 0) by (rewrite map_length, seq_length; lia). rewrite map_nth, seq_nth by lia. reflexivity.
Qed.
Lemma way_out : forall c r o, In c (fly_way k n a d) -> w_src w c = Some (r, o) -> exists s, s < n /\ r = s * per + fly_at k n a d s /\ c = fly_hop k n a d s.
Proof.
  intros c r o Hc Es. destruct Hc as [<-|Hc]; [rewrite (proj1 (wi_inj w fly_wired a)) in Es; discriminate|]. apply in_map_iff in Hc. destruct Hc as [s [<- Hs]]. apply in_seq in Hs. rewrite hop_src in Es by lia. injection Es as <- _. exists s. split; [lia|auto].
Qed.
Lemma tag_at : forall s b e, s < n -> dest_tag_fly k n (s * per + fly_at k n a d s) d b e = [add_range (Z.of_nat (fly_digit k n d s)) b e].
Proof.
  intros s b0 e Hs. unfold dest_tag_fly. fold N. rewrite N_per, Nat.div_mul_cancel_r by (pose proof per_pos; lia). rewrite (proj1 (router_at s _ (at_lt s Hs))). unfold fly_shift. rewrite iter_div by auto. reflexivity.
Qed.
Lemma out_at : forall s, s < n -> fly_out k n (s * per + fly_at k n a d s) (fly_digit k n d s) = fly_hop k n a d s.
Proof. intros s Hs. pose proof (hop_src s Hs) as E. apply fly_src in E. tauto. Qed.
Lemma way_flies : forall m, m < n -> flies k n d w (fly_hop k n a d (n - 1 - m)) m.
Proof.
  intros m. induction m as [|m IH]; intros Hm; [rewrite Nat.sub_0_r; unfold fly_hop; rewrite Nat.eqb_refl; constructor|]. set (s := n - 1 - S m). destruct (hop_snk s) as [i Ei]; [unfold s; lia|].
  apply (fl_hop k n d w _ _ i (fly_digit k n d (S s)) m Ei); [intros; apply tag_at; unfold s; lia|apply digit_lt|]. change (w_out w) with (fly_out k n). rewrite out_at by (unfold s; lia). replace (S s) with (n - 1 - m) by (unfold s; lia). apply IH. lia.
Qed.
Lemma inj_flies : flies k n d w (Inj a) n.
Proof.
  destruct inj_snk as [i Ei]. assert (X : flies k n d w (Inj a) (S (n - 1))); [|replace (S (n - 1)) with n in X by lia; exact X].
  apply (fl_hop k n d w _ _ i (fly_digit k n d 0) (n - 1) Ei); [intros; apply tag_at; lia|apply digit_lt|].
  change (w_out w) with (fly_out k n). rewrite out_at by lia. pose proof (way_flies (n - 1)) as X. rewrite Nat.sub_diag in X. apply X. lia.
Qed.
End Way.

(** ** Packets *)
Let ok := fly_ok k n T (bc_vcs b).
Lemma fly_passes : forall r i f, r < w_n w -> i < c_in (w_cfg w r) -> f_head f = true -> ok (w_in w r i) f -> fly_by k n T r i f.
Proof.
  intros r i f Hr Hi _ [O1 [O2 [O3 [O4 O5]]]]. assert (Es : w_snk w (w_in w r i) = Some (r, i)) by (apply (wi_in w fly_wired); auto).
  destruct (way_in _ _ O1 O2 _ _ _ O5 Es) as [s [Hs [-> _]]]. exists s. auto.
Qed.
Lemma fly_lawful : forall r i f es, r < w_n w -> i < c_in (w_cfg w r) -> ok (w_in w r i) f -> fly_may k n T r i f es -> lawful w ok r f es /\ es <> [].
Proof.
  intros r i f es Hr Hi [O1 [O2 [O3 [O4 O5]]]] ->. assert (Es : w_snk w (w_in w r i) = Some (r, i)) by (apply (wi_in w fly_wired); auto). set (a := y_src T (f_id f)) in *. set (d := y_dest T (f_id f)) in *.
  destruct (way_in a d O1 O2 _ _ _ O5 Es) as [s [Hs [-> _]]]. unfold fly_route. fold d. rewrite (tag_at a d O1 O2 s _ _ Hs). split; [|discriminate]. split.
  - split.
    + constructor; [|constructor]. cbn [add_range o_port o_lo o_hi]. change (c_outs (w_cfg w (s * per + fly_at k n a d s))) with k. change (c_vcs (w_cfg w (s * per + fly_at k n a d s))) with (bc_vcs b). pose proof (digit_lt d s). lia.
    + unfold channels_of. cbn [flat_map]. rewrite app_nil_r. unfold elem_pairs. apply FinFun.Injective_map_NoDup; [intros x y E; injection E; auto|]. apply seq_NoDup.
  - intros o v g Hin Sg Ev. unfold channels_of in Hin. cbn [flat_map] in Hin. rewrite app_nil_r in Hin. unfold elem_pairs in Hin. apply in_map_iff in Hin. destruct Hin as [v' [E Hin]].
    cbn [add_range o_port o_lo o_hi] in *. injection E as <- <-. apply in_seq in Hin. rewrite !Nat2Z.id. change (w_out w) with (fly_out k n). rewrite (out_at a d O1 O2 s Hs). unfold ok, fly_ok. destruct Sg as [-> _]. fold a d. split; auto. split; auto. split; auto.
    split; [lia|]. right. apply in_map. apply in_seq. lia.
Qed.
Lemma fly_start : forall f, y_src T (f_id f) < w_nodes w -> y_dest T (f_id f) < w_nodes w -> y_b T (f_id f) <= f_vc f <= y_e T (f_id f) -> y_e T (f_id f) < bc_vcs (w_b w) -> ok (Inj (y_src T (f_id f))) f.
Proof. intros f H1 H2 H3 H4. change (bc_vcs (w_b w)) with (bc_vcs b) in H4. unfold ok, fly_ok. split; auto. split; auto. split; [lia|]. split; [lia|]. left. reflexivity. Qed.
Lemma fly_end : forall d f, ok (Ej d) f -> y_dest T (f_id f) = d.
Proof.
  intros d f [O1 [O2 [O3 [O4 [O5|O5]]]]]; [discriminate|]. apply in_map_iff in O5. destruct O5 as [s [E _]]. unfold fly_hop in E. destruct (Nat.eqb s (n - 1)); [injection E; auto|discriminate].
Qed.
Definition fly_rank (c : cid) (v : nat) : nat := match c with Inj _ => n | Ch c => n - 1 - c / k ^ n | Ej _ => 0 end.
Lemma rank_hop : forall a d s v, a < N -> d < N -> s < n -> fly_rank (fly_hop k n a d s) v = n - 1 - s.
Proof.
  intros a d s v Ha Hd Hs. unfold fly_hop. destruct (Nat.eqb_spec s (n - 1)) as [->|Ne]; cbn [fly_rank]; [lia|]. fold N. rewrite <- Nat.add_assoc. rewrite (proj1 (dm N s _ (port_box _ _ (at_lt a d Ha Hd s Hs) (digit_lt d s)))). reflexivity.
Qed.
Lemma fly_descends : descends w ok fly_rank.
Proof.
  intros c c' r i o f g Ei Eo Hh [Sid _] [A1 [A2 [A3 [A4 A5]]]] [B1 [B2 [B3 [B4 B5]]]]. rewrite Sid in *. set (a := y_src T (f_id f)) in *. set (d := y_dest T (f_id f)) in *.
  destruct (way_out a d A1 A2 _ _ _ B5 Eo) as [s' [Hs' [-> ->]]]. rewrite rank_hop by auto. destruct (way_in a d A1 A2 _ _ _ A5 Ei) as [s [Hs [Er ->]]]. apply (stage_one a d A1 A2) in Er; auto. subst s'.
  destruct s as [|s]; cbn [fly_way nth]; [cbn [fly_rank]; lia|]. rewrite nth_indep with (d' := fly_hop k n a d 0) by (rewrite map_length, seq_length; lia). rewrite map_nth, seq_nth by lia. rewrite rank_hop by (auto; lia). lia.
Qed.
Lemma nth_cut : forall (A : Type) (l l1 : list A) x l2 e, l = l1 ++ x :: l2 -> nth (length l1) l e = x.
Proof. intros A l l1 x l2 e ->. rewrite app_nth2, Nat.sub_diag by lia. reflexivity. Qed.
Lemma way_nth : forall a d s, s < n -> nth (S s) (fly_way k n a d) (Ej d) = fly_hop k n a d s.
Proof. intros a d s Hs. cbn [fly_way nth]. rewrite nth_indep with (d' := fly_hop k n a d 0) by (rewrite map_length, seq_length; lia). rewrite map_nth, seq_nth by lia. reflexivity. Qed.
Lemma fly_one_way : forall flow q m d v, (forall id, flow id = q -> y_src T id = m /\ y_dest T id = d /\ y_b T id = v /\ y_e T id = v) -> m < N -> d < N -> one_way w ok flow q m d (map (fun c => (c, v)) (fly_way k n m d)).
Proof.
  intros flow q m d v FL Hm Hd. constructor.
  - exists v, (map (fun c => (c, v)) (map (fly_hop k n m d) (seq 0 n))). reflexivity.
  - exists v, (map (fun c => (c, v)) (Inj m :: map (fly_hop k n m d) (seq 0 (n - 1)))). unfold fly_way. assert (E : seq 0 n = seq 0 (n - 1) ++ [n - 1]) by (replace n with (n - 1 + 1) at 1 by lia; apply seq_app).
    rewrite E, map_app. cbn [map app]. rewrite map_app. cbn [map]. replace (fly_hop k n m d (n - 1)) with (Ej d) by (unfold fly_hop; rewrite Nat.eqb_refl; reflexivity). reflexivity.
  - intros p1 x y p2 E. assert (L : length p1 + 2 + length p2 = S n) by (apply (f_equal (@length _)) in E; rewrite map_length, app_length in E; cbn [fly_way length] in E; rewrite map_length, seq_length in E; lia).
    pose proof (nth_cut _ _ _ _ _ (Ej d, v) E) as X. assert (E' : map (fun c => (c, v)) (fly_way k n m d) = (p1 ++ [x]) ++ y :: p2) by (rewrite <- app_assoc; exact E). pose proof (nth_cut _ _ _ _ _ (Ej d, v) E') as Y.
    rewrite app_length in Y. cbn [length] in Y. rewrite (map_nth (fun c => (c, v)) (fly_way k n m d) (Ej d)) in X, Y. subst x y. cbn [fst]. rewrite Nat.add_1_r, way_nth by lia. set (s := length p1) in *. rewrite (hop_src m d Hm Hd s) by lia. destruct s as [|s].
    + destruct (inj_snk m d Hm Hd) as [i Ei]. cbn [fly_way nth]. rewrite Ei. eauto.
    + rewrite way_nth by lia. destruct (hop_snk m d Hm Hd s) as [i Ei]; [lia|]. rewrite Ei. eauto.
  - intros x y r i j Hx Hy Ex Ey. apply in_map_iff in Hx, Hy. destruct Hx as [c [<- Hc]], Hy as [c' [<- Hc']]. cbn [fst] in *. f_equal. destruct (way_in m d Hm Hd _ _ _ Hc Ex) as [s [Hs [Er ->]]], (way_in m d Hm Hd _ _ _ Hc' Ey) as [s' [Hs' [Er' ->]]].
    rewrite Er in Er'. apply (stage_one m d Hm Hd) in Er'; [congruence|exact Hs|exact Hs'].
  - intros x y r i j Hx Hy Ex Ey. apply in_map_iff in Hx, Hy. destruct Hx as [c [<- Hc]], Hy as [c' [<- Hc']]. cbn [fst] in *. f_equal. destruct (way_out m d Hm Hd _ _ _ Hc Ex) as [s [Hs [Er ->]]], (way_out m d Hm Hd _ _ _ Hc' Ey) as [s' [Hs' [Er' ->]]].
    rewrite Er in Er'. apply (stage_one m d Hm Hd) in Er'; [congruence|exact Hs|exact Hs'].
  - intros c g Hh Hf [O1 [O2 [O3 [O4 O5]]]]. destruct (FL _ Hf) as [F1 [F2 [F3 F4]]]. replace (f_vc g) with v by lia. apply (in_map (fun c => (c, v))). rewrite F1, F2 in O5. exact O5.
Qed.
End Fly.
