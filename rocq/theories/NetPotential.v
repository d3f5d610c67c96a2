(** How far the flits and credits in the network are from having left it, as a number, and how a cycle changes it. *)
From Coq Require Import ZArith Arith Bool List Lia Permutation.
From Verif Require Import Fupd ArbiterModel AllocModel AllocSpec BufferModel BufferSpec BufferProofs RouteModel ChannelModel IqRouterModel IqRouterSpec IqRouterProofs IqRouterInv IqRouterRun Prop_IqRouter IqPotential NetModel NetSpec NetProgressSpec IqProgress NetProofs NetSum.
Import ListNotations.
Open Scope nat_scope.

(** ** One channel *)
Section Chan.
Variables (A : Type) (kw : A -> Z) (t0 d : Z).
Hypothesis Hk : forall a, (0 <= kw a)%Z.
Hypothesis Ht : (0 <= t0)%Z.
Definition osum (f : A -> Z) (x : option A) : Z := match x with Some a => f a | None => 0%Z end.
Definition w_enter (a : A) : Z := (kw a + t0 + 3 + Z.max 0 d)%Z.
Definition w_wait (now : Z) (e : Z * A) : Z := (kw (snd e) + t0 + 2 + Z.max 0 (fst e - now))%Z.
Definition w_chan (now : Z) (s : chan A) : Z := (osum w_enter (ch_in s) + lsum (w_wait now) (ch_q s) + osum (fun a => kw a + 1) (ch_out s))%Z.
(** There is something in it. *)
Definition stirs (s : chan A) : bool := match ch_in s, ch_q s, ch_out s with None, [], None => false | _, _, _ => true end.
Definition one (b : bool) : Z := if b then 1%Z else 0%Z.
Lemma one_pos : forall b, (0 <= one b)%Z.
Proof. intros []; cbn; lia. Qed.
Lemma wait_time : forall old now q, (old <= now)%Z -> (lsum (w_wait now) q <= lsum (w_wait old) q)%Z.
Proof. intros old now q H. apply lsum_le. intros a. unfold w_wait. lia. Qed.
Lemma w_core : forall old now s, (old < now)%Z ->
  let s1 := ch_write now (ch_read d now s) in (w_chan now s1 + osum (fun _ => t0) (ch_out s1) + one (stirs s) + osum kw (ch_out s) <= w_chan old s)%Z.
Proof.
  intros old now [i q o] H. cbn zeta. unfold ch_read, w_chan, stirs. cbn [ch_in ch_q ch_out].
  assert (T := fun q => wait_time old now q ltac:(lia)).
  assert (O : (0 <= osum (fun a => kw a + 1)%Z o - osum kw o)%Z /\ (o <> None -> osum (fun a => kw a + 1)%Z o = osum kw o + 1)%Z) by (destruct o; cbn; split; try lia; congruence).
  assert (E1 : forall a, (w_wait now (now + d - 1, a) + 1 <= w_enter a)%Z) by (intros a; unfold w_wait, w_enter; cbn [fst snd]; lia).
  assert (E2 : forall u a, (kw a + 1 + t0 + 1 <= w_wait old (u, a))%Z) by (intros u a; unfold w_wait; cbn [fst snd]; lia).
  assert (E3 : forall u a, (now < u -> w_wait now (u, a) + 1 <= w_wait old (u, a))%Z) by (intros u a X; unfold w_wait; cbn [fst snd]; lia).
  assert (E4 : forall u a, (w_wait now (u, a) <= w_wait old (u, a))%Z) by (intros u a; unfold w_wait; cbn [fst snd]; lia).
  assert (E5 : forall a, (kw a + 1 + t0 + 1 <= w_enter a)%Z) by (intros a; unfold w_enter; lia).
  destruct O as [O1 O2].
  destruct i as [a|]; cbn [ch_in ch_q ch_out].
  - unfold ch_write. cbn [ch_in ch_q ch_out]. destruct q as [|[u b] q]; cbn [app].
    + destruct (Z.ltb_spec now (now + d - 1)); cbn [ch_in ch_q ch_out osum lsum fold_right one]; specialize (E1 a); specialize (E5 a); lia.
    + specialize (T q). specialize (E1 a). destruct (Z.ltb_spec now u) as [L|L]; cbn [ch_in ch_q ch_out osum one].
      * change ((u, b) :: q ++ [(now + d - 1, a)])%Z with (((u, b) :: q) ++ [(now + d - 1, a)])%Z. rewrite lsum_app. cbn [lsum fold_right]. fold (lsum (w_wait now) q) (lsum (w_wait old) q). specialize (E3 u b L). lia.
      * rewrite lsum_app. cbn [lsum fold_right]. fold (lsum (w_wait now) q) (lsum (w_wait old) q). specialize (E2 u b). lia.
  - unfold ch_write. cbn [ch_in ch_q ch_out]. destruct q as [|[u b] q].
    + cbn [ch_in ch_q ch_out osum lsum fold_right one]. destruct o; cbn [one]; [specialize (O2 ltac:(discriminate))|]; lia.
    + specialize (T q). destruct (Z.ltb_spec now u) as [L|L]; cbn [ch_in ch_q ch_out osum one lsum fold_right]; fold (lsum (w_wait now) q) (lsum (w_wait old) q); [specialize (E3 u b L)|specialize (E2 u b)]; lia.
Qed.
Lemma w_put : forall now x s, x = None \/ ch_in s = None -> w_chan now (put x s) = (w_chan now s + osum w_enter x)%Z.
Proof.
  intros now [a|] s H; cbn [put]; [|cbn; lia]. destruct H as [H|H]; [discriminate|]. unfold w_chan. cbn [ch_send ch_in ch_q ch_out]. rewrite H. cbn [osum]. lia.
Qed.
Lemma stirs_put : forall x s, (one (stirs s) <= one (stirs (put x s)))%Z.
Proof. intros [a|] s; cbn [put]; [|lia]. unfold stirs. cbn. destruct (ch_in s), (ch_q s), (ch_out s); cbn; lia. Qed.
Lemma w_flit_cycle : forall old now x y s, (old < now)%Z -> x = None \/ ch_in s = None ->
  let s' := put y (ch_write now (ch_read d now (put x s))) in
  (w_chan now s' + osum (fun _ => t0) (ch_out s') + one (stirs s) + osum kw (ch_out s) <= w_chan old s + osum w_enter x + osum w_enter y)%Z.
Proof.
  intros old now x y s H X s'. subst s'. rewrite w_put by (right; rewrite write_in; apply read_in). rewrite put_out. pose proof (w_core old now (put x s) H) as C. cbn zeta in C. rewrite w_put, put_out in C by auto. pose proof (stirs_put x s). lia.
Qed.
Lemma put_write : forall now x (s : chan A), ch_write now (put x s) = put x (ch_write now s).
Proof. intros now [a|] s; [|reflexivity]. unfold put, ch_write, ch_send. cbn [ch_q ch_in ch_out]. destruct (ch_q s) as [|[u b] r]; [reflexivity|]. destruct (now <? u)%Z; reflexivity. Qed.
Lemma w_cred_cycle : forall old now x y s, (old < now)%Z -> x = None \/ y = None ->
  let s' := put y (ch_write now (put x (ch_read d now s))) in
  (w_chan now s' + one (stirs s) + osum kw (ch_out s) <= w_chan old s + osum w_enter x + osum w_enter y)%Z.
Proof.
  intros old now x y s H X s'. subst s'. rewrite put_write. pose proof (w_core old now s H) as C. cbn zeta in C.
  assert (Y : (0 <= osum (fun _ => t0) (ch_out (ch_write now (ch_read d now s))))%Z) by (destruct (ch_out _); cbn; lia).
  rewrite w_put.
  - rewrite w_put by (right; rewrite write_in; apply read_in). lia.
  - destruct X as [-> | ->]; auto. cbn [put]. right. rewrite write_in. apply read_in.
Qed.
Lemma w_chan_nonneg : forall now s, (0 <= w_chan now s)%Z.
Proof.
  intros now s. unfold w_chan. assert (X : (0 <= lsum (w_wait now) (ch_q s))%Z) by (apply lsum_nonneg; intros a; unfold w_wait; specialize (Hk (snd a)); lia).
  assert (Y : (0 <= osum w_enter (ch_in s))%Z) by (destruct (ch_in s) as [a|]; cbn; [unfold w_enter; specialize (Hk a)|]; lia). assert (Z1 : (0 <= osum (fun a => kw a + 1)%Z (ch_out s))%Z) by (destruct (ch_out s) as [a|]; cbn; [specialize (Hk a)|]; lia). lia.
Qed.
End Chan.

(** ** Sums *)
Lemma total_lsum : forall f n, total f n = lsum f (seq 0 n).
Proof. intros f n. unfold total, lsum. induction (seq 0 n) as [|a l IH]; [reflexivity|]. cbn. rewrite IH. reflexivity. Qed.
Lemma lsum_map : forall A B (f : B -> Z) (h : A -> B) l, lsum f (map h l) = lsum (fun a => f (h a)) l.
Proof. intros A B f h l. induction l as [|a l IH]; [reflexivity|]. cbn [map lsum fold_right]. fold (lsum f (map h l)) (lsum (fun a => f (h a)) l). lia. Qed.
Lemma lsum_perm : forall A (f : A -> Z) l l', Permutation l l' -> lsum f l = lsum f l'.
Proof. intros A f l l' H. induction H; cbn [lsum fold_right]; [reflexivity| | |congruence]; fold (lsum f l); try fold (lsum f l'); lia. Qed.
Lemma lsum_flat_map : forall A B (f : B -> Z) (h : A -> list B) l, lsum f (flat_map h l) = lsum (fun a => lsum f (h a)) l.
Proof. intros A B f h l. induction l as [|a l IH]; [reflexivity|]. cbn [flat_map]. rewrite lsum_app, IH. reflexivity. Qed.
Lemma lsum_ext : forall A (f g : A -> Z) l, (forall a, In a l -> f a = g a) -> lsum f l = lsum g l.
Proof. intros A f g l H. induction l as [|a l IH]; [reflexivity|]. cbn [lsum fold_right]. fold (lsum f l) (lsum g l). rewrite (H a (or_introl eq_refl)), IH; auto. intros; apply H; right; auto. Qed.
Lemma total_pos : forall f n, (forall i, i < n -> (0 <= f i)%Z) -> (0 <= total f n)%Z.
Proof. intros f n H. rewrite <- (total_zero n). apply total_le. auto. Qed.
Lemma total_part : forall f n k, (forall i, i < n -> (0 <= f i)%Z) -> k < n -> (f k <= total f n)%Z.
Proof.
  intros f n. induction n as [|n IH]; intros k H Hk; [lia|]. rewrite total_S. assert (X : (0 <= total f n)%Z) by (apply total_pos; auto). assert (Y := H n ltac:(lia)).
  destruct (Nat.eq_dec k n) as [->|]; [lia|]. specialize (IH k ltac:(auto) ltac:(lia)). lia.
Qed.

Section Net.
Variables (P : bpolicy) (w : netcfg) (ok : cid -> flit -> Prop) (dist : cid -> nat -> nat).
Hypothesis W : wired w.
Hypothesis SP : some_policy (w_b w) P.
Hypothesis HD : descends w ok dist.

Lemma z_over_ins : forall f : cid -> Z, total (fun r => total (fun i => f (w_in w r i)) (c_in (w_cfg w r))) (w_n w) = (total (fun n => f (Inj n)) (w_nodes w) + total (fun c => f (Ch c)) (w_chans w))%Z.
Proof.
  intros f. rewrite !total_lsum. rewrite <- (lsum_map _ _ f Inj), <- (lsum_map _ _ f Ch), <- lsum_app, <- (lsum_perm _ f _ _ (ins_perm w ok W)), lsum_map. unfold ports. rewrite lsum_flat_map. apply lsum_ext. intros r _. rewrite total_lsum, lsum_map. reflexivity.
Qed.
Lemma z_over_outs : forall f : cid -> Z, total (fun r => total (fun o => f (w_out w r o)) (c_outs (w_cfg w r))) (w_n w) = (total (fun n => f (Ej n)) (w_nodes w) + total (fun c => f (Ch c)) (w_chans w))%Z.
Proof.
  intros f. rewrite !total_lsum. rewrite <- (lsum_map _ _ f Ej), <- (lsum_map _ _ f Ch), <- lsum_app, <- (lsum_perm _ f _ _ (outs_perm w ok W)), lsum_map. unfold ports. rewrite lsum_flat_map. apply lsum_ext. intros r _. rewrite total_lsum, lsum_map. reflexivity.
Qed.
(** Over all channels. *)
Definition over (f : cid -> Z) : Z := (total (fun n => f (Inj n)) (w_nodes w) + total (fun d => f (Ej d)) (w_nodes w) + total (fun c => f (Ch c)) (w_chans w))%Z.
Definition used (c : cid) : Prop := match c with Inj n => n < w_nodes w | Ej d => d < w_nodes w | Ch k => k < w_chans w end.
Lemma over_le : forall f g, (forall c, used c -> (f c <= g c)%Z) -> (over f <= over g)%Z.
Proof.
  intros f g H. unfold over. assert (X := total_le (fun n => f (Inj n)) (fun n => g (Inj n)) (w_nodes w) (fun n Hn => H (Inj n) Hn)). assert (Y := total_le (fun n => f (Ej n)) (fun n => g (Ej n)) (w_nodes w) (fun n Hn => H (Ej n) Hn)).
  assert (Z1 := total_le (fun n => f (Ch n)) (fun n => g (Ch n)) (w_chans w) (fun n Hn => H (Ch n) Hn)). cbn beta in *. lia.
Qed.
Lemma over_add : forall f g, over (fun c => (f c + g c)%Z) = (over f + over g)%Z.
Proof. intros f g. unfold over. rewrite !total_add. lia. Qed.
Lemma over_pos : forall f, (forall c, used c -> (0 <= f c)%Z) -> (0 <= over f)%Z.
Proof. intros f H. unfold over. assert (X := total_pos (fun n => f (Inj n)) (w_nodes w) (fun n Hn => H (Inj n) Hn)). assert (Y := total_pos (fun n => f (Ej n)) (w_nodes w) (fun n Hn => H (Ej n) Hn)). assert (Z1 := total_pos (fun n => f (Ch n)) (w_chans w) (fun n Hn => H (Ch n) Hn)). lia. Qed.
Lemma over_part : forall f c, (forall c, used c -> (0 <= f c)%Z) -> used c -> (f c <= over f)%Z.
Proof.
  intros f c H Hc. unfold over. assert (X := total_pos (fun n => f (Inj n)) (w_nodes w) (fun n Hn => H (Inj n) Hn)). assert (Y := total_pos (fun n => f (Ej n)) (w_nodes w) (fun n Hn => H (Ej n) Hn)). assert (Z1 := total_pos (fun n => f (Ch n)) (w_chans w) (fun n Hn => H (Ch n) Hn)).
  destruct c as [n|n|n]; [pose proof (total_part (fun n => f (Inj n)) _ n (fun n Hn => H (Inj n) Hn) Hc)|pose proof (total_part (fun n => f (Ej n)) _ n (fun n Hn => H (Ej n) Hn) Hc)|pose proof (total_part (fun n => f (Ch n)) _ n (fun n Hn => H (Ch n) Hn) Hc)]; cbn beta in *; lia.
Qed.
Lemma used_in : forall r i, r < w_n w -> i < c_in (w_cfg w r) -> used (w_in w r i).
Proof.
  intros r i Hr Hi. assert (X : w_snk w (w_in w r i) = Some (r, i)) by (apply (wi_in w W); auto). destruct (w_in w r i) as [n|d|k]; cbn [used].
  - apply (proj2 (wi_inj w W n)). congruence.
  - rewrite (proj1 (wi_ej w W d)) in X. discriminate.
  - apply (proj1 (wi_ch w W k)). congruence.
Qed.
Lemma used_out : forall r o, r < w_n w -> o < c_outs (w_cfg w r) -> used (w_out w r o).
Proof.
  intros r i Hr Hi. assert (X : w_src w (w_out w r i) = Some (r, i)) by (apply (wi_out w W); auto). destruct (w_out w r i) as [n|d|k]; cbn [used].
  - rewrite (proj1 (wi_inj w W n)) in X. discriminate.
  - apply (proj2 (wi_ej w W d)). congruence.
  - apply (proj2 (wi_ch w W k)). congruence.
Qed.

(** ** Worths *)
Definition cq (c : cid) : Z := match w_src w c with Some (r, _) => (1 + Z.max 0 (c_cdelay (w_cfg w r)))%Z | None => 0%Z end.
Definition cwt (c : cid) : Z := (cq c + 0 + 3 + Z.max 0 (w_cd w c))%Z.
Definition tw (c : cid) : Z := match c with Ej _ => (cwt c + 1)%Z | _ => 0%Z end.
Definition xwt (c : cid) : Z := (tw c + 3 + Z.max 0 (w_fd w c))%Z.
Definition K : Z := (4 + over xwt + over cwt)%Z.
Definition kd (c : cid) (f : flit) : Z := (K * Z.of_nat (dist c (f_vc f)))%Z.
Lemma cq_pos : forall c, (0 <= cq c)%Z.
Proof. intros c. unfold cq. destruct (w_src w c) as [[r o]|]; lia. Qed.
Lemma cwt_pos : forall c, (0 <= cwt c)%Z.
Proof. intros c. unfold cwt. pose proof (cq_pos c). lia. Qed.
Lemma tw_pos : forall c, (0 <= tw c)%Z.
Proof. intros c. unfold tw. pose proof (cwt_pos c). destruct c; lia. Qed.
Lemma xwt_pos : forall c, (0 <= xwt c)%Z.
Proof. intros c. unfold xwt. pose proof (tw_pos c). lia. Qed.
Lemma K_pos : (0 <= K)%Z.
Proof. unfold K. pose proof (over_pos xwt (fun c _ => xwt_pos c)). pose proof (over_pos cwt (fun c _ => cwt_pos c)). lia. Qed.
Lemma kd_pos : forall c f, (0 <= kd c f)%Z.
Proof. intros c f. unfold kd. pose proof K_pos. nia. Qed.
Lemma K_big : forall r i o, r < w_n w -> i < c_in (w_cfg w r) -> o < c_outs (w_cfg w r) -> (xwt (w_out w r o) + cwt (w_in w r i) + 4 <= K)%Z.
Proof.
  intros r i o Hr Hi Ho. unfold K. pose proof (over_part xwt (w_out w r o) (fun c _ => xwt_pos c) (used_out r o Hr Ho)). pose proof (over_part cwt (w_in w r i) (fun c _ => cwt_pos c) (used_in r i Hr Hi)). lia.
Qed.
Definition rpot (r : nat) (now : Z) (s : router P) : Z := pot (w_cfg w r) P (fun i v => dist (w_in w r i) v) (fun o v => dist (w_out w r o) v) K (fun o => xwt (w_out w r o)) (fun i => cwt (w_in w r i)) now s.
Definition rpaid (r : nat) (y : rout) : Z := paid (w_cfg w r) (fun o v => dist (w_out w r o) v) K (fun o => xwt (w_out w r o)) (fun i => cwt (w_in w r i)) y.
Definition rgot (r : nat) (x : rin) : Z := got (w_cfg w r) (fun i v => dist (w_in w r i) v) K x.
Definition fpot (now : Z) (s : cid -> chan flit) (c : cid) : Z := w_chan flit (kd c) (tw c) (w_fd w c) now (s c).
Definition cpot (now : Z) (s : cid -> chan (list nat)) (c : cid) : Z := w_chan (list nat) (fun _ => cq c) 0 (w_cd w c) now (s c).
Definition owed (ts : list tick) (zs : list nout) (d : nat) : Z := (Z.of_nat (length (ejected zs d)) - Z.of_nat (length (credited ts d)))%Z.
Definition npot (ts : list tick) (zs : list nout) (now : Z) (s : net P) : Z :=
  (total (fun r => rpot r now (rt s r)) (w_n w) + over (fpot now (n_f s)) + over (cpot now (n_c s)) + total (fun d => tw (Ej d) * owed ts zs d)%Z (w_nodes w))%Z.

(** What a router hands over. *)
Lemma paid_sum : forall ys : nat -> rout, total (fun r => rpaid r (ys r)) (w_n w) =
  (over (fun c => match w_src w c with Some (r, o) => osum flit (fun f => kd c f + xwt c) (x_flit (ys r) o) | None => 0 end) +
   over (fun c => match w_snk w c with Some (r, i) => osum (list nat) (fun _ => cwt c) (x_cred (ys r) i) | None => 0 end))%Z.
Proof.
  intros ys. unfold rpaid, paid. rewrite total_add. f_equal.
  - rewrite (total_ext _ (fun r => total (fun o => match w_src w (w_out w r o) with Some (r', o') => osum flit (fun f => (kd (w_out w r o) f + xwt (w_out w r o))%Z) (x_flit (ys r') o') | None => 0%Z end) (c_outs (w_cfg w r)))).
    + rewrite (z_over_outs (fun c => match w_src w c with Some (r', o') => osum flit (fun f => (kd c f + xwt c)%Z) (x_flit (ys r') o') | None => 0%Z end)). unfold over.
      rewrite (total_ext (fun n => match w_src w (Inj n) with Some (r, o) => _ | None => _ end) (fun _ => 0%Z)); [rewrite total_zero; lia|]. intros n _. rewrite (proj1 (wi_inj w W n)). reflexivity.
    + intros r Hr. apply total_ext. intros o Ho. rewrite (proj2 (wi_out w W (w_out w r o) r o)) by auto. unfold ow, kd, osum. destruct (x_flit (ys r) o); reflexivity.
  - rewrite (total_ext _ (fun r => total (fun i => match w_snk w (w_in w r i) with Some (r', i') => osum (list nat) (fun _ => cwt (w_in w r i)) (x_cred (ys r') i') | None => 0%Z end) (c_in (w_cfg w r)))).
    + rewrite (z_over_ins (fun c => match w_snk w c with Some (r', i') => osum (list nat) (fun _ => cwt c) (x_cred (ys r') i') | None => 0%Z end)). unfold over.
      rewrite (total_ext (fun n => match w_snk w (Ej n) with Some (r, o) => _ | None => _ end) (fun _ => 0%Z)); [rewrite total_zero; lia|]. intros n _. rewrite (proj1 (wi_ej w W n)). reflexivity.
    + intros r Hr. apply total_ext. intros i Hi. rewrite (proj2 (wi_in w W (w_in w r i) r i)) by auto. unfold osum. destruct (x_cred (ys r) i); reflexivity.
Qed.
(** What it gets. *)
Lemma got_sum : forall t (s : net P), (total (fun r => rgot r (net_rin w t s r)) (w_n w) <= over (fun c => osum flit (kd c) (ch_out (n_f s c))) + over (fun c => osum (list nat) (fun _ => cq c) (ch_out (n_c s c))))%Z.
Proof.
  intros t s. unfold rgot, got. rewrite total_add. apply Z.add_le_mono.
  - rewrite (total_ext _ (fun r => total (fun i => osum flit (kd (w_in w r i)) (ch_out (n_f s (w_in w r i)))) (c_in (w_cfg w r)))).
    + rewrite (z_over_ins (fun c => osum flit (kd c) (ch_out (n_f s c)))). unfold over. assert (X := total_pos (fun d => osum flit (kd (Ej d)) (ch_out (n_f s (Ej d)))) (w_nodes w)).
      assert (Y : (0 <= total (fun d => osum flit (kd (Ej d)) (ch_out (n_f s (Ej d)))) (w_nodes w))%Z) by (apply X; intros d _; destruct (ch_out (n_f s (Ej d))); cbn; [apply kd_pos|lia]). lia.
    + intros r Hr. apply total_ext. intros i Hi. cbn [net_rin i_flit]. unfold iw, kd, osum. destruct (ch_out (n_f s (w_in w r i))); reflexivity.
  - rewrite (total_ext _ (fun r => total (fun o => osum (list nat) (fun _ => cq (w_out w r o)) (ch_out (n_c s (w_out w r o)))) (c_outs (w_cfg w r)))).
    + rewrite (z_over_outs (fun c => osum (list nat) (fun _ => cq c) (ch_out (n_c s c)))). unfold over.
      assert (Y : (0 <= total (fun d => osum (list nat) (fun _ => cq (Inj d)) (ch_out (n_c s (Inj d)))) (w_nodes w))%Z) by (apply total_pos; intros d _; destruct (ch_out (n_c s (Inj d))); cbn; [apply cq_pos|lia]). lia.
    + intros r Hr. apply total_ext. intros o Ho. cbn [net_rin i_cred]. assert (E : w_src w (w_out w r o) = Some (r, o)) by (apply (wi_out w W); auto). unfold cq. rewrite E. unfold osum. destruct (ch_out (n_c s (w_out w r o))); reflexivity.
Qed.

(** ** A cycle *)
(** A router, and what it reads, in a cycle. *)
Definition roused {Q} (c : iqcfg) (x : rin) (s : router Q) : router Q := set_act (r_act s || filled (arrivals c x) || filled (credits_in c x)) (set_proc (r_proc s ++ credits_in c x) s).
Definition grants {Q} (c : iqcfg) (x : rin) (s : router Q) : Prop :=
  r_act (roused c x s) = true /\ forall s1 s2 va rr sa, fold_opt (in_queue c) (arrivals c x) (roused c x s) = Some s1 -> proc_credits c (i_now x) (r_proc s1) s1 = Some s2 -> va_evaluate c x s2 = Some va -> sa_evaluate c x s2 = Some (rr, sa) -> (0 < given va + given sa)%Z.
Lemma step_evals : forall Q (c : iqcfg) (x : rin) (s : router Q) s' y, iq_step c x s = Some (s', y) -> r_act (roused c x s) = true ->
  exists s1 s2 va rr sa, fold_opt (in_queue c) (arrivals c x) (roused c x s) = Some s1 /\ proc_credits c (i_now x) (r_proc s1) s1 = Some s2 /\ va_evaluate c x s2 = Some va /\ sa_evaluate c x s2 = Some (rr, sa).
Proof.
  intros Q c x s s' y E A. unfold iq_step in E. fold (roused c x s) in E. rewrite A in E. unfold internal in E. destruct (fold_opt (in_queue c) (arrivals c x) (roused c x s)) as [s1|]; [|discriminate].
  destruct (proc_credits c (i_now x) (r_proc s1) s1) as [s2|] eqn:E2; [|discriminate]. destruct (va_evaluate c x s2) as [va|] eqn:E3; [|discriminate]. destruct (sa_evaluate c x s2) as [[rr sa]|] eqn:E4; [|discriminate]. exists s1, s2, va, rr, sa. auto.
Qed.
Lemma chosen_down : forall ts zs s xs ys t r i v f o u, NI P w ok ts zs s xs ys -> ndecent w ok ts zs t -> r < w_n w -> i < c_in (w_cfg w r) -> In f (on_vc v (rx (xs r ++ [net_rin w t s r]) i)) -> f_vc f = v -> f_head f = true ->
  chosen (w_cfg w r) (xs r ++ [net_rin w t s r]) i f (o, u) -> o < c_outs (w_cfg w r) -> dist (w_out w r o) u < dist (w_in w r i) v.
Proof.
  intros ts zs s xs ys t r i v f o u N D Hr Hi Hf Hv Hd Hc Ho. assert (Ek : w_snk w (w_in w r i) = Some (r, i)) by (apply (wi_in w W); auto).
  assert (Hin : In f (entered w ts ys (w_in w r i))).
  { unfold on_vc in Hf. apply filter_In in Hf. destruct Hf as [Hf _]. rewrite rx_snoc in Hf. cbn [net_rin i_flit] in Hf. rewrite <- (cr_flit _ _ _ _ _ _ (ni_car _ _ _ _ _ _ _ _ N) _ _ _ Ek), app_assoc. apply in_app_iff. left. destruct (ch_out (n_f s (w_in w r i))); exact Hf. }
  destruct (ni_ok _ _ _ _ _ _ _ _ N (w_in w r i) f ltac:(right; congruence) Hin Hd) as [O1 O2].
  assert (Q : ok (w_out w r o) (on_channel u f)).
  { unfold chosen in Hc. rewrite (proj2 (wi_b w W r Hr)) in Hc. assert (Sm : same f (on_channel u f)) by (unfold same; auto). destruct (w_rd w).
    - destruct Hc as [x [Hx Hc]]. apply in_app_iff in Hx. destruct Hx as [Hx|[<-|[]]].
      + destruct (ni_x _ _ _ _ _ _ _ _ N r x Hr Hx) as [t' [Ft [Er _]]]. rewrite Er in Hc. destruct (Ft r i f Hr Hi Hd O1) as [_ B]. apply (B o u); auto.
      + cbn [net_rin i_rf] in Hc. destruct (nd_rf _ _ _ _ _ D r i f Hr Hi Hd O1) as [_ B]. apply (B o u); auto.
    - destruct (O2 eq_refl r i Ek) as [_ B]. apply (B o u); auto. }
  subst v. apply (HD (w_in w r i) (w_out w r o) r i o f (on_channel u f)); auto; [apply (wi_out w W); auto|unfold same; auto].
Qed.
Lemma router_gain : forall old ts zs s xs ys t r s' y, NI P w ok ts zs s xs ys -> ndecent w ok ts zs t -> (old < t_now t)%Z -> r < w_n w -> iq_step (w_cfg w r) (net_rin w t s r) (rt s r) = Some (s', y) ->
  exists G, (0 <= G)%Z /\ (rpot r (t_now t) s' + rpaid r y + G <= rpot r old (rt s r) + rgot r (net_rin w t s r))%Z /\
    (r_xb (rt s r) <> [] \/ r_proc (rt s r) <> [] \/ r_rq (rt s r) <> [] -> 0 < G)%Z /\ (grants (w_cfg w r) (net_rin w t s r) (rt s r) -> 0 < G)%Z.
Proof.
  intros old ts zs s xs ys t r s' y N D Ho Hr E. destruct (some_policy_ok _ _ (policy_of P w W SP r Hr)) as [I [R0 [HP [HR _]]]]. destruct (ni_run _ _ _ _ _ _ _ _ N r Hr) as [Dr Er].
  destruct (run_all (w_cfg w r) P I HP R0 HR (xs r) Dr) as [s1 [ys1 [g [E1 [R Lk]]]]]. rewrite Er in E1. injection E1 as <- <-.
  pose proof (router_decent P w ok W SP _ _ _ _ _ _ _ N D Hr) as De.
  destruct (step_pot (w_cfg w r) P (fun i v => dist (w_in w r i) v) (fun o v => dist (w_out w r o) v) K (fun o => xwt (w_out w r o)) (fun i => cwt (w_in w r i))) with (old := old) (x := net_rin w t s r) (s := rt s r) (s' := s') (y := y) as [G [G1 [G2 [G3 G4]]]]; auto.
  - intros o. apply xwt_pos.
  - intros i. apply cwt_pos.
  - intros i o Hi Hoo. apply K_big; auto.
  - exact (rt_act _ _ _ _ _ _ R).
  - intros s5 Em i v o u Hi Hv St Eo. destruct (step_mid _ _ _ HP _ HR _ _ _ _ _ R Lk De) as [s5' [g5 [ps [px [Em' [Iv Rg]]]]]]. rewrite Em' in Em. injection Em as <-.
    destruct (active_from _ _ _ _ _ _ _ _ _ _ _ _ _ _ Iv Hi Hv St Eo) as [Ho1 [Hw1 [f [F1 [F2 [F3 F4]]]]]]. rewrite Rg in F1 by auto. eapply chosen_down; eauto.
  - exists G. split; auto. split; [exact G2|]. split; auto. intros [Ga Gb]. destruct (step_evals _ _ _ _ _ _ E Ga) as [b1 [b2 [va [rr [sa [X1 [X2 [X3 X4]]]]]]]]. specialize (Gb _ _ _ _ _ X1 X2 X3 X4). specialize (G4 Ga _ _ _ _ _ X1 X2 X3 X4). lia.
Qed.
(** What is in the network and will move. *)
Definition lively (t : tick) (s : net P) : Prop :=
  (exists c, used c /\ (stirs _ (n_f s c) = true \/ stirs _ (n_c s c) = true)) \/ (exists r, r < w_n w /\ (r_xb (rt s r) <> [] \/ r_proc (rt s r) <> [] \/ r_rq (rt s r) <> [])) \/
  (exists d, d < w_nodes w /\ t_cred t d <> None) \/ (exists r, r < w_n w /\ grants (w_cfg w r) (net_rin w t s r) (rt s r)).
Definition yl (l : list (router P * rout)) (r : nat) : rout := match nth_error l r with Some (_, y) => y | None => {| x_flit := fun _ => None; x_cred := fun _ => None |} end.
Definition w_inj (t : tick) : Z := total (fun n => osum flit (w_enter flit (kd (Inj n)) (tw (Inj n)) (w_fd w (Inj n))) (t_inj t n)) (w_nodes w).
Lemma tick_pot : forall old ts zs s xs ys t s' z, NI P w ok ts zs s xs ys -> ndecent w ok ts zs t -> (old < t_now t)%Z -> honest w t -> net_step w t s = Some (s', z) ->
  exists G, (0 <= G)%Z /\ (npot (ts ++ [t]) (zs ++ [z]) (t_now t) s' + G <= npot ts zs old s + w_inj t)%Z /\ (lively t s -> 0 < G)%Z.
Proof.
  intros old ts zs s xs ys t s' z N D Ho Hh E. pose proof (ni_len _ _ _ _ _ _ _ _ N) as L. unfold net_step in E.
  destruct (map_opt _ _) as [l|] eqn:El; [|discriminate].
  destruct (map_opt_combine _ _ (fun a => iq_step (w_cfg w (fst a)) (net_rin w t s (fst a)) (snd a)) (w_n w) (n_rt s) 0 L) as [l' [El' [Ll Hl]]].
  { intros r a Ea. cbn [fst snd Nat.add]. assert (Hr : r < w_n w) by (rewrite <- L; apply nth_error_Some; congruence). rewrite (rt_nth P w s r L Hr) in Ea. injection Ea as <-.
    destruct (some_policy_ok _ _ (policy_of P w W SP r Hr)) as [I [R0 [HP [HR _]]]]. destruct (ni_run _ _ _ _ _ _ _ _ N r Hr) as [Dr Er]. destruct (run_all (w_cfg w r) P I HP R0 HR (xs r) Dr) as [s1 [ys1 [g [E1 [R Lk]]]]]. rewrite Er in E1. injection E1 as <- <-.
    destruct (iq_step_ok (w_cfg w r) P I HP R0 HR _ _ (net_rin w t s r) _ _ R Lk (router_decent P w ok W SP _ _ _ _ _ _ _ N D Hr)) as [s2 [y [g' [E2 _]]]]. change (iq_step (w_cfg w r) (net_rin w t s r) (rt s r) <> None). rewrite E2. discriminate. }
  rewrite El in El'. injection El' as <-. cbn [fst snd Nat.add] in Hl.
  assert (Hs : forall r, r < w_n w -> iq_step (w_cfg w r) (net_rin w t s r) (rt s r) = Some (rt s' r, yl l r)).
  { intros r Hr. specialize (Hl r _ (rt_nth P w s r L Hr)). destruct (nth_error l r) as [[s1 y]|] eqn:En; [|exfalso; apply nth_error_None in En; lia]. rewrite <- Hl. unfold yl. rewrite En. f_equal. f_equal. injection E as <- _. unfold rt. cbn [n_rt]. symmetry. apply nth_error_nth. rewrite nth_error_map, En. reflexivity. }
  set (gr := fun r => (rpot r old (rt s r) + rgot r (net_rin w t s r) - rpot r (t_now t) (rt s' r) - rpaid r (yl l r))%Z).
  assert (Gr0 : forall r, r < w_n w -> (0 <= gr r)%Z) by (intros r Hr; destruct (router_gain old _ _ _ _ _ _ _ _ _ N D Ho Hr (Hs r Hr)) as [G [A1 [A2 _]]]; unfold gr; lia).
  assert (ET : total (fun r => rpot r (t_now t) (rt s' r)) (w_n w) = (total (fun r => rpot r old (rt s r)) (w_n w) + total (fun r => rgot r (net_rin w t s r)) (w_n w) - total (fun r => rpaid r (yl l r)) (w_n w) - total gr (w_n w))%Z).
  { rewrite <- total_add. assert (X : forall f g n, (total f n - total g n)%Z = total (fun i => (f i - g i)%Z) n) by (intros f g n; induction n as [|n IH]; [reflexivity|]; rewrite !total_S; lia). rewrite !X. apply total_ext. intros r _. unfold gr. lia. }
  pose proof (paid_sum (yl l)) as PS. pose proof (got_sum t s) as GS.
  set (fx := fun c => match c with Inj n => t_inj t n | _ => None end). set (cx := fun c => match c with Ej d => t_cred t d | _ => None end).
  set (fy := fun c => wrote l x_flit (w_src w c)). set (cy := fun c => wrote l x_cred (w_snk w c)).
  assert (Ef : forall c, n_f s' c = put (fy c) (ch_write (t_now t) (ch_read (w_fd w c) (t_now t) (put (fx c) (n_f s c))))) by (injection E as <- _; reflexivity).
  assert (Ec : forall c, n_c s' c = put (cy c) (ch_write (t_now t) (put (cx c) (ch_read (w_cd w c) (t_now t) (n_c s c))))) by (injection E as <- _; reflexivity).
  assert (Ez : forall d, z_flit z d = ch_out (n_f s' (Ej d))) by (injection E as <- <-; reflexivity). clear E.
  assert (PF : (over (fpot (t_now t) (n_f s')) + over (fun c => osum flit (fun _ => tw c) (ch_out (n_f s' c))) + over (fun c => one (stirs _ (n_f s c))) + over (fun c => osum flit (kd c) (ch_out (n_f s c))) <=
    over (fpot old (n_f s)) + over (fun c => osum flit (w_enter flit (kd c) (tw c) (w_fd w c)) (fx c)) + over (fun c => osum flit (w_enter flit (kd c) (tw c) (w_fd w c)) (fy c)))%Z).
  { rewrite <- !over_add. apply over_le. intros c _. unfold fpot. rewrite Ef. apply w_flit_cycle; try apply tw_pos; try apply kd_pos; auto. destruct c as [n|d|c]; auto. right. apply (ni_in _ _ _ _ _ _ _ _ N). }
  assert (PC : (over (cpot (t_now t) (n_c s')) + over (fun c => one (stirs _ (n_c s c))) + over (fun c => osum (list nat) (fun _ => cq c) (ch_out (n_c s c))) <=
    over (cpot old (n_c s)) + over (fun c => osum (list nat) (fun _ => cwt c) (cx c)) + over (fun c => osum (list nat) (fun _ => cwt c) (cy c)))%Z).
  { rewrite <- !over_add. apply over_le. intros c _. unfold cpot. rewrite Ec. apply w_cred_cycle; try apply cq_pos; try (intros; apply cq_pos); try lia; auto. destruct c as [n|d|c]; auto. right. unfold cy. rewrite (proj1 (wi_ej w W d)). reflexivity. }
  assert (Q1 : over (fun c => match w_src w c with Some (r, o) => osum flit (fun f => kd c f + xwt c)%Z (x_flit (yl l r) o) | None => 0%Z end) = over (fun c => osum flit (w_enter flit (kd c) (tw c) (w_fd w c)) (fy c))).
  { assert (Q : forall c, match w_src w c with Some (r, o) => osum flit (fun f => kd c f + xwt c)%Z (x_flit (yl l r) o) | None => 0%Z end = osum flit (w_enter flit (kd c) (tw c) (w_fd w c)) (fy c)).
    { intros c. unfold fy, wrote, yl. destruct (w_src w c) as [[r o]|]; [|reflexivity]. destruct (nth_error l r) as [[s1 y]|]; [|reflexivity]. destruct (x_flit y o) as [f|]; [|reflexivity]. cbn [osum]. unfold w_enter, xwt. lia. }
    unfold over. f_equal; [f_equal|]; apply total_ext; intros n _; apply Q. }
  assert (Q2 : over (fun c => match w_snk w c with Some (r, i) => osum (list nat) (fun _ => cwt c) (x_cred (yl l r) i) | None => 0%Z end) = over (fun c => osum (list nat) (fun _ => cwt c) (cy c))).
  { assert (Q : forall c, match w_snk w c with Some (r, i) => osum (list nat) (fun _ => cwt c) (x_cred (yl l r) i) | None => 0%Z end = osum (list nat) (fun _ => cwt c) (cy c)).
    { intros c. unfold cy, wrote, yl. destruct (w_snk w c) as [[r o]|]; [|reflexivity]. destruct (nth_error l r) as [[s1 y]|]; reflexivity. }
    unfold over. f_equal; [f_equal|]; apply total_ext; intros n _; apply Q. }
  assert (Q3 : over (fun c => osum flit (w_enter flit (kd c) (tw c) (w_fd w c)) (fx c)) = w_inj t).
  { unfold over, w_inj. cbn [fx]. change (fun d : nat => osum flit (w_enter flit (kd (Ej d)) (tw (Ej d)) (w_fd w (Ej d))) None) with (fun _ : nat => 0%Z). change (fun d : nat => osum flit (w_enter flit (kd (Ch d)) (tw (Ch d)) (w_fd w (Ch d))) None) with (fun _ : nat => 0%Z). rewrite !total_zero. lia. }
  assert (Q4 : over (fun c => osum (list nat) (fun _ => cwt c) (cx c)) = total (fun d => osum (list nat) (fun _ => cwt (Ej d)) (t_cred t d)) (w_nodes w)).
  { unfold over. cbn [cx]. change (fun d : nat => osum (list nat) (fun _ => cwt (Inj d)) None) with (fun _ : nat => 0%Z). change (fun d : nat => osum (list nat) (fun _ => cwt (Ch d)) None) with (fun _ : nat => 0%Z). rewrite !total_zero. lia. }
  assert (Q5 : (total (fun d => osum flit (fun _ => tw (Ej d)) (z_flit z d)) (w_nodes w) <= over (fun c => osum flit (fun _ => tw c) (ch_out (n_f s' c))))%Z).
  { unfold over. assert (X1 : (0 <= total (fun n => osum flit (fun _ => tw (Inj n)) (ch_out (n_f s' (Inj n)))) (w_nodes w))%Z) by (apply total_pos; intros n _; destruct (ch_out (n_f s' (Inj n))); cbn [osum]; [apply tw_pos|lia]).
    assert (X2 : (0 <= total (fun n => osum flit (fun _ => tw (Ch n)) (ch_out (n_f s' (Ch n)))) (w_chans w))%Z) by (apply total_pos; intros n _; destruct (ch_out (n_f s' (Ch n))); cbn [osum]; [apply tw_pos|lia]).
    rewrite (total_ext (fun d => osum flit (fun _ => tw (Ej d)) (z_flit z d)) (fun d => osum flit (fun _ => tw (Ej d)) (ch_out (n_f s' (Ej d))))) by (intros d _; rewrite Ez; reflexivity). lia. }
  set (gc := fun d => osum (list nat) (fun _ => 1%Z) (t_cred t d)).
  assert (Q6 : (total (fun d => tw (Ej d) * owed (ts ++ [t]) (zs ++ [z]) d)%Z (w_nodes w) + total (fun d => osum (list nat) (fun _ => cwt (Ej d)) (t_cred t d)) (w_nodes w) + total gc (w_nodes w) <= total (fun d => tw (Ej d) * owed ts zs d)%Z (w_nodes w) + total (fun d => osum flit (fun _ => tw (Ej d)) (z_flit z d)) (w_nodes w))%Z).
  { rewrite <- !total_add. apply total_le. intros d Hd. cbn beta. unfold owed, gc. rewrite ejected_snoc, credited_snoc, concat_opt, !app_length, !Nat2Z.inj_add.
    assert (X : forall a, (a = tw (Ej d))%Z -> (a * Z.of_nat (length (opt (z_flit z d))) = osum flit (fun _ => tw (Ej d)) (z_flit z d))%Z) by (intros a ->; destruct (z_flit z d); cbn [opt length osum]; lia). specialize (X _ eq_refl).
    destruct (t_cred t d) as [vs|] eqn:Ev; cbn [osum].
    - assert (Nv : 1 <= length vs) by (destruct vs; [exfalso; apply (Hh d Hd); auto|cbn; lia]). pose proof (cwt_pos (Ej d)). assert (Tw : tw (Ej d) = (cwt (Ej d) + 1)%Z) by reflexivity. nia.
    - cbn [length]. nia. }
  assert (S1 := over_pos (fun c => one (stirs _ (n_f s c))) (fun c _ => one_pos _)).
  assert (S2 := over_pos (fun c => one (stirs _ (n_c s c))) (fun c _ => one_pos _)).
  assert (S3 := total_pos gc (w_nodes w) ltac:(intros d _; unfold gc; destruct (t_cred t d); cbn; lia)). assert (S4 := total_pos gr (w_n w) Gr0).
  exists (total gr (w_n w) + over (fun c => one (stirs _ (n_f s c))) + over (fun c => one (stirs _ (n_c s c))) + total gc (w_nodes w))%Z.
  split; [lia|]. split; [unfold npot; lia|]. intros [[c [Hc [X|X]]]|[[r [Hr X]]|[[d [Hd X]]|[r [Hr X]]]]].
  - assert (Z1 := over_part (fun c => one (stirs _ (n_f s c))) c (fun c' _ => one_pos _) Hc). cbn beta in Z1. rewrite X in Z1. cbn [one] in Z1. lia.
  - assert (Z1 := over_part (fun c => one (stirs _ (n_c s c))) c (fun c' _ => one_pos _) Hc). cbn beta in Z1. rewrite X in Z1. cbn [one] in Z1. lia.
  - assert (Z1 := total_part gr (w_n w) r Gr0 Hr). destruct (router_gain old _ _ _ _ _ _ _ _ _ N D Ho Hr (Hs r Hr)) as [G [_ [A2 [A3 _]]]]. specialize (A3 X). unfold gr in Z1 at 1. lia.
  - assert (Z1 := total_part gc (w_nodes w) d ltac:(intros d' _; unfold gc; destruct (t_cred t d'); cbn; lia) Hd). unfold gc in Z1 at 1. destruct (t_cred t d); [cbn [osum] in Z1; lia|congruence].
  - assert (Z1 := total_part gr (w_n w) r Gr0 Hr). destruct (router_gain old _ _ _ _ _ _ _ _ _ N D Ho Hr (Hs r Hr)) as [G [_ [A2 [_ A3]]]]. specialize (A3 X). unfold gr in Z1 at 1. lia.
Qed.
(** It is never negative. *)
Lemma npot_nonneg : forall ts zs now s xs ys, NI P w ok ts zs s xs ys -> (0 <= npot ts zs now s)%Z.
Proof.
  intros ts zs now s xs ys N. unfold npot.
  assert (A1 : (0 <= over (fpot now (n_f s)))%Z) by (apply over_pos; intros c _; apply w_chan_nonneg; [apply kd_pos|apply tw_pos]).
  assert (A2 : (0 <= over (cpot now (n_c s)))%Z) by (apply over_pos; intros c _; apply w_chan_nonneg; [intros; apply cq_pos|lia]).
  assert (A3 : (0 <= total (fun d => tw (Ej d) * owed ts zs d)%Z (w_nodes w))%Z).
  { apply total_pos. intros d _. pose proof (tw_pos (Ej d)). assert (0 <= owed ts zs d)%Z; [|nia]. unfold owed. destruct (ni_cre _ _ _ _ _ _ _ _ N d) as [B1 B2].
    assert (length (credited ts d) <= length (ejected zs d)); [|lia]. rewrite <- (map_length f_vc (ejected zs d)). assert (X : forall v, count_occ Nat.eq_dec (credited ts d) v <= count_occ Nat.eq_dec (map f_vc (ejected zs d)) v).
    { intros v. specialize (B2 v). assert (Y : forall l, length (on_vc v l) = count_occ Nat.eq_dec (map f_vc l) v); [|rewrite <- Y; exact B2]. intros l. induction l as [|f l IH]; [reflexivity|]. cbn [on_vc filter map count_occ]. destruct (Nat.eqb_spec (f_vc f) v) as [Ev|Ev]; destruct (Nat.eq_dec (f_vc f) v); try contradiction; cbn [length]; unfold on_vc in IH; lia. }
    clear B1 B2. revert X. generalize (map f_vc (ejected zs d)). induction (credited ts d) as [|a q IH]; intros l X; [cbn; lia|]. assert (Ha : In a l) by (apply (count_occ_In Nat.eq_dec); specialize (X a); cbn in X; destruct (Nat.eq_dec a a); [lia|congruence]).
    apply in_split in Ha. destruct Ha as [l1 [l2 ->]]. specialize (IH (l1 ++ l2)). rewrite app_length in *. cbn [length]. assert (length q <= length l1 + length l2); [|lia]. apply IH. intros v. specialize (X v). rewrite count_occ_app in *. cbn [count_occ] in X. destruct (Nat.eq_dec a v); lia. }
  assert (A4 : (0 <= total (fun r => rpot r now (rt s r)) (w_n w))%Z); [|lia]. apply total_pos. intros r Hr. unfold rpot, pot.
  assert (B1 : forall i v, (0 <= iw (fun i v => dist (w_in w r i) v) K i v)%Z) by (intros i v; unfold iw; pose proof K_pos; nia).
  assert (B2 : forall o v, (0 <= ow (fun o v => dist (w_out w r o) v) K (fun o => xwt (w_out w r o)) o v)%Z) by (intros o v; unfold ow; pose proof K_pos; pose proof (xwt_pos (w_out w r o)); nia).
  assert (C1 : (0 <= p_vc (w_cfg w r) (fun i v => dist (w_in w r i) v) K (r_vc (rt s r)))%Z) by (unfold p_vc; apply total_pos; intros i _; apply total_pos; intros v _; unfold vw; specialize (B1 i v); destruct (v_state _); cbn [sw]; nia).
  assert (C2 : (0 <= p_xb (fun o v => dist (w_out w r o) v) K (fun o => xwt (w_out w r o)) (r_xb (rt s r)))%Z) by (unfold p_xb; apply lsum_nonneg; intros e; specialize (B2 (snd (snd e)) (f_vc (fst e))); lia).
  assert (C3 : (0 <= p_out (w_cfg w r) (fun o v => dist (w_out w r o) v) K (fun o => xwt (w_out w r o)) (r_out (rt s r)))%Z) by (unfold p_out; apply total_pos; intros o _; apply lsum_nonneg; intros e; apply B2).
  assert (C4 : (0 <= p_oc (w_cfg w r) (fun i => cwt (w_in w r i)) (r_oc (rt s r)))%Z) by (unfold p_oc; apply total_pos; intros i _; pose proof (cwt_pos (w_in w r i)); nia).
  assert (C5 : (0 <= p_cb (w_cfg w r) (fun i => cwt (w_in w r i)) (r_cb (rt s r)))%Z) by (unfold p_cb; apply total_pos; intros i _; pose proof (cwt_pos (w_in w r i)); nia).
  assert (C6 : (0 <= p_pr now (r_proc (rt s r)))%Z) by (unfold p_pr; apply lsum_nonneg; intros e; lia). lia.
Qed.
End Net.
