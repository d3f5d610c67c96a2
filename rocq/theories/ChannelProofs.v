From Coq Require Import ZArith Arith Bool List Lia.
From Verif Require Import ChannelModel.
Import ListNotations.
Open Scope Z_scope.

(** What the last Send of a cycle left. *)
Definition eff {A} (xs : list (option A)) : option A := last xs None.
Definition somes {A} (l : list (option A)) : list A := flat_map (fun x => match x with Some y => [y] | None => [] end) l.

Lemma sends : forall A (xs : list (option A)) s, ch_in s = None ->
  fold_left (fun s x => ch_send x s) xs s = {| ch_in := eff xs; ch_q := ch_q s; ch_out := ch_out s |}.
Proof.
  intros A xs. induction xs as [|x xs IH] using rev_ind; intros s H.
  - cbn. destruct s; cbn in *; subst; auto.
  - rewrite fold_left_app. cbn [fold_left]. rewrite IH by auto. unfold eff. rewrite last_last. reflexivity.
Qed.
Lemma cycle_in : forall A d t (xs : list (option A)) s, ch_in s = None -> ch_in (ch_cycle d t xs s) = None.
Proof.
  intros. unfold ch_cycle. rewrite sends by auto. unfold ch_read. cbn [ch_in ch_q].
  destruct (eff xs); unfold ch_write; cbn [ch_q]; destruct (ch_q s) as [|[u y] r]; cbn [app ch_in]; auto; destruct (t <? _); reflexivity.
Qed.

Lemma nth_first : forall A n j (l : list A) x, (j < n)%nat -> nth j (firstn n l) x = nth j l x.
Proof. induction n as [|n IH]; intros j l x H; [lia|]. destruct l, j; cbn [firstn nth]; auto. apply IH. lia. Qed.

(** Order, for any times. *)
Lemma cycle_order : forall A d t (xs : list (option A)) s, ch_in s = None ->
  somes [ch_out (ch_cycle d t xs s)] ++ map snd (ch_q (ch_cycle d t xs s)) = map snd (ch_q s) ++ somes [eff xs].
Proof.
  intros. unfold ch_cycle. rewrite sends by auto. unfold ch_read. cbn [ch_in ch_q].
  destruct (eff xs) as [y|]; unfold ch_write; cbn [ch_q somes flat_map app]; destruct (ch_q s) as [|[u z] r]; cbn [app]; try rewrite app_nil_r; auto.
  - destruct (t <? t + d - 1); reflexivity.
  - destruct (t <? u); cbn [ch_out ch_q app]; cbn [map snd]; rewrite ?map_app; reflexivity.
  - destruct (t <? u); cbn [ch_out ch_q app map snd]; rewrite ?app_nil_r; reflexivity.
Qed.
Lemma somes_cons : forall A (x : option A) l, somes (x :: l) = somes [x] ++ somes l.
Proof. intros. unfold somes. cbn [flat_map]. rewrite app_nil_r. reflexivity. Qed.
Lemma run_order : forall A d tm l k (s s' : chan A) os, ch_in s = None -> ch_run d tm k l s = (s', os) ->
  somes os ++ map snd (ch_q s') = map snd (ch_q s) ++ somes (map eff l) /\ length os = length l /\ ch_in s' = None.
Proof.
  intros A d tm l. induction l as [|xs l IH]; intros k s s' os H E; cbn [ch_run] in E.
  - injection E as <- <-. cbn. rewrite app_nil_r. auto.
  - destruct (ch_run d tm (S k) l (ch_cycle d (tm k) xs s)) as [s2 os2] eqn:E2. injection E as <- <-.
    destruct (IH _ _ _ _ (cycle_in _ d (tm k) xs s H) E2) as [I1 [I2 I3]]. cbn [map]. rewrite (somes_cons _ _ os2), (somes_cons _ _ (map eff l)). rewrite <- app_assoc, I1, !app_assoc.
    rewrite (cycle_order _ d (tm k) xs s H). split; [auto|]. cbn [length]. auto.
Qed.

(** With a regular clock the channel is a shift register. *)
Section Reg.
Variables (A : Type) (P d : Z).
Hypothesis HP : 0 < P.
Hypothesis Hd : 1 <= d.
Let e := Z.to_nat ((d - 1 + P - 1) / P).
Lemma e_up : d - 1 <= Z.of_nat e * P.
Proof. unfold e. rewrite Z2Nat.id by (apply Z.div_pos; lia). pose proof (Z.mod_pos_bound (d - 1 + P - 1) P HP). pose proof (Z.div_mod (d - 1 + P - 1) P). lia. Qed.
Lemma e_low : (Z.of_nat e - 1) * P < d - 1 \/ e = 0%nat.
Proof. unfold e. destruct (Z.eq_dec d 1) as [->|]; [right; rewrite Z.div_small by lia; auto|left]. rewrite Z2Nat.id by (apply Z.div_pos; lia). pose proof (Z.mod_pos_bound (d - 1 + P - 1) P HP). pose proof (Z.div_mod (d - 1 + P - 1) P). lia. Qed.

Fixpoint ents (t : Z) (pend : list (option A)) : list (Z * A) :=
  match pend with [] => [] | None :: r => ents (t + P) r | Some x :: r => (t + d - 1, x) :: ents (t + P) r end.
Lemma ents_app : forall p1 p2 t, ents t (p1 ++ p2) = ents t p1 ++ ents (t + Z.of_nat (length p1) * P) p2.
Proof.
  induction p1 as [|x p1 IH]; intros p2 t; cbn [app ents length].
  - f_equal. lia.
  - destruct x; rewrite IH; [cbn [app]; f_equal|]; f_equal; f_equal; lia.
Qed.
Lemma ents_front : forall p t u x r, ents t p = (u, x) :: r -> t + d - 1 <= u.
Proof. induction p as [|[y|] p IH]; intros t u x r E; cbn [ents] in E; [discriminate| |]. injection E as <- _ _. lia. apply IH in E. lia. Qed.

Lemma reg_cycle : forall t xs s pend, ch_in s = None -> length pend = e -> ch_q s = ents (t - Z.of_nat e * P) pend ->
  ch_out (ch_cycle d t xs s) = hd None (pend ++ [eff xs]) /\ ch_q (ch_cycle d t xs s) = ents (t + P - Z.of_nat e * P) (tl (pend ++ [eff xs])).
Proof.
  intros t xs s pend H L Q. pose proof e_up as U. pose proof e_low as Lo. unfold ch_cycle. rewrite sends by auto.
  assert (E : ch_read d t {| ch_in := eff xs; ch_q := ch_q s; ch_out := ch_out s |} = {| ch_in := None; ch_q := ents (t - Z.of_nat e * P) (pend ++ [eff xs]); ch_out := ch_out s |}).
  { rewrite ents_app, L, Q. unfold ch_read. cbn [ch_in ch_q ch_out]. replace (t - Z.of_nat e * P + Z.of_nat e * P) with t by lia.
    destruct (eff xs); cbn [ents]; rewrite ?app_nil_r; reflexivity. }
  rewrite E. destruct (pend ++ [eff xs]) as [|y p] eqn:Ep; [destruct pend; discriminate|].
  assert (Lp : length p = e) by (apply (f_equal (@length _)) in Ep; rewrite app_length in Ep; cbn [length] in Ep; lia).
  cbn [hd tl]. unfold ch_write. cbn [ch_q ch_in]. destruct y as [y|]; cbn [ents].
  - rewrite (proj2 (Z.ltb_ge t (t - Z.of_nat e * P + d - 1))) by lia. cbn [ch_out ch_q]. split; auto. f_equal. lia.
  - replace (t - Z.of_nat e * P + P) with (t + P - Z.of_nat e * P) by lia. destruct (ents (t + P - Z.of_nat e * P) p) as [|[u x] r] eqn:F; [auto|].
    assert (F' := F). apply ents_front in F. assert (e <> 0%nat) by (intros X; rewrite X in Lp; destruct p; [cbn in F'; discriminate|discriminate]).
    rewrite (proj2 (Z.ltb_lt t u)) by lia. auto.
Qed.

Lemma reg_run : forall t0 l k s pend s' os, ch_in s = None -> length pend = e -> ch_q s = ents (t0 + Z.of_nat k * P - Z.of_nat e * P) pend ->
  ch_run d (fun k => t0 + Z.of_nat k * P) k l s = (s', os) -> os = firstn (length l) (pend ++ map eff l).
Proof.
  intros t0 l. induction l as [|xs l IH]; intros k s pend s' os H L Q E; cbn [ch_run] in E.
  - injection E as <- <-. reflexivity.
  - destruct (ch_run d _ (S k) l _) as [s2 os2] eqn:E2. injection E as <- <-.
    destruct (reg_cycle (t0 + Z.of_nat k * P) xs s pend H L Q) as [O1 O2].
    assert (Lt : length (tl (pend ++ [eff xs])) = e) by (destruct pend; cbn [app tl length] in *; rewrite ?app_length; cbn [length]; lia).
    specialize (IH (S k) _ (tl (pend ++ [eff xs])) _ _ (cycle_in _ _ _ _ _ H) Lt ltac:(rewrite O2; f_equal; lia) E2).
    rewrite O1, IH. cbn [map length]. replace (pend ++ eff xs :: map eff l) with ((pend ++ [eff xs]) ++ map eff l) by (rewrite <- app_assoc; reflexivity).
    destruct pend; reflexivity.
Qed.
End Reg.

Lemma reg_all : forall A P d t0 (l : list (list (option A))), 0 < P -> 1 <= d ->
  snd (ch_run d (fun k => t0 + Z.of_nat k * P) 0 l (chan0 A)) =
    firstn (length l) (repeat None (Z.to_nat ((d - 1 + P - 1) / P)) ++ map (fun xs => last xs None) l).
Proof.
  intros A P d t0 l HP Hd. destruct (ch_run _ _ 0 l (chan0 A)) as [s os] eqn:E. cbn [snd].
  apply (reg_run A P d HP Hd t0 l 0 (chan0 A) (repeat None (Z.to_nat ((d - 1 + P - 1) / P))) s os eq_refl (repeat_length _ _)); auto.
  cbn [chan0 ch_q]. match goal with |- _ = ents _ _ _ ?z _ => generalize z end. induction (Z.to_nat ((d - 1 + P - 1) / P)); intros z; cbn [repeat ents]; auto.
Qed.
Lemma run_ext : forall A d tm tm' l k (s : chan A), (forall i, tm i = tm' i) -> ch_run d tm k l s = ch_run d tm' k l s.
Proof. intros A d tm tm' l. induction l as [|xs l IH]; intros k s H; cbn [ch_run]; auto. rewrite H, (IH _ _ H). reflexivity. Qed.

(** Stages. *)
Lemma push_all : forall A (xs : list A) s, fold_left (fun s x => st_push x s) xs s = s ++ map (fun x => (-1, x)) xs.
Proof. induction xs as [|x xs IH]; intros s; cbn [fold_left map]; [rewrite app_nil_r; auto|]. rewrite IH. unfold st_push. rewrite <- app_assoc. reflexivity. Qed.
Lemma eval_new : forall A d t (xs : list A), st_eval d t (map (fun x => (-1, x)) xs) = map (fun x => (t + d - 1, x)) xs.
Proof. induction xs as [|x xs IH]; cbn [map st_eval]; auto. cbn [Z.leb Z.compare]. rewrite IH. reflexivity. Qed.
Lemma update_done : forall A t (xs : list A), 0 <= t -> st_update t (map (fun x => (t, x)) xs) = Some ([], xs).
Proof.
  intros A t xs Ht. induction xs as [|x xs IH]; cbn [map st_update]; auto.
  rewrite (proj2 (Z.ltb_ge t 0)), Z.ltb_irrefl, Z.eqb_refl, IH by lia. reflexivity.
Qed.
Lemma stage_one : forall A tm (l : list (list A)) k, (forall i, (k <= i < k + length l)%nat -> 0 <= tm i) -> st_run 1 tm k l [] = Some ([], l).
Proof.
  intros A tm l. induction l as [|xs l IH]; intros k H; cbn [st_run]; auto.
  unfold st_cycle. rewrite push_all. cbn [app]. rewrite eval_new. replace (tm k + 1 - 1) with (tm k) by lia.
  rewrite update_done by (apply H; cbn [length]; lia). rewrite IH; auto. intros i Hi. apply H. cbn [length]. lia.
Qed.
Lemma eval_neg : forall A d t (s : stage A), (forall u x, In (u, x) s -> u < 0) -> st_eval d t s = map (fun y => (t + d - 1, snd y)) s.
Proof.
  induction s as [|[u x] s IH]; intros H; cbn [st_eval map]; auto. rewrite (proj2 (Z.leb_gt 0 u)) by (apply (H u x); left; auto).
  rewrite IH; auto. intros v y Hy. apply (H v y). right. auto.
Qed.
Lemma stage_stall : forall A tm (l : list (list A)) k s, (forall u x, In (u, x) s -> u < 0) -> (forall i, (k <= i < k + length l)%nat -> tm i < 0) ->
  exists s', st_run 1 tm k l s = Some (s', map (fun _ => []) l) /\ map snd s' = map snd s ++ concat l.
Proof.
  intros A tm l. induction l as [|xs l IH]; intros k s Hs H; cbn [st_run map concat].
  - exists s. rewrite app_nil_r. auto.
  - unfold st_cycle. rewrite push_all. rewrite eval_neg.
    2: { intros u x Hi. apply in_app_or in Hi. destruct Hi as [Hi|Hi]; [eauto|]. apply in_map_iff in Hi. destruct Hi as [y [E _]]. injection E. intros. lia. }
    assert (T : tm k < 0) by (apply H; cbn [length]; lia).
    set (s1 := map _ (s ++ _)). assert (U : st_update (tm k) s1 = Some (s1, [])).
    { unfold s1. destruct (s ++ map (fun x => (-1, x)) xs) as [|[u x] r]; cbn [map st_update]; auto. rewrite (proj2 (Z.ltb_lt (tm k + 1 - 1) 0)) by lia. reflexivity. }
    rewrite U. destruct (IH (S k) s1) as [s' [E M]].
    { intros u x Hi. unfold s1 in Hi. apply in_map_iff in Hi. destruct Hi as [y [Y _]]. injection Y. intros. lia. }
    { intros i Hi. apply H. cbn [length]. lia. }
    rewrite E. exists s'. split; auto. rewrite M. unfold s1. rewrite map_map, map_app, map_map, <- app_assoc. cbn [snd]. rewrite map_id. reflexivity.
Qed.
(** A single entry with a delay that is not a multiple of the period. *)
Lemma stage_assert : forall A P d (x : A) n k t, 0 < P -> 0 <= t -> t + d - 1 < t + Z.of_nat (k + n) * P -> (d - 1) mod P <> 0 -> 0 <= d - 1 -> (forall i, (0 < i <= k)%nat -> Z.of_nat i * P < d - 1) ->
  st_run d (fun i => t + Z.of_nat i * P) (S k) (repeat [] n) [(t + d - 1, x)] = None.
Proof.
  intros A P d x n. induction n as [|n IH]; intros k t HP Ht Hn Hm Hd Hk.
  - exfalso. destruct k; [lia|]. specialize (Hk (S k) ltac:(lia)). rewrite Nat.add_0_r in Hn. lia.
  - cbn [repeat st_run]. unfold st_cycle. cbn [fold_left st_eval]. rewrite (proj2 (Z.leb_le 0 (t + d - 1))) by lia. cbn [st_update].
    rewrite (proj2 (Z.ltb_ge (t + d - 1) 0)) by lia. cbn [orb].
    destruct (Z.ltb_spec (t + Z.of_nat (S k) * P) (t + d - 1)) as [Hlt|Hge].
    + rewrite (IH (S k)); auto. { replace (S k + n)%nat with (k + S n)%nat by lia. auto. }
      intros i Hi. destruct (Nat.eq_dec i (S k)) as [->|]; [lia|]. apply Hk. lia.
    + destruct (Z.eqb_spec (t + Z.of_nat (S k) * P) (t + d - 1)) as [E|]; [|reflexivity].
      exfalso. apply Hm. replace (d - 1) with (Z.of_nat (S k) * P) by lia. apply Z.mod_mul. lia.
Qed.

(** A stage that is busy evaluates nothing that arrives. *)
Lemma st_run_app : forall A d tm (l1 l2 : list (list A)) k s, st_run d tm k (l1 ++ l2) s =
  match st_run d tm k l1 s with
  | Some (s1, o1) => match st_run d tm (k + length l1) l2 s1 with Some (s2, o2) => Some (s2, o1 ++ o2) | None => None end
  | None => None
  end.
Proof.
  intros A d tm l1. induction l1 as [|xs l1 IH]; intros l2 k s; cbn [app st_run length].
  - rewrite Nat.add_0_r. destruct (st_run d tm k l2 s) as [[s2 o2]|]; reflexivity.
  - destruct (st_cycle d (tm k) xs s) as [[s1 o]|]; auto. rewrite IH, <- Nat.add_succ_comm. destruct (st_run d tm (S k) l1 s1) as [[s2 o2]|]; auto.
    destruct (st_run d tm (S k + length l1) l2 s2) as [[s3 o3]|]; reflexivity.
Qed.
Lemma stage_hold : forall A d tm (l : list (list A)) k u x s, 0 <= u -> (forall i, (k <= i < k + length l)%nat -> tm i < u) ->
  st_run d tm k l ((u, x) :: s) = Some ((u, x) :: s ++ map (fun y => (-1, y)) (concat l), map (fun _ => []) l).
Proof.
  intros A d tm l. induction l as [|xs l IH]; intros k u x s Hu H; cbn [st_run concat map]; [rewrite app_nil_r; auto|].
  unfold st_cycle. rewrite push_all. cbn [app st_eval]. rewrite (proj2 (Z.leb_le 0 u)) by lia. cbn [st_update].
  rewrite (proj2 (Z.ltb_lt (tm k) u)) by (apply H; cbn [length]; lia). rewrite orb_true_r.
  rewrite IH; [|auto|intros i Hi; apply H; cbn [length]; lia]. rewrite map_app, <- app_assoc. reflexivity.
Qed.
Lemma update_upto : forall A t (xs ys : list A), 0 <= t -> st_update t (map (fun x => (t, x)) xs ++ map (fun y => (-1, y)) ys) = Some (map (fun y => (-1, y)) ys, xs).
Proof.
  intros A t xs ys Ht. induction xs as [|x xs IH]; cbn [map app st_update].
  - destruct ys; reflexivity.
  - rewrite (proj2 (Z.ltb_ge t 0)), Z.ltb_irrefl, Z.eqb_refl, IH by lia. reflexivity.
Qed.
Lemma stage_serial : forall A P (x : A) l, 0 < P -> (0 < length l)%nat ->
  st_run (Z.of_nat (length l) * P + 1) (fun i => Z.of_nat i * P) 0 ([x] :: l ++ repeat [] (S (length l))) [] =
  Some ([], repeat [] (length l) ++ [x] :: repeat [] (length l) ++ [concat l]).
Proof.
  intros A P x l HP Hq. remember (length l) as q eqn:Q. set (d := Z.of_nat q * P + 1). set (tm := fun i => Z.of_nat i * P).
  assert (D : forall n, map (fun _ : list A => @nil A) (repeat [] n) = repeat [] n) by (intros n; induction n as [|n IH]; cbn [repeat map]; [reflexivity|rewrite IH; reflexivity]).
  assert (R : forall n, concat (repeat (@nil A) n) = []) by (induction n; cbn; auto).
  assert (N : forall l : list (list A), map (fun _ => @nil A) l = repeat [] (length l)) by (intros l0; induction l0 as [|a l0 IH]; cbn [map length repeat]; [reflexivity|rewrite IH; reflexivity]).
  destruct (exists_last (l := l)) as [l1 [xs El]]; [intros ->; cbn in Q; lia|]. subst l. rewrite app_length in Q. cbn [length] in Q.
  rewrite concat_app. cbn [concat]. rewrite app_nil_r.
  cbn [st_run]. unfold st_cycle at 1. cbn [fold_left st_push app st_eval Z.leb Z.compare].
  replace (tm 0%nat + d - 1) with (Z.of_nat q * P) by (unfold tm, d; lia).
  cbn [st_update]. rewrite (proj2 (Z.ltb_ge (Z.of_nat q * P) 0)) by nia. replace (tm 0%nat) with 0 by (unfold tm; lia). rewrite (proj2 (Z.ltb_lt 0 (Z.of_nat q * P))) by nia. cbn [orb].
  rewrite <- app_assoc. rewrite st_run_app, stage_hold; [|nia|intros i Hi; unfold tm; nia]. cbn [app].
  cbn [st_run app]. unfold st_cycle at 1. rewrite push_all. cbn [app st_eval]. rewrite (proj2 (Z.leb_le 0 (Z.of_nat q * P))) by nia.
  rewrite <- map_app. replace (tm (1 + length l1)%nat) with (Z.of_nat q * P) by (unfold tm; f_equal; lia).
  pose proof (update_upto A (Z.of_nat q * P) [x] (concat l1 ++ xs) ltac:(nia)) as U. cbn [map app] in U. rewrite U.
  set (ys := concat l1 ++ xs). set (k := S (1 + length l1)).
  assert (F : st_run d tm k (repeat [] (S q)) (map (fun y => (-1, y)) ys) = Some ([], repeat [] q ++ [ys])).
  { destruct ys as [|y ys].
    - assert (Z0 : forall n k, st_run d tm k (repeat [] n) [] = Some ([], repeat (@nil A) n)).
      { induction n as [|n IH]; intros k0; cbn [repeat st_run]; auto. unfold st_cycle. cbn [fold_left st_eval st_update]. rewrite IH. reflexivity. }
      cbn [map]. rewrite Z0. f_equal. f_equal. change [[]] with (repeat (@nil A) 1). rewrite <- repeat_app. f_equal. lia.
    - replace (S q) with (1 + (q - 1) + 1)%nat by lia. rewrite repeat_app, repeat_app. cbn [repeat app].
      cbn [st_run]. unfold st_cycle at 1. cbn [fold_left].
      rewrite eval_new. cbn [map st_update]. assert (K : tm k + d - 1 = tm k + Z.of_nat q * P) by (unfold d; lia). rewrite K.
      assert (K0 : 0 <= tm k) by (unfold tm; nia).
      rewrite (proj2 (Z.ltb_ge (tm k + Z.of_nat q * P) 0)) by nia. rewrite (proj2 (Z.ltb_lt (tm k) (tm k + Z.of_nat q * P))) by nia. cbn [orb].
      rewrite st_run_app, stage_hold; [|nia|intros i Hi; rewrite repeat_length in Hi; unfold tm, k in *; nia].
      rewrite R, D, repeat_length. cbn [map]. rewrite app_nil_r. cbn [st_run]. unfold st_cycle. cbn [fold_left st_eval].
      rewrite (proj2 (Z.leb_le 0 (tm k + Z.of_nat q * P))) by nia.
      replace (tm (S k + (q - 1))%nat) with (tm k + Z.of_nat q * P) by (unfold tm; nia).
      pose proof (update_done A (tm k + Z.of_nat q * P) (y :: ys) ltac:(nia)) as V. cbn [map] in V. rewrite V. f_equal. f_equal.
      replace q with (1 + (q - 1))%nat at 2 by lia. rewrite repeat_app. reflexivity. }
  rewrite F. rewrite N. f_equal. f_equal. replace q with (1 + length l1)%nat at 2 by lia. rewrite repeat_app. cbn [repeat app]. reflexivity.
Qed.

Lemma wrap_small : forall x, - 2 ^ 31 <= x < 2 ^ 31 -> wrap32 x = x.
Proof. intros x H. unfold wrap32. rewrite Z.mod_small; lia. Qed.
Lemma wrap_high : forall x, 2 ^ 31 <= x < 2 ^ 32 + 2 ^ 31 -> wrap32 x = x - 2 ^ 32.
Proof. intros x H. unfold wrap32. replace (x + 2 ^ 31) with (x - 2 ^ 31 + 1 * 2 ^ 32) by lia. rewrite Z.mod_add by lia. rewrite Z.mod_small; lia. Qed.

(** A flit whose time is far ahead blocks the channel. *)
Lemma blocked : forall A d tm (l : list (list (option A))) k u x r s, (forall i, (k <= i < k + length l)%nat -> tm i < u) -> ch_in s = None -> ch_q s = (u, x) :: r ->
  snd (ch_run d tm k l s) = map (fun _ => None) l.
Proof.
  intros A d tm l. induction l as [|xs l IH]; intros k u x r s H Hi Q; cbn [ch_run]; auto.
  assert (C : ch_out (ch_cycle d (tm k) xs s) = None /\ exists r', ch_q (ch_cycle d (tm k) xs s) = (u, x) :: r').
  { unfold ch_cycle. rewrite sends by auto. unfold ch_read. cbn [ch_in ch_q]. rewrite Q. assert (T : tm k < u) by (apply H; cbn [length]; lia).
    destruct (eff xs); unfold ch_write; cbn [ch_q app]; rewrite (proj2 (Z.ltb_lt _ _) T); cbn [ch_out ch_q]; eauto. }
  destruct C as [C1 [r' C2]]. specialize (IH (S k) u x r' (ch_cycle d (tm k) xs s) ltac:(intros i Hi'; apply H; cbn [length]; lia) (cycle_in _ _ _ _ _ Hi) C2).
  destruct (ch_run d tm (S k) l (ch_cycle d (tm k) xs s)) as [s2 os]. cbn [snd map] in *. rewrite C1, IH. reflexivity.
Qed.
