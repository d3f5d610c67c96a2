(** The routing tables of networks described in a file lead along shortest paths. *)
From Coq Require Import ZArith Arith Bool List Lia.
From Verif Require Import Fupd BufferModel RouteModel ChannelModel IqRouterModel NetModel AnyNetModel AnyNetSpec.
Import ListNotations.
Open Scope nat_scope.

Lemma nm_in : forall A k (m : nmap A) x, nm_get k m = Some x -> In (k, x) m.
Proof. intros A k m x. induction m as [|[j y] m IH]; cbn [nm_get]; [discriminate|]. destruct (Nat.eqb_spec j k) as [->|N]; intros E; [injection E as ->; left; auto|right; auto]. Qed.
Lemma nm_of_in : forall A k (m : nmap A) x, NoDup (map fst m) -> In (k, x) m -> nm_get k m = Some x.
Proof.
  intros A k m x. induction m as [|[j y] m IH]; cbn [nm_get map fst]; intros N H; [destruct H|]. inversion N as [|? ? N1 N2]; subst. destruct H as [E|H].
  - injection E as -> ->. rewrite Nat.eqb_refl. reflexivity.
  - destruct (Nat.eqb_spec j k) as [->|]; [|auto]. exfalso. apply N1. apply in_map_iff. exists (k, x). auto.
Qed.
Lemma nm_none : forall A k (m : nmap A), nm_get k m = None <-> ~ In k (map fst m).
Proof.
  intros A k m. induction m as [|[j y] m IH]; cbn [nm_get map fst]; [tauto|]. destruct (Nat.eqb_spec j k) as [->|N]; [split; [discriminate|intros H; exfalso; apply H; left; auto]|].
  rewrite IH. split; intros H X; apply H; [destruct X; [congruence|auto]|right; auto].
Qed.
Lemma nm_key : forall A k (m : nmap A), In k (map fst m) <-> exists x, nm_get k m = Some x.
Proof. intros A k m. destruct (nm_get k m) as [x|] eqn:E; [|apply nm_none in E]; split; intros H; eauto; try tauto. - apply nm_in in E. apply in_map_iff. exists (k, x). auto. - destruct H. discriminate. Qed.

Lemma road_app : forall F a b c x y, road F a b x -> road F b c y -> road F a c (x + y)%Z.
Proof. intros F a b c x y R. induction R as [a Ha|a b' c' x' y' E R IH]; intros R2; [exact R2|]. rewrite <- Z.add_assoc. eapply road_cons; eauto. Qed.

Lemma pick_spec : forall d l best cand,
  match pick d best cand l with
  | Some m => (cand = Some m /\ forall i, In i l -> (best <= d i)%Z) \/ (In m l /\ (d m < best)%Z /\ forall i, In i l -> (d m <= d i)%Z)
  | None => cand = None /\ forall i, In i l -> (best <= d i)%Z
  end.
Proof.
  intros d l. induction l as [|i l IH]; intros best cand; cbn [pick].
  - destruct cand; [left|]; split; auto; intros i [].
  - destruct (Z.ltb_spec (d i) best) as [L|L].
    + specialize (IH (d i) (Some i)). destruct (pick d (d i) (Some i) l) as [m|]; [|destruct IH; discriminate]. right. destruct IH as [[E H]|[H1 [H2 H3]]].
      * injection E as <-. split; [left; auto|]. split; auto. intros j [<-|Hj]; auto. lia.
      * split; [right; auto|]. split; [lia|]. intros j [<-|Hj]; [lia|auto].
    + specialize (IH best cand). destruct (pick d best cand l) as [m|].
      * destruct IH as [[E H]|[H1 [H2 H3]]]; [left; split; auto; intros j [<-|Hj]; auto|right]. split; [right; auto|]. split; auto. intros j [<-|Hj]; [lia|auto].
      * destruct IH as [E H]. split; auto. intros j [<-|Hj]; auto.
Qed.
Lemma relax_spec : forall m l d p, NoDup (map fst l) -> (0 <= d m)%Z -> (forall u x, In (u, x) l -> 1 <= x /\ d m + x <= max_int)%Z ->
  exists d' p', relax m l d p = Some (d', p') /\ forall u,
    (exists x, nm_get u l = Some x /\ (d m + x < d u)%Z /\ d' u = (d m + x)%Z /\ p' u = Some m) \/ (d' u = d u /\ p' u = p u /\ forall x, nm_get u l = Some x -> (d u <= d m + x)%Z).
Proof.
  intros m l. induction l as [|[u0 x0] l IH]; intros d p N H0 H; cbn [relax].
  - exists d, p. split; auto. intros u. right. split; auto. split; auto. discriminate.
  - inversion N as [|? ? N1 N2]; subst. cbn [fst] in N1. destruct (H u0 x0 (or_introl eq_refl)) as [H1 H2].
    replace ((d m + x0 <? - max_int - 1) || (max_int <? d m + x0))%Z%bool with false by (symmetry; apply orb_false_iff; split; apply Z.ltb_ge; unfold max_int in *; lia).
    assert (A : forall u x, u <> u0 -> nm_get u ((u0, x0) :: l) = Some x <-> nm_get u l = Some x) by (intros u x Nu; cbn [nm_get]; destruct (Nat.eqb_spec u0 u); [congruence|tauto]).
    assert (A0 : nm_get u0 ((u0, x0) :: l) = Some x0) by (cbn [nm_get]; rewrite Nat.eqb_refl; reflexivity).
    assert (A1 : nm_get u0 l = None) by (apply nm_none; auto).
    destruct (Z.ltb_spec (d m + x0) (d u0)) as [L|L].
    + assert (Em : fupd d u0 (d m + x0)%Z m = d m) by (unfold fupd; destruct (Nat.eqb_spec m u0); [subst; lia|auto]).
      destruct (IH (fupd d u0 (d m + x0)%Z) (fupd p u0 (Some m)) N2) as [d' [p' [E S]]]; [lia|intros u x Hu; rewrite Em; apply (H u x); right; auto|]. exists d', p'. split; auto. intros u. specialize (S u). rewrite Em in S.
      destruct (Nat.eq_dec u u0) as [->|Nu].
      * left. exists x0. split; auto. split; auto. destruct S as [[x [S _]]|[S1 [S2 _]]]; [congruence|]. rewrite S1, S2. unfold fupd. rewrite Nat.eqb_refl. auto.
      * unfold fupd in S. destruct (Nat.eqb_spec u u0); [congruence|]. destruct S as [[x [S1 [S2 [S3 S4]]]]|[S1 [S2 S3]]].
        -- left. exists x. split; [apply A; auto|]. auto.
        -- right. split; auto. split; auto. intros x Ex. apply S3. apply (A u x n). exact Ex.
    + destruct (IH d p N2 H0) as [d' [p' [E S]]]; [intros u x Hu; apply (H u x); right; auto|]. exists d', p'. split; auto. intros u. destruct (S u) as [[x [S1 [S2 [S3 S4]]]]|[S1 [S2 S3]]].
      * left. exists x. split; [apply A; [intros ->; congruence|auto]|auto].
      * right. split; auto. split; auto. intros x Ex. destruct (Nat.eq_dec u u0) as [->|Nu]; [rewrite A0 in Ex; injection Ex as <-; lia|apply S3; apply (A u x Nu); exact Ex].
Qed.

Section Dj.
Variables (F : anyfile) (W : Z) (s : nat).
Hypothesis CL : clean F.
Hypothesis HW : forall a b x, lat F a b = Some x -> (x <= W)%Z.
Hypothesis HW0 : (0 <= W)%Z.
Hypothesis HS : (Z.of_nat (an_size F) * W < max_int)%Z.
Let n := an_size F.

Lemma lat_lt : forall a b x, lat F a b = Some x -> a < n /\ b < n.
Proof.
  assert (A : forall a b x, lat F a b = Some x -> a < n).
  { intros a b x E. unfold lat, adj, sub in E. destruct (nm_get a (an_link F)) as [l|] eqn:El; [|discriminate]. assert (I : In a (map fst (an_link F))) by (apply nm_key; eauto).
    rewrite (cl_link F CL) in I. apply in_seq in I. unfold n. lia. }
  intros a b x E. split; [eapply A; eauto|]. destruct (lat F b a) as [y|] eqn:E2; [eapply A; eauto|]. exfalso. apply (cl_sym F CL a b); congruence.
Qed.
Lemma road_ends : forall a b x, road F a b x -> a < n /\ b < n /\ (0 <= x)%Z.
Proof.
  intros a b x R. induction R as [a Ha|a b c x y E R IH]; [unfold n; lia|]. destruct IH as [I1 [I2 I3]]. pose proof (cl_pos F CL _ _ _ E). destruct (lat_lt _ _ _ E). lia.
Qed.

Hypothesis Hs : s < an_size F.
Record DI (k : nat) (st : dj) : Prop := {
  di_nd : NoDup (d_left st);
  di_left : forall i, In i (d_left st) -> i < n;
  di_s : d_dist st s = 0%Z /\ d_prev st s = None;
  di_prev : forall i, i <> s -> (d_dist st i = max_int /\ d_prev st i = None) \/
    (exists p x, d_prev st i = Some p /\ p < n /\ ~ In p (d_left st) /\ lat F p i = Some x /\ d_dist st i = (d_dist st p + x)%Z);
  di_size : forall i, (0 <= d_dist st i)%Z /\ ((d_dist st i <= Z.of_nat k * W)%Z \/ d_dist st i = max_int);
  di_order : forall v u, v < n -> ~ In v (d_left st) -> In u (d_left st) -> (d_dist st v <= d_dist st u)%Z;
  di_relaxed : forall v u x, v < n -> ~ In v (d_left st) -> lat F v u = Some x -> (d_dist st u <= d_dist st v + x)%Z;
  di_done : forall v, v < n -> ~ In v (d_left st) -> (d_dist st v < max_int)%Z }.

Lemma di0 : DI 0 (dj0 F s).
Proof.
  assert (A : forall i, i < n -> In i (d_left (dj0 F s))) by (intros i Hi; apply in_seq; unfold n in Hi; lia).
  constructor.
  - apply seq_NoDup.
  - intros i Hi. apply in_seq in Hi. unfold n. lia.
  - cbn [dj0 d_dist d_prev]. unfold fupd. rewrite Nat.eqb_refl. auto.
  - intros i Hi. left. cbn [dj0 d_dist d_prev]. unfold fupd. destruct (Nat.eqb_spec i s); [congruence|auto].
  - intros i. cbn [dj0 d_dist]. unfold fupd. destruct (Nat.eqb_spec i s); [lia|]. split; [unfold max_int; lia|auto].
  - intros v u Hv N. exfalso. auto.
  - intros v u x Hv N. exfalso. auto.
  - intros v Hv N. exfalso. auto.
Qed.
Lemma di_step : forall k st m, DI k st -> k < n -> pick (d_dist st) max_int None (d_left st) = Some m ->
  exists st', dj_step F st = Some st' /\ DI (S k) st' /\ d_left st' = filter (fun i => negb (Nat.eqb i m)) (d_left st) /\ In m (d_left st).
Proof.
  intros k st m D Hk E. unfold dj_step. rewrite E. pose proof (pick_spec (d_dist st) (d_left st) max_int None) as Pk. rewrite E in Pk. destruct Pk as [[X _]|[P1 [P2 P3]]]; [discriminate|].
  pose proof (di_left k st D m P1) as Hm. destruct (di_size k st D m) as [M0 M1]. destruct M1 as [M1|M1]; [|lia].
  assert (KW : ((Z.of_nat k + 1) * W < max_int)%Z) by (unfold n in *; nia).
  assert (RL : forall u x, In (u, x) (adj F m) -> (1 <= x /\ d_dist st m + x <= max_int)%Z).
  { intros u x Hu. assert (Eu : lat F m u = Some x) by (apply nm_of_in; auto; apply (cl_once F CL m)). pose proof (cl_pos F CL _ _ _ Eu). pose proof (HW _ _ _ Eu). split; auto. nia. }
  destruct (relax_spec m (adj F m) (d_dist st) (d_prev st) (proj2 (cl_once F CL m)) M0 RL) as [d' [p' [-> S]]]. eexists. split; [reflexivity|]. split; [|split; [reflexivity|exact P1]].
  assert (IN : forall i, In i (filter (fun i => negb (Nat.eqb i m)) (d_left st)) <-> In i (d_left st) /\ i <> m).
  { intros i. rewrite filter_In. destruct (Nat.eqb_spec i m); cbn; intuition congruence. }
  assert (LE : forall u, (d' u <= d_dist st u)%Z) by (intros u; destruct (S u) as [[x [_ [S1 [-> _]]]]|[-> _]]; lia).
  assert (OLD : forall v, v < n -> ~ In v (d_left st) -> d' v = d_dist st v /\ p' v = d_prev st v).
  { intros v Hv N. destruct (S v) as [[x [S0 [S1 _]]]|[S1 [S2 _]]]; auto. exfalso. pose proof (di_order k st D v m Hv N P1). pose proof (cl_pos F CL _ _ _ S0). lia. }
  assert (OLDm : d' m = d_dist st m /\ p' m = d_prev st m).
  { destruct (S m) as [[x [S0 [S1 _]]]|[S1 [S2 _]]]; auto. exfalso. pose proof (cl_pos F CL _ _ _ S0). lia. }
  assert (VIS : forall v, v < n -> ~ (In v (d_left st) /\ v <> m) -> v = m \/ ~ In v (d_left st)) by (intros v Hv N; destruct (Nat.eq_dec v m); auto; right; tauto).
  assert (OLDv : forall v, v < n -> ~ (In v (d_left st) /\ v <> m) -> d' v = d_dist st v) by (intros v Hv N; destruct (VIS v Hv N) as [->|N']; [apply OLDm|apply OLD; auto]).
  constructor; cbn [d_dist d_prev d_left].
  - apply NoDup_filter. apply (di_nd k st D).
  - intros i Hi. apply IN in Hi. apply (di_left k st D). tauto.
  - destruct (di_s k st D) as [A B]. destruct (S s) as [[x [S0 [S1 _]]]|[S1 [S2 _]]].
    + exfalso. pose proof (cl_pos F CL _ _ _ S0). lia.
    + rewrite S1, S2. auto.
  - intros i Hi. destruct (S i) as [[x [S0 [S1 [S2 S3]]]]|[S1 [S2 S3]]].
    + right. exists m, x. split; auto. split; auto. split; [rewrite IN; tauto|]. split; auto. rewrite (proj1 OLDm). auto.
    + rewrite S1, S2. destruct (di_prev k st D i Hi) as [X|[p [x [Q1 [Q2 [Q3 [Q4 Q5]]]]]]]; [left; auto|]. right. exists p, x. split; auto. split; auto. split; [rewrite IN; tauto|]. split; auto.
      rewrite (proj1 (OLD p Q2 Q3)). auto.
  - intros i. destruct (di_size k st D i) as [B1 B2]. destruct (S i) as [[x [S0 [S1 [S2 S3]]]]|[S1 [S2 S3]]].
    + rewrite S2. pose proof (cl_pos F CL _ _ _ S0). pose proof (HW _ _ _ S0). split; [lia|]. left. rewrite Nat2Z.inj_succ. nia.
    + rewrite S1. split; auto. destruct B2 as [B2|B2]; auto. left. rewrite Nat2Z.inj_succ. nia.
  - intros v u Hv N Hu. rewrite IN in N, Hu. destruct Hu as [Hu Um]. rewrite (OLDv v Hv N).
    assert (L : (d_dist st v <= d_dist st m)%Z) by (destruct (VIS v Hv N) as [->|N']; [lia|apply (di_order k st D); auto]).
    destruct (S u) as [[x [S0 [S1 [S2 S3]]]]|[S1 [S2 S3]]]; [pose proof (cl_pos F CL _ _ _ S0); lia|]. rewrite S1. pose proof (P3 u Hu). lia.
  - intros v u x Hv N Ex. rewrite IN in N. rewrite (OLDv v Hv N). destruct (VIS v Hv N) as [->|N'].
    + destruct (S u) as [[y [S0 [S1 [S2 S3]]]]|[S1 [S2 S3]]]; [rewrite S2; unfold lat in Ex; rewrite S0 in Ex; injection Ex as ->; lia|]. rewrite S1. apply S3. exact Ex.
    + pose proof (di_relaxed k st D v u x Hv N' Ex). pose proof (LE u). lia.
  - intros v Hv N. rewrite IN in N. rewrite (OLDv v Hv N). destruct (VIS v Hv N) as [->|N']; [lia|apply (di_done k st D); auto].
Qed.
Lemma filter_len : forall m l, NoDup l -> In m l -> S (length (filter (fun i => negb (Nat.eqb i m)) l)) = length l.
Proof.
  intros m l. induction l as [|i l IH]; intros N H; [destruct H|]. inversion N as [|? ? N1 N2]; subst. cbn [filter]. destruct H as [->|H].
  - rewrite Nat.eqb_refl. cbn [negb length]. f_equal. clear -N1. induction l as [|j l IH]; [reflexivity|]. cbn [filter]. destruct (Nat.eqb_spec j m) as [->|]; [exfalso; apply N1; left; auto|]. cbn. f_equal. apply IH. intros X. apply N1. right. auto.
  - destruct (Nat.eqb_spec i m) as [->|]; [contradiction|]. cbn [negb length]. f_equal. auto.
Qed.
(** As long as something that can be reached is left, there is a candidate. *)
Lemma frontier : forall l a b x, road F a b x -> ~ In a l -> In b l -> exists v u y, ~ In v l /\ In u l /\ lat F v u = Some y.
Proof.
  intros l a b x R. induction R as [a Ha|a b c x y E R IH]; intros Na Hb; [contradiction|]. destruct (in_dec Nat.eq_dec b l) as [I|N]; [exists a, b, x; auto|auto].
Qed.
Lemma candidate : forall k st i x, DI k st -> k < n -> In i (d_left st) -> road F s i x -> exists m, pick (d_dist st) max_int None (d_left st) = Some m.
Proof.
  intros k st i x D Hk Hi R. pose proof (pick_spec (d_dist st) (d_left st) max_int None) as Pk. destruct (pick (d_dist st) max_int None (d_left st)) as [m|]; [eauto|]. exfalso. destruct Pk as [_ Pk].
  destruct (in_dec Nat.eq_dec s (d_left st)) as [I|N].
  - specialize (Pk s I). rewrite (proj1 (di_s k st D)) in Pk. unfold max_int in Pk. lia.
  - destruct (frontier _ _ _ _ R N Hi) as [v [u [y [Nv [Hu Ey]]]]]. destruct (lat_lt _ _ _ Ey) as [Lv _]. pose proof (di_relaxed k st D v u y Lv Nv Ey) as Re. pose proof (Pk u Hu). pose proof (HW _ _ _ Ey).
    pose proof (di_done k st D v Lv Nv). destruct (di_size k st D v) as [_ [B|B]]; [|lia]. unfold n in *. nia.
Qed.
Lemma dj_all : forall j k st, DI k st -> length (d_left st) = j -> k + j = n -> (forall i, i < n -> exists x, road F s i x) -> exists st', dj_run F j st = Some st' /\ d_left st' = [] /\ DI n st'.
Proof.
  intros j. induction j as [|j IH]; intros k st D L Hk C.
  - exists st. split; [reflexivity|]. destruct (d_left st); [|discriminate]. split; auto. replace n with k by lia. auto.
  - destruct (d_left st) as [|i l] eqn:El; [discriminate|]. cbn [dj_run]. rewrite El. destruct (C i) as [x R]; [apply (di_left k st D); rewrite El; left; auto|].
    destruct (candidate k st i x D ltac:(lia) ltac:(rewrite El; left; auto) R) as [m Em]. destruct (di_step k st m D ltac:(lia) Em) as [st' [-> [D' [E' Hm]]]]. apply (IH (S k)); auto; [|lia].
    rewrite E'. pose proof (filter_len m (d_left st) (di_nd k st D) Hm) as FL. rewrite El in FL at 2. cbn [length] in FL, L. lia.
Qed.

(** The result. *)
Section End.
Variable st : dj.
Hypothesis D : DI n st.
Hypothesis L : d_left st = [].
Hypothesis CN : forall i, i < n -> exists x, road F s i x.
Lemma dist_le : forall a b x, road F a b x -> (d_dist st b <= d_dist st a + x)%Z.
Proof.
  intros a b x R. induction R as [a Ha|a b c x y E R IH]; [lia|]. destruct (lat_lt _ _ _ E) as [Ha _]. pose proof (di_relaxed n st D a b x Ha ltac:(rewrite L; auto) E). lia.
Qed.
Lemma dist_min : forall i x, road F s i x -> (d_dist st i <= x)%Z.
Proof. intros i x R. pose proof (dist_le _ _ _ R). rewrite (proj1 (di_s n st D)) in H. lia. Qed.
Lemma prev_some : forall i, i < n -> i <> s -> exists p x, d_prev st i = Some p /\ p < n /\ lat F p i = Some x /\ d_dist st i = (d_dist st p + x)%Z.
Proof.
  intros i Hi N. destruct (di_prev n st D i N) as [[E _]|[p [x [E1 [E2 [_ [E3 E4]]]]]]]; [|eauto 6]. exfalso. pose proof (di_done n st D i Hi ltac:(rewrite L; auto)). lia.
Qed.
(** Walking back finds a neighbour; the rest of the way is as long as it should be. *)
Lemma walk_ok : forall fuel i V, NoDup V -> (forall v, In v V -> v < n /\ (d_dist st i < d_dist st v)%Z) -> n <= length V + fuel -> i < n -> i <> s ->
  exists q x y, walk F fuel (d_prev st) s i = Some q /\ lat F s q = Some x /\ road F q i y /\ d_dist st i = (x + y)%Z.
Proof.
  intros fuel. induction fuel as [|fuel IH]; intros i V N H Lv Hi Ns.
  - exfalso. assert (N' : NoDup (i :: V)) by (constructor; auto; intros X; destruct (H i X); lia). assert (Inc : incl (i :: V) (seq 0 n)) by (intros v [<-|Hv]; apply in_seq; [lia|destruct (H v Hv); lia]).
    pose proof (NoDup_incl_length N' Inc) as X. rewrite seq_length in X. cbn [length] in X. lia.
  - destruct (prev_some i Hi Ns) as [p [x [E1 [E2 [E3 E4]]]]]. cbn [walk]. rewrite E1. destruct (Nat.eqb_spec p s) as [->|Np].
    + exists i, x, 0%Z. split; auto. split; auto. split; [constructor; exact Hi|]. rewrite E4, (proj1 (di_s n st D)). lia.
    + pose proof (cl_pos F CL _ _ _ E3) as Px. destruct (nm_get p (adj F i)) as [y0|] eqn:Ey; [|exfalso; apply (cl_sym F CL p i); [congruence|exact Ey]].
      destruct (IH p (i :: V)) as [q [x1 [y1 [A1 [A2 [A3 A4]]]]]]; auto.
      * constructor; auto. intros X. destruct (H i X). lia.
      * intros v [<-|Hv]; [split; auto; lia|]. destruct (H v Hv). split; auto. lia.
      * cbn [length]. lia.
      * exists q, x1, (y1 + (x + 0))%Z. split; auto. split; auto. split; [eapply road_app; eauto; eapply road_cons; eauto; constructor; exact Hi|lia].
Qed.
End End.
End Dj.

Lemma index_some : forall x l, In x l -> exists i, index x l = Some i.
Proof. intros x l. induction l as [|y l IH]; intros H; [destruct H|]. cbn [index]. destruct (Nat.eqb_spec y x); [eauto|]. destruct H as [H|H]; [congruence|]. destruct (IH H) as [i ->]. cbn. eauto. Qed.
Lemma index_nth : forall x l i, index x l = Some i -> nth_error l i = Some x.
Proof.
  intros x l. induction l as [|y l IH]; intros i E; cbn [index] in E; [discriminate|]. destruct (Nat.eqb_spec y x); [injection E as <-; cbn; congruence|].
  destruct (index x l) as [j|]; [|discriminate]. injection E as <-. cbn. auto.
Qed.

Section Tables.
Variable F : anyfile.
Hypothesis CL : clean F.
Hypothesis SH : short F.
Hypothesis CN : connected F.
Let n := an_size F.

Lemma node_router : forall m, m < an_nodes F -> exists r, nm_get m (an_node F) = Some r /\ r < n /\ In m (locals F r).
Proof.
  intros m Hm. assert (I : In m (map fst (an_node F))) by (rewrite (cl_seq F CL); apply in_seq; lia). apply nm_key in I. destruct I as [r E]. exists r. split; auto. apply (cl_node F CL) in E. split; auto.
  unfold locals, sub in E. destruct (nm_get r (an_local F)) as [l|] eqn:El; [|destruct E]. assert (I : In r (map fst (an_local F))) by (apply nm_key; eauto). rewrite (cl_local F CL) in I. apply in_seq in I. unfold n. lia.
Qed.
Lemma nth_combine : forall (l : list nat) a k m, nth_error l k = Some m -> In (m, a + k) (combine l (seq a (length l))).
Proof.
  intros l. induction l as [|y l IH]; intros a k m E; [destruct k; discriminate|]. cbn [length seq combine]. destruct k as [|k]; cbn in E; [injection E as ->; left; f_equal; lia|].
  right. replace (a + S k) with (S a + k) by lia. apply IH. auto.
Qed.
Lemma combine_nth : forall (l : list nat) a m p, In (m, p) (combine l (seq a (length l))) -> exists k, p = a + k /\ nth_error l k = Some m.
Proof.
  intros l. induction l as [|y l IH]; intros a m p H; [destruct H|]. cbn [length seq combine] in H. destruct H as [E|H]; [injection E as <- <-; exists 0; split; [lia|auto]|].
  destruct (IH _ _ _ H) as [k [E1 E2]]. exists (S k). split; [lia|auto].
Qed.
Lemma filled : forall s, s < n -> exists l, route F s = Some l /\ forall m p, In (m, p) l <-> exists i, i < n /\ In m (locals F i) /\
  ((i = s /\ nth_error (locals F s) p = Some m) \/
   (i <> s /\ exists q k x y, p = length (locals F s) + k /\ nth_error (map fst (adj F s)) k = Some q /\ walk F n (match dj_run F n (dj0 F s) with Some st => d_prev st | None => fun _ => None end) s i = Some q /\
      lat F s q = Some x /\ road F q i y /\ road F s i (x + y)%Z /\ forall z, road F s i z -> (x + y <= z)%Z)).
Proof.
  intros s Hs. destruct SH as [W [HW [HW0 HS]]].
  destruct (dj_all F W s CL HW HW0 HS Hs n 0 (dj0 F s) (di0 F W s Hs)) as [st [E [El D]]]; [apply seq_length|reflexivity|intros i Hi; apply CN; auto|].
  unfold route. fold n. rewrite E, El.
  set (Q := fun i m p => In m (locals F i) /\ ((i = s /\ nth_error (locals F s) p = Some m) \/
   (i <> s /\ exists q k x y, p = length (locals F s) + k /\ nth_error (map fst (adj F s)) k = Some q /\ walk F n (d_prev st) s i = Some q /\ lat F s q = Some x /\ road F q i y /\ road F s i (x + y)%Z /\ forall z, road F s i z -> (x + y <= z)%Z))).
  assert (EN : forall i, i < n -> exists l, entries F (d_prev st) s i = Some l /\ forall m p, In (m, p) l <-> Q i m p).
  { intros i Hi. unfold entries. destruct (Nat.eq_dec i s) as [->|Ni].
    - rewrite (proj2 (di_s F W s n st D)), Nat.eqb_refl. eexists. split; [reflexivity|]. intros m p. split.
      + intros H. apply combine_nth in H. destruct H as [k [-> H]]. split; [eapply nth_error_In; eauto|auto].
      + intros [_ [[_ H]|[X _]]]; [|congruence]. apply (nth_combine _ 0 p m H).
    - destruct (prev_some F W s Hs st D El i Hi Ni) as [p0 [x0 [-> _]]].
      destruct (walk_ok F W s CL Hs st D El n i []) as [q [x [y [Ew [Ex [R Ed]]]]]]; auto; [constructor|intros v []|]. fold n. rewrite Ew.
      assert (R' : road F s i (x + y)) by (eapply road_cons; eauto). assert (Mn : forall z, road F s i z -> (x + y <= z)%Z) by (intros z Rz; rewrite <- Ed; apply (dist_min F W s CL Hs st D El); auto).
      assert (Iq : In q (map fst (adj F s))) by (apply nm_key; eauto). destruct (index_some _ _ Iq) as [k Ek]. rewrite Ek. pose proof (index_nth _ _ _ Ek) as Nk. eexists. split; [reflexivity|]. intros m p. rewrite in_map_iff. split.
      + intros [m' [Em Hm]]. injection Em as -> <-. split; auto. right. split; auto. exists q, k, x, y. auto 10.
      + intros [Hm [[X _]|[_ [q' [k' [x' [y' [-> [A1 [A2 _]]]]]]]]]]; [congruence|]. exists m. split; auto. f_equal. f_equal. rewrite Ew in A2. injection A2 as <-.
        apply (proj1 (NoDup_nth_error (map fst (adj F s))) (proj2 (cl_once F CL s))); [apply nth_error_Some; congruence|congruence]. }
  assert (FI : forall is, (forall i, In i is -> i < n) -> exists l, fill F (d_prev st) s is = Some l /\ forall m p, In (m, p) l <-> exists i, In i is /\ Q i m p).
  { intros is. induction is as [|i is IH]; intros H; cbn [fill].
    - exists []. split; auto. intros m p. split; [intros []|intros [i [[] _]]].
    - destruct (EN i (H i (or_introl eq_refl))) as [l1 [-> H1]]. destruct IH as [l2 [-> H2]]; [intros j Hj; apply H; right; auto|]. exists (l1 ++ l2). split; auto. intros m p. rewrite in_app_iff, H1, H2. split.
      + intros [X|[j [X Y]]]; [exists i; split; [left|]; auto|exists j; split; [right|]; auto].
      + intros [j [[<-|X] Y]]; [auto|right; eauto]. }
  destruct (FI (seq 0 n)) as [l [-> H]]; [intros i Hi; apply in_seq in Hi; lia|]. exists l. split; auto. intros m p. rewrite H. unfold Q. split; intros [i [X Y]]; exists i; [apply in_seq in X|]; split; auto; [lia|apply in_seq; lia].
Qed.
(** The entry for a node. *)
Lemma table_spec : forall s m R, s < n -> nm_get m (an_node F) = Some R -> R < n ->
  (s = R /\ exists p, table F s m = Some p /\ nth_error (locals F s) p = Some m) \/
  (s <> R /\ exists q k x y, table F s m = Some (length (locals F s) + k) /\ nth_error (map fst (adj F s)) k = Some q /\ lat F s q = Some x /\ road F q R y /\ road F s R (x + y)%Z /\ forall z, road F s R z -> (x + y <= z)%Z).
Proof.
  intros s m R Hs ER HR. destruct (filled s Hs) as [l [E H]]. unfold table. rewrite E. apply (cl_node F CL) in ER.
  assert (ONE : forall i, In m (locals F i) -> i = R) by (intros i Hi; apply (cl_node F CL) in Hi; apply (cl_node F CL) in ER; congruence).
  assert (EX : exists p, In (m, p) l).
  { destruct (Nat.eq_dec s R) as [->|Ns].
    - apply In_nth_error in ER. destruct ER as [p Ep]. exists p. apply H. exists R. split; auto. split; [eapply nth_error_In; eauto|auto].
    - destruct SH as [W [HW [HW0 HS]]]. destruct (dj_all F W s CL HW HW0 HS Hs n 0 (dj0 F s) (di0 F W s Hs)) as [st [E' [El D]]]; [apply seq_length|reflexivity|intros i Hi; apply CN; auto|].
      destruct (walk_ok F W s CL Hs st D El n R []) as [q [x [y [Ew [Ex [Rd Ed]]]]]]; auto; [constructor|intros v []|].
      assert (Iq : In q (map fst (adj F s))) by (apply nm_key; eauto). apply In_nth_error in Iq. destruct Iq as [k Ek]. exists (length (locals F s) + k). apply H. exists R. split; auto. split; auto. right. split; auto.
      exists q, k, x, y. rewrite E'. split; auto. split; auto. split; auto. split; auto. split; auto. split; [eapply road_cons; eauto|]. intros z Rz. rewrite <- Ed. apply (dist_min F W s CL Hs st D El); auto. }
  destruct EX as [p0 H0]. destruct (find (fun e => Nat.eqb (fst e) m) (rev l)) as [[m' p]|] eqn:Ef.
  - apply find_some in Ef. destruct Ef as [I Em]. apply Nat.eqb_eq in Em. cbn [fst] in Em. subst m'. apply in_rev in I. apply H in I. destruct I as [i [Hi [Im X]]]. rewrite (ONE i Im) in *. cbn [option_map snd].
    destruct X as [[-> X]|[Ns [q [k [x [y [-> [A1 [_ A3]]]]]]]]].
    + left. split; auto. exists p. auto.
    + right. split; auto. exists q, k, x, y. auto.
  - exfalso. pose proof (find_none _ _ Ef (m, p0)) as N. cbn [fst] in N. rewrite Nat.eqb_refl in N. discriminate N. apply -> in_rev. auto.
Qed.
End Tables.

(** ** Networks that are not connected *)
Lemma relax_from : forall m l d p d' p', relax m l d p = Some (d', p') -> forall u, d' u = d u \/ In u (map fst l).
Proof.
  intros m l. induction l as [|[v x] l IH]; intros d p d' p' E u; cbn [relax] in E; [injection E as <- _; auto|]. destruct (_ || _)%bool; [discriminate|]. cbn [map fst In]. destruct (Z.ltb _ _).
  - destruct (IH _ _ _ _ E u) as [H|H]; auto. rewrite H. unfold fupd. destruct (Nat.eqb_spec u v); auto.
  - destruct (IH _ _ _ _ E u) as [H|H]; auto.
Qed.
Lemma never_left : forall F s i, (forall x, ~ road F s i x) -> s < an_size F -> (forall r, In r (map fst (an_link F)) -> r < an_size F) ->
  (forall a b, In b (map fst (adj F a)) -> b < an_size F) ->
  forall k st st', (forall u, u < an_size F -> (d_dist st u < max_int)%Z -> exists x, road F s u x) -> (forall u, In u (d_left st) -> u < an_size F) -> In i (d_left st) -> dj_run F k st = Some st' -> In i (d_left st').
Proof.
  intros F s i NR Hs HK HB k. induction k as [|k IH]; intros st st' J HL Hi E; cbn [dj_run] in E; [injection E as <-; auto|].
  destruct (d_left st) as [|a l] eqn:El; [destruct Hi|]. rewrite <- El in *. destruct (dj_step F st) as [st1|] eqn:E1; [|discriminate]. unfold dj_step in E1. pose proof (pick_spec (d_dist st) (d_left st) max_int None) as Pk.
  destruct (pick _ _ _ _) as [m|]; [|injection E1 as <-; eapply IH; eauto]. destruct Pk as [[X _]|[P1 [P2 P3]]]; [discriminate|]. destruct (relax _ _ _ _) as [[d p]|] eqn:Er; [|discriminate]. injection E1 as <-.
  destruct (J m (HL m P1) P2) as [x Rm].
  eapply IH; [| | |exact E]; cbn [d_dist d_left].
  - intros u Hu Hd. destruct (relax_from _ _ _ _ _ _ Er u) as [X|X]; [rewrite X in Hd; auto|]. apply nm_key in X. destruct X as [y Y]. exists (x + (y + 0))%Z. eapply road_app; eauto. eapply road_cons; [exact Y|]. constructor. auto.
  - intros u Hu. apply filter_In in Hu. apply HL. tauto.
  - apply filter_In. split; auto. destruct (Nat.eqb_spec i m) as [Em|Em]; auto. subst m. exfalso. eapply NR; eauto.
Qed.
