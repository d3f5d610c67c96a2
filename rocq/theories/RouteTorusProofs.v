From Coq Require Import ZArith Bool List Lia Arith Relations.
From Verif Require Import RouteModel RouteSpec RouteProofs RouteMeshProofs RoutePhaseProofs.
Import ListNotations.
Open Scope Z_scope.

(** ** One ring *)
Definition tdist (k x y : Z) : Z := Z.min ((x - y) mod k) ((y - x) mod k).

Lemma modsub : forall k a b, 0 <= a < k -> 0 <= b < k -> (a - b) mod k = if b <=? a then a - b else a - b + k.
Proof.
  intros k a b Ha Hb. destruct (Z.leb_spec b a); [apply Z.mod_small; lia|].
  symmetry. apply Z.mod_unique with (q := -1); lia.
Qed.

(** The order of the channels of a ring, for packets that may cross the dateline ([w]) or not. *)
Definition crank (k : Z) (rt w : bool) (x : Z) : Z :=
  let T := (k - 1) / 2 in
  if rt then (if w && (x <=? T) then x + k else x) else (if w && (T <? x) then 2 * k - 1 - x else k - 1 - x).

Definition dirok (k : Z) (rt w : bool) (x y : Z) : Prop :=
  let T := (k - 1) / 2 in
  if rt then 2 * ((y - x) mod k) <= k /\ (if w then (x <= T -> x <= y <= T) /\ (T < x -> x <= y \/ y <= T) else x <= y)
  else 2 * ((x - y) mod k) <= k /\ (if w then (T < x -> T < y <= x) /\ (x <= T -> y <= x \/ T < y) else y <= x).

Lemma half : forall k, 1 <= k -> 2 * ((k - 1) / 2) <= k - 1 < 2 * ((k - 1) / 2) + 2.
Proof. intros k H. pose proof (Z.div_mod (k - 1) 2 ltac:(lia)). pose proof (Z.mod_pos_bound (k - 1) 2 ltac:(lia)). lia. Qed.

Lemma crank_bound : forall k rt w x, 0 <= x < k -> 0 <= crank k rt w x < 2 * k.
Proof.
  intros k rt w x H. pose proof (half k ltac:(lia)). unfold crank.
  destruct rt, w; cbn [andb]; try lia; [destruct (x <=? _) eqn:E|destruct (_ <? x) eqn:E]; lia.
Qed.

Lemma step_right : forall k w x y, 0 <= x < k -> 0 <= y < k -> x <> y -> dirok k true w x y ->
  let x' := (x + 1) mod k in
  dirok k true w x' y /\ tdist k x' y = tdist k x y - 1 /\ (x' <> y -> crank k true w x < crank k true w x').
Proof.
  intros k w x y Hx Hy N D x'. pose proof (half k ltac:(lia)) as HF.
  assert (X' : x' = if x =? k - 1 then 0 else x + 1).
  { unfold x'. destruct (Z.eqb_spec x (k - 1)) as [->|]; [replace (k - 1 + 1) with (0 + 1 * k) by ring; rewrite Z.mod_add, Z.mod_0_l; lia|apply Z.mod_small; lia]. }
  assert (B' : 0 <= x' < k) by (rewrite X'; destruct (Z.eqb_spec x (k - 1)); lia).
  unfold dirok, tdist, crank in *. cbn zeta in *. set (T := (k - 1) / 2) in *. clearbody x'.
  rewrite !modsub in * by auto. destruct w; cbn [andb].
  - destruct D as [D1 [D2 D3]]. destruct (Z.eqb_spec x (k - 1)) as [E|E]; destruct (Z.leb_spec x y), (Z.leb_spec y x), (Z.leb_spec x' y), (Z.leb_spec y x'), (Z.leb_spec x T), (Z.leb_spec x' T);
      try lia; (split; [split; [lia|split; lia]|split; [lia|intros; lia]]).
  - destruct D as [D1 D2]. destruct (Z.eqb_spec x (k - 1)) as [E|E]; destruct (Z.leb_spec x y), (Z.leb_spec y x), (Z.leb_spec x' y), (Z.leb_spec y x'); try lia; (split; [split; lia|split; [lia|intros; lia]]).
Qed.

Lemma step_left : forall k w x y, 0 <= x < k -> 0 <= y < k -> x <> y -> dirok k false w x y ->
  let x' := (x - 1) mod k in
  dirok k false w x' y /\ tdist k x' y = tdist k x y - 1 /\ (x' <> y -> crank k false w x < crank k false w x').
Proof.
  intros k w x y Hx Hy N D x'. pose proof (half k ltac:(lia)) as HF.
  assert (X' : x' = if x =? 0 then k - 1 else x - 1).
  { unfold x'. destruct (Z.eqb_spec x 0) as [->|]; [replace (0 - 1) with ((k - 1) + (-1) * k) by ring; rewrite Z.mod_add, Z.mod_small; lia|apply Z.mod_small; lia]. }
  assert (B' : 0 <= x' < k) by (rewrite X'; destruct (Z.eqb_spec x 0); lia).
  unfold dirok, tdist, crank in *. cbn zeta in *. set (T := (k - 1) / 2) in *. clearbody x'.
  rewrite !modsub in * by auto. destruct w; cbn [andb].
  - destruct D as [D1 [D2 D3]]. destruct (Z.eqb_spec x 0) as [E|E]; destruct (Z.leb_spec x y), (Z.leb_spec y x), (Z.leb_spec x' y), (Z.leb_spec y x'), (Z.ltb_spec T x), (Z.ltb_spec T x');
      try lia; (split; [split; [lia|split; lia]|split; [lia|intros; lia]]).
  - destruct D as [D1 D2]. destruct (Z.eqb_spec x 0) as [E|E]; destruct (Z.leb_spec x y), (Z.leb_spec y x), (Z.leb_spec x' y), (Z.leb_spec y x'); try lia; (split; [split; lia|split; [lia|intros; lia]]).
Qed.

(** Which packets of a partition may cross the dateline. *)
Definition wkind (balance rt : bool) (ph : Z) : bool := if balance then ph =? 1 else if rt then ph =? 1 else ph =? 0.

(** The choice on entering a dimension. *)
Definition entry (k : Z) (balance r1 r2 : bool) (c d : Z) : bool * Z :=
  let dist2 := k - 2 * ((d - c + k) mod k) in
  let rt := (0 <? dist2) || ((dist2 =? 0) && r1) in
  (rt,
   if balance then
     if (rt && (d <? c)) || (negb rt && (c <? d)) then 1
     else if (rt && (c <=? (k - 1) / 2) && ((k - 1) / 2 <? d)) || (negb rt && ((k - 1) / 2 <? c) && (d <=? (k - 1) / 2)) then 0
     else if r2 then 1 else 0
   else if (rt && (d <? c)) || (negb rt && (d <? c)) then 1 else 0).

Lemma entry_ok : forall k balance r1 r2 c d, 0 <= c < k -> 0 <= d < k -> c <> d ->
  let '(rt, ph) := entry k balance r1 r2 c d in (ph = 0 \/ ph = 1) /\ dirok k rt (wkind balance rt ph) c d.
Proof.
  intros k balance r1 r2 c d Hc Hd N. pose proof (half k ltac:(lia)) as HF. unfold entry.
  assert (M : (d - c + k) mod k = (d - c) mod k) by (replace (d - c + k) with (d - c + 1 * k) by ring; apply Z.mod_add; lia). rewrite M.
  set (T := (k - 1) / 2) in *.
  assert (R : let rt := (0 <? k - 2 * ((d - c) mod k)) || ((k - 2 * ((d - c) mod k) =? 0) && r1) in if rt then 2 * ((d - c) mod k) <= k else 2 * ((c - d) mod k) <= k).
  { cbn zeta. rewrite !modsub by auto. destruct (Z.leb_spec c d), (Z.leb_spec d c); try lia;
      destruct (Z.ltb_spec 0 (k - 2 * (if true then d - c else 0))), r1; cbn [orb andb];
      repeat match goal with |- context [?a <? ?b] => destruct (Z.ltb_spec a b) end; repeat match goal with |- context [?a =? ?b] => destruct (Z.eqb_spec a b) end; cbn [orb andb]; lia. }
  cbn zeta in R. destruct ((0 <? k - 2 * ((d - c) mod k)) || ((k - 2 * ((d - c) mod k) =? 0) && r1)); cbn [andb orb negb].
  - unfold dirok, wkind. rewrite modsub in R by auto. rewrite modsub by auto. fold T.
    destruct (Z.leb_spec c d), (Z.ltb_spec d c), (Z.leb_spec c T), (Z.ltb_spec T d), balance, r2; cbn [andb orb Z.eqb Pos.eqb]; try lia; (split; [auto|]); lia.
  - unfold dirok, wkind. rewrite modsub in R by auto. rewrite modsub by auto. fold T.
    destruct (Z.leb_spec d c), (Z.ltb_spec c d), (Z.ltb_spec d c), (Z.ltb_spec T c), (Z.leb_spec d T), balance, r2; cbn [andb orb Z.eqb Pos.eqb]; try lia; (split; [auto|]); lia.
Qed.

(** ** The torus *)
Lemma torus_dist_same : forall k n a b c, (forall i, (i < n)%nat -> digit k i a = digit k i b) -> torus_dist k n a c = torus_dist k n b c.
Proof. intros k n a b c; induction n as [|n IH]; intros E; cbn [torus_dist]; auto. rewrite IH by (intros; apply E; lia). rewrite E by lia. reflexivity. Qed.

Lemma torus_dist_moved : forall k n u v d x c, moved k n u v d x ->
  torus_dist k n v c = torus_dist k n u c - tdist k (digit k d u) (digit k d c) + tdist k x (digit k d c).
Proof.
  intros k n u v d x c [H1 [H2 H3]]. induction n as [|n IH]; [lia|]. cbn [torus_dist].
  destruct (Nat.eq_dec d n) as [->|N].
  - rewrite (torus_dist_same k n v u c) by (intros i Hi; apply H3; lia). rewrite H2. unfold tdist. lia.
  - rewrite IH by (try lia; intros i Hi Hn; apply H3; lia). rewrite (H3 n) by lia. lia.
Qed.

Lemma tor_dim_ok : forall k m dim cur dest, 1 <= k -> on_grid k m cur -> on_grid k m dest ->
  (cur = dest /\ fst (fst (tor_dim k m dim cur dest)) = (dim + m)%nat) \/
  exists j, (j < m)%nat /\ fst (fst (tor_dim k m dim cur dest)) = (dim + j)%nat /\
    snd (fst (tor_dim k m dim cur dest)) mod k = digit k j cur /\ snd (tor_dim k m dim cur dest) mod k = digit k j dest /\
    digit k j cur <> digit k j dest /\ (forall i, (i < j)%nat -> digit k i cur = digit k i dest).
Proof.
  intros k m; induction m as [|m IH]; intros dim cur dest Hk Hc Hd; cbn [tor_dim].
  - left. unfold on_grid in *. cbn in *. split; lia.
  - destruct (Z.eqb_spec (cur mod k) (dest mod k)) as [E|E]; cbn [negb].
    + apply on_grid_S in Hc, Hd; auto. destruct (IH (S dim) (cur / k) (dest / k)) as [[I1 I2]|[j [J1 [J2 [J3 [J4 [J5 J6]]]]]]]; auto; try tauto.
      * left. split; [rewrite (Z.div_mod cur k), (Z.div_mod dest k), I1, E by lia; reflexivity|lia].
      * right. exists (S j). rewrite J2, J3, J4, !digit_S by auto. split; [lia|]. split; [lia|]. split; auto. split; auto. split; auto.
        intros i Hi. destruct i as [|i]; [rewrite !digit_0; auto|]. rewrite !digit_S by auto. apply J6. lia.
    + right. exists 0%nat. cbn [fst snd]. rewrite !digit_0, Nat.add_0_r. split; [lia|]. split; auto. split; auto. split; auto. split; auto. lia.
Qed.

Lemma torus_next : forall k n balance r1 r2 i ph cur dest, 1 <= k -> on_grid k n cur -> on_grid k n dest ->
  (cur = dest /\ dor_next_torus k n balance r1 r2 i ph cur dest = ((2 * n)%nat, ph)) \/
  exists d, (d < n)%nat /\ digit k d cur <> digit k d dest /\ (forall t, (t < d)%nat -> digit k t cur = digit k t dest) /\
    dor_next_torus k n balance r1 r2 i ph cur dest =
      if Nat.eqb (Nat.div2 i) d then (mate i, ph)
      else let '(rt, ph') := entry k balance r1 r2 (digit k d cur) (digit k d dest) in ((if rt then (2 * d)%nat else (2 * d + 1)%nat), ph').
Proof.
  intros k n balance r1 r2 i ph cur dest Hk Hc Hd. unfold dor_next_torus.
  destruct (tor_dim_ok k n 0 cur dest Hk Hc Hd) as [[E1 E2]|[j [J1 [J2 [J3 [J4 [J5 J6]]]]]]].
  - left. split; auto. destruct (tor_dim k n 0 cur dest) as [[dd c0] d0]. cbn [fst] in E2. subst dd. cbn [Nat.add]. rewrite Nat.ltb_irrefl. reflexivity.
  - right. exists j. split; auto. split; auto. split; auto. destruct (tor_dim k n 0 cur dest) as [[dd c0] d0]. cbn [fst snd] in J2, J3, J4. subst dd. cbn [Nat.add].
    rewrite (proj2 (Nat.ltb_lt j n) J1). destruct (Nat.eqb (Nat.div2 i) j); cbn [negb].
    + rewrite <- (mate_mate i) at 1. rewrite mate_lxor. reflexivity.
    + rewrite J3, J4. reflexivity.
Qed.

(** What a flit carries between routers: lower dimensions are done, and the rest of the ring is the short way round. *)
Definition torus_J (k : Z) (n : nat) (balance : bool) (src dest u : Z) (i : nat) (ph : Z) : Prop :=
  i = (2 * n)%nat /\ u = src \/
  (i < 2 * n)%nat /\ (ph = 0 \/ ph = 1) /\
  let d := Nat.div2 i in let rt := Nat.even (mate i) in
  (forall t, (t < d)%nat -> digit k t u = digit k t dest) /\
  (digit k d u <> digit k d dest -> dirok k rt (wkind balance rt ph) (digit k d u) (digit k d dest)).

Lemma div2_lt : forall i n, (i < 2 * n)%nat -> (Nat.div2 i < n)%nat.
Proof. intros i n H. destruct (mate_cases i) as [[_ [E _]]|[_ [E _]]]; lia. Qed.

(** One hop from a router that is not the destination. *)
Lemma torus_hop : forall k n balance r1 r2 src dest u i ph, 1 <= k -> on_grid k n u -> on_grid k n dest -> u <> dest -> torus_J k n balance src dest u i ph ->
  exists (d : nat) (rt : bool) (ph' : Z), dor_next_torus k n balance r1 r2 i ph u dest = ((if rt then (2 * d)%nat else (2 * d + 1)%nat), ph') /\
    (d < n)%nat /\ (ph' = 0 \/ ph' = 1) /\ digit k d u <> digit k d dest /\ (forall t, (t < d)%nat -> digit k t u = digit k t dest) /\
    dirok k rt (wkind balance rt ph') (digit k d u) (digit k d dest) /\
    (i = (2 * n)%nat \/ (i < 2 * n)%nat /\ ((Nat.div2 i < d)%nat \/ Nat.div2 i = d /\ ph' = ph /\ Nat.even (mate i) = rt)).
Proof.
  intros k n balance r1 r2 src dest u i ph Hk Hu Hd N J.
  destruct (torus_next k n balance r1 r2 i ph u dest Hk Hu Hd) as [[E _]|[d [D1 [D2 [D3 D4]]]]]; [congruence|].
  destruct (Nat.eqb_spec (Nat.div2 i) d) as [E|E].
  - destruct J as [[-> ->]|[J1 [J2 [J3 J4]]]]; [rewrite div2_2 in E; lia|].
    exists d, (Nat.even (mate i)), ph. rewrite D4. rewrite E in *.
    split.
    { f_equal. pose proof (mate_cases i) as MC. rewrite E in MC. destruct MC as [[M1 [M2 M3]]|[M1 [M2 M3]]]; rewrite M3.
      - rewrite even_21. reflexivity.
      - rewrite even_2. reflexivity. }
    split; auto. split; auto. split; auto. split; auto. split; auto. right. split; auto.
  - pose proof (entry_ok k balance r1 r2 (digit k d u) (digit k d dest) (digit_bound k d u Hk) (digit_bound k d dest Hk) D2) as EO.
    destruct (entry k balance r1 r2 (digit k d u) (digit k d dest)) as [rt ph'] eqn:EE. destruct EO as [O1 O2].
    exists d, rt, ph'. split; auto. split; auto. split; auto. split; auto. split; auto. split; auto.
    destruct J as [[-> ->]|[J1 [J2 [J3 J4]]]]; [left; auto|right]. split; auto. left.
    destruct (Nat.lt_ge_cases (Nat.div2 i) d) as [L|L]; auto. exfalso. apply D2. apply J3. lia.
Qed.

Lemma torus_move : forall k n balance src dest u d rt ph v j, 1 <= k -> on_grid k n u -> (d < n)%nat -> (ph = 0 \/ ph = 1) ->
  digit k d u <> digit k d dest -> (forall t, (t < d)%nat -> digit k t u = digit k t dest) ->
  dirok k rt (wkind balance rt ph) (digit k d u) (digit k d dest) ->
  linked k n u (if rt then (2 * d)%nat else (2 * d + 1)%nat) v j ->
  torus_J k n balance src dest v j ph /\ torus_dist k n v dest = torus_dist k n u dest - 1 /\ Nat.div2 j = d /\ Nat.even (mate j) = rt /\
  (digit k d v <> digit k d dest -> crank k rt (wkind balance rt ph) (digit k d u) < crank k rt (wkind balance rt ph) (digit k d v)).
Proof.
  intros k n balance src dest u d rt ph v j Hk Hu Hd Hp N T D L.
  pose proof (linked_in k n _ _ _ _ Hk L) as LJ. apply linked_moved in L; auto. destruct L as [d' L].
  assert (X : j = (if rt then (2 * d + 1)%nat else (2 * d)%nat) /\ moved k n u v d ((if rt then digit k d u + 1 else digit k d u - 1) mod k)).
  { destruct rt, L as [[L1 [L2 L3]]|[L1 [L2 L3]]]; try lia; assert (d' = d) by lia; subst d'; split; auto. }
  clear L. destruct X as [-> M].
  assert (DJ : Nat.div2 (if rt then (2 * d + 1)%nat else (2 * d)%nat) = d) by (destruct rt; [apply div2_21|apply div2_2]).
  assert (EJ : Nat.even (mate (if rt then (2 * d + 1)%nat else (2 * d)%nat)) = rt).
  { destruct rt; unfold mate; [rewrite even_21; replace (Nat.pred (2 * d + 1)) with (2 * d)%nat by lia; apply even_2|rewrite even_2; replace (S (2 * d)) with (2 * d + 1)%nat by lia; apply even_21]. }
  assert (ST : let x' := (if rt then digit k d u + 1 else digit k d u - 1) mod k in
     dirok k rt (wkind balance rt ph) x' (digit k d dest) /\ tdist k x' (digit k d dest) = tdist k (digit k d u) (digit k d dest) - 1 /\
     (x' <> digit k d dest -> crank k rt (wkind balance rt ph) (digit k d u) < crank k rt (wkind balance rt ph) x')).
  { destruct rt; [apply step_right|apply step_left]; auto using digit_bound. }
  cbn zeta in ST. destruct ST as [S1 [S2 S3]]. rewrite (torus_dist_moved k n u v d _ dest M). pose proof M as [_ [M1 M2]]. rewrite M1.
  split; [|split; [lia|split; [auto|split; [auto|auto]]]].
  right. split; auto. split; auto. cbn zeta. rewrite DJ, EJ, M1. split; auto.
  intros t Ht. rewrite M2 by lia. apply T. auto.
Qed.

Lemma torus_case : forall k n balance r1 r2 b e src dest u i vc ph, 1 <= k -> b <= vc <= e -> 2 <= e - b + 1 -> on_grid k n u -> on_grid k n dest -> torus_J k n balance src dest u i ph ->
  let '(p, ph') := dor_next_torus k n balance r1 r2 i ph u dest in
  let v := (e - b + 1) / 2 in
  dim_order_torus k n balance r1 r2 ph (at_router b e src dest u i vc) =
    Some ([add_range (Z.of_nat p) (if u =? dest then b else if ph' =? 0 then b else b + v) (if u =? dest then e else if ph' =? 0 then e - v else e)], ph').
Proof.
  intros k n balance r1 r2 b e src dest u i vc ph Hk V W Hu Hd J. unfold dim_order_torus, at_router.
  cbn [ri_cur ri_in ri_src ri_dest ri_vc ri_b ri_e ri_inject]. rewrite vc_ok by auto. cbn [negb].
  destruct (Z.eqb_spec u dest) as [E|N].
  - destruct (dor_next_torus k n balance r1 r2 i ph u dest) as [p ph']. reflexivity.
  - destruct (torus_hop k n balance r1 r2 src dest u i ph Hk Hu Hd N J) as [d [rt [ph' [E [D1 [D2 _]]]]]]. rewrite E.
    destruct (div_room (e - b + 1) 2 ltac:(lia) W) as [V1 V2]. replace ((e - b + 1) / 2 <=? 0) with false by lia.
    destruct D2 as [->| ->]; cbn [Z.eqb Pos.eqb negb]; rewrite ?andb_false_r; reflexivity.
Qed.

Lemma torus_guides : forall k n balance b e, 1 <= k -> 2 <= e - b + 1 ->
  guides (rf_torus k n balance) k n b e (torus_dist k n) (fun _ _ _ => True) (fun _ _ => True) (torus_J k n balance).
Proof.
  intros k n balance b e Hk W. split.
  - intros src dest s Hs Hd. split; auto. left; auto.
  - intros src dest u i vc ph Hs Hd Hu V _ J. split.
    { exists (dim_order_torus k n balance false false ph (at_router b e src dest u i vc)), false, false. reflexivity. }
    intros r [r1 [r2 ->]]. pose proof (torus_case k n balance r1 r2 b e src dest u i vc ph Hk V W Hu Hd J) as TC.
    destruct (dor_next_torus k n balance r1 r2 i ph u dest) as [p ph'] eqn:DN. rewrite TC. do 2 eexists. split; [reflexivity|]. split; [discriminate|].
    intros x [<-|[]]. cbn [o_lo o_hi o_port add_range]. destruct (div_room (e - b + 1) 2 ltac:(lia) W) as [V1 V2].
    split; [destruct (u =? dest), (ph' =? 0); lia|]. split; [destruct (u =? dest), (ph' =? 0); lia|].
    destruct (Z.eqb_spec u dest) as [->|N].
    + destruct (torus_next k n balance r1 r2 i ph dest dest Hk Hd Hd) as [[_ E]|[d [_ [D2 _]]]]; [|congruence]. congruence.
    + destruct (torus_hop k n balance r1 r2 src dest u i ph Hk Hu Hd N J) as [d [rt [ph0 [E [D1 [D2 [D3 [D4 [D5 _]]]]]]]]]. rewrite DN in E. injection E as -> ->.
      eexists. split; [reflexivity|]. split; [destruct rt; lia|]. intros v j L.
      destruct (torus_move k n balance src dest u d rt ph0 v j Hk Hu D1 D2 D3 D4 D5 L) as [M1 [M2 _]]. auto.
Qed.

(** The order of the channels of the torus, with the partition read off the virtual channel. *)
Definition trank (k : Z) (balance : bool) (h : Z) (c : chan) : Z :=
  let d := Nat.div2 (snd (fst c)) in let rt := Nat.even (snd (fst c)) in
  2 * k * Z.of_nat d + crank k rt (wkind balance rt (if snd c <? h then 0 else 1)) (digit k d (fst (fst c))).

Lemma torus_inv : forall k n balance b e src dest l u i vc ph, 1 <= k -> 2 <= e - b + 1 -> on_grid k n src -> on_grid k n dest ->
  gone (rf_torus k n balance) k n b e src dest l u i vc ph -> (i < 2 * n)%nat ->
  let h := b + (e - b + 1) / 2 in let m := e - (e - b + 1) / 2 in
  let d := Nat.div2 i in let rt := Nat.even (mate i) in
  forall c, In c l -> snd c < h \/ m < snd c ->
    trank k balance h c < 2 * k * (Z.of_nat d + 1) /\
    (digit k d u <> digit k d dest -> trank k balance h c < 2 * k * Z.of_nat d + crank k rt (wkind balance rt ph) (digit k d u)).
Proof.
  intros k n balance b e src dest l u i vc ph Hk W Hs Hd G. pose proof (div_room (e - b + 1) 2 ltac:(lia) W) as DR.
  assert (DR3 : e - b + 1 <= 2 * ((e - b + 1) / 2) + 1) by (pose proof (Z.div_mod (e - b + 1) 2 ltac:(lia)); pose proof (Z.mod_pos_bound (e - b + 1) 2 ltac:(lia)); lia).
  induction G as [|l u i vc ph es ph' x p v j vc' G IH R X P V L]; intros I h m dd rr c Hc GC; [contradiction|].
  destruct (guides_gone _ _ k n b e _ _ _ _ _ _ _ _ _ _ _ Hk (torus_guides k n balance b e Hk W) Hs Hd G) as [I1 [I2 [_ [_ J]]]].
  destruct R as [r1 [r2 R]]. pose proof (torus_case k n balance r1 r2 b e src dest u i vc ph Hk I2 W I1 Hd J) as TC.
  destruct (dor_next_torus k n balance r1 r2 i ph u dest) as [p0 ph0] eqn:DN. cbn zeta in TC. rewrite TC in R.
  assert (RE : es = [add_range (Z.of_nat p0) (if u =? dest then b else if ph0 =? 0 then b else b + (e - b + 1) / 2) (if u =? dest then e else if ph0 =? 0 then e - (e - b + 1) / 2 else e)] /\ ph' = ph0) by (split; congruence).
  clear R TC. destruct RE as [-> ->]. destruct X as [<-|[]]. cbn [o_port o_lo o_hi add_range] in P, V. apply Nat2Z.inj in P. subst p0.
  assert (Nu : u <> dest).
  { intros ->. destruct (torus_next k n balance r1 r2 i ph dest dest Hk Hd Hd) as [[_ E]|[d [_ [D2 _]]]]; [|congruence].
    rewrite DN in E. assert (p = (2 * n)%nat) by congruence. apply linked_iff in L; auto. lia. }
  rewrite (proj2 (Z.eqb_neq u dest) Nu) in V.
  destruct (torus_hop k n balance r1 r2 src dest u i ph Hk I1 Hd Nu J) as [d [rt [ph1 [E [D1 [D2 [D3 [D4 [D5 D6]]]]]]]]]. rewrite DN in E.
  assert (p = (if rt then (2 * d)%nat else (2 * d + 1)%nat)) by congruence. assert (ph0 = ph1) by congruence. subst p ph1. clear E.
  destruct (torus_move k n balance src dest u d rt ph0 v j Hk I1 D1 D2 D3 D4 D5 L) as [M1 [M2 [M3 [M4 M5]]]].
  unfold dd, rr. rewrite M3, M4. clear dd rr.
  pose proof (crank_bound k rt (wkind balance rt ph0) (digit k d v) (digit_bound k d v Hk)) as CBv.
  pose proof (crank_bound k rt (wkind balance rt ph0) (digit k d u) (digit_bound k d u Hk)) as CBu.
  apply in_app_or in Hc. destruct Hc as [Hc|[<-|[]]].
  - pose proof (gone_in _ _ _ _ _ _ _ _ _ _ _ _ _ Hk G) as GI. destruct GI as [[GI _]|[_ [-> _]]]; [|contradiction].
    specialize (IH GI). cbn zeta in IH. fold h m in IH. specialize (IH c Hc GC). destruct IH as [IA IB].
    destruct D6 as [D6|[_ [D6|[D6 [D7 D8]]]]]; [lia| |].
    + split; [nia|]. intros _. nia.
    + rewrite D6 in *. split; [lia|]. intros Nv. rewrite D8, <- D7 in IB. specialize (IB D3). specialize (M5 Nv). lia.
  - unfold trank. cbn [fst snd] in *.
    assert (DV : Nat.div2 (if rt then (2 * d)%nat else (2 * d + 1)%nat) = d) by (destruct rt; [apply div2_2|apply div2_21]).
    assert (EV : Nat.even (if rt then (2 * d)%nat else (2 * d + 1)%nat) = rt) by (destruct rt; [apply even_2|apply even_21]).
    rewrite DV, EV.
    assert (PV : (if vc' <? h then 0 else 1) = ph0).
    { destruct D2 as [->| ->]; cbn [Z.eqb] in V; unfold h, m in *; destruct (Z.ltb_spec vc' (b + (e - b + 1) / 2)); lia. }
    rewrite PV. split; [lia|]. intros Nv. specialize (M5 Nv). lia.
Qed.

Lemma torus_no_deadlock : forall k n balance b e D, 1 <= k -> 2 <= e - b + 1 -> ~ deadlock (rf_torus k n balance) k n b e D.
Proof.
  intros k n balance b e D Hk W. revert D. pose proof (div_room (e - b + 1) 2 ltac:(lia) W) as DR.
  assert (DR3 : e - b + 1 <= 2 * ((e - b + 1) / 2) + 1) by (pose proof (Z.div_mod (e - b + 1) 2 ltac:(lia)); pose proof (Z.mod_pos_bound (e - b + 1) 2 ltac:(lia)); lia).
  set (h := b + (e - b + 1) / 2). set (m := e - (e - b + 1) / 2).
  apply no_deadlock with (good := fun c => (snd c <? h) || (m <? snd c)) (rank := trank k balance h).
  intros src dest l u i vc ph es s' Hs Hd G [r1 [r2 R]].
  destruct (guides_gone _ _ k n b e _ _ _ _ _ _ _ _ _ _ _ Hk (torus_guides k n balance b e Hk W) Hs Hd G) as [I1 [I2 [_ [_ J]]]].
  pose proof (torus_case k n balance r1 r2 b e src dest u i vc ph Hk I2 W I1 Hd J) as TC.
  destruct (dor_next_torus k n balance r1 r2 i ph u dest) as [p ph0] eqn:DN. cbn zeta in TC. rewrite TC in R.
  assert (RE : es = [add_range (Z.of_nat p) (if u =? dest then b else if ph0 =? 0 then b else h) (if u =? dest then e else if ph0 =? 0 then m else e)]) by (unfold h, m; congruence).
  clear R TC. subst es.
  destruct (Z.eqb_spec u dest) as [Eu|Nu].
  - subst u. destruct (torus_next k n balance r1 r2 i ph dest dest Hk Hd Hd) as [[_ E]|[d [_ [D2 _]]]]; [|congruence].
    rewrite DN in E. assert (p = (2 * n)%nat) by congruence. subst p. exists (dest, (2 * n)%nat, b). split; [|left; reflexivity].
    eexists. exists (2 * n)%nat, b. split; [left; reflexivity|]. cbn [o_port o_lo o_hi add_range]. split; auto. split; [lia|reflexivity].
  - destruct (torus_hop k n balance r1 r2 src dest u i ph Hk I1 Hd Nu J) as [d [rt [ph1 [E [D1 [D2 [D3 [D4 [D5 D6]]]]]]]]]. rewrite DN in E.
    assert (p = (if rt then (2 * d)%nat else (2 * d + 1)%nat)) by congruence. assert (ph0 = ph1) by congruence. subst ph1. clear E.
    set (w := if ph0 =? 0 then b else e).
    exists (u, p, w). split.
    + eexists. exists p, w. split; [left; reflexivity|]. cbn [o_port o_lo o_hi add_range]. split; auto. split; [|reflexivity].
      unfold w, h, m. destruct D2 as [->| ->]; cbn [Z.eqb]; lia.
    + right. split; [cbn [snd]; unfold w, h, m; destruct D2 as [->| ->]; cbn [Z.eqb]; lia|].
      intros c Hc GC. pose proof (gone_in _ _ _ _ _ _ _ _ _ _ _ _ _ Hk G) as GI. destruct GI as [[GI _]|[_ [-> _]]]; [|contradiction].
      assert (DV : Nat.div2 p = d) by (subst p; destruct rt; [apply div2_2|apply div2_21]).
      assert (EV : Nat.even p = rt) by (subst p; destruct rt; [apply even_2|apply even_21]).
      assert (TW : trank k balance h (u, p, w) = 2 * k * Z.of_nat d + crank k rt (wkind balance rt ph0) (digit k d u)).
      { unfold trank. cbn [fst snd]. rewrite DV, EV. f_equal. f_equal. f_equal. unfold w, h. destruct D2 as [->| ->]; cbn [Z.eqb]; [destruct (Z.ltb_spec b (b + (e - b + 1) / 2))|destruct (Z.ltb_spec e (b + (e - b + 1) / 2))]; lia. }
      rewrite TW. pose proof (torus_inv k n balance b e src dest l u i vc ph Hk W Hs Hd G GI) as TI. cbn zeta in TI. fold h m in TI.
      assert (GC' : snd c < h \/ m < snd c) by (apply orb_true_iff in GC; destruct GC; [left|right]; lia).
      destruct (TI c Hc GC') as [TA TB].
      pose proof (crank_bound k rt (wkind balance rt ph0) (digit k d u) (digit_bound k d u Hk)) as CBu.
      destruct D6 as [D6|[_ [D6|[D6 [D7 D8]]]]]; [lia|nia|]. rewrite D6, D8, <- D7 in TB. apply TB. exact D3.
Qed.
