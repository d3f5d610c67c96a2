(** C36, C37, C38, C64, C65: routes on meshes and tori. *)
From Coq Require Import ZArith Bool List Lia Arith Relations.
From Verif Require Import RouteModel RouteSpec RouteProofs RouteMeshProofs RoutePhaseProofs RouteTorusProofs RouteValiantProofs.
Import ListNotations.
Open Scope Z_scope.

(** One hop of a concrete packet: from router [U], input [I], channel [C], to the link [P] and channel [C']. *)
Ltac go_link := apply linked_iff; [lia|]; split; [unfold on_grid; cbn; lia|]; split; [lia|]; split; reflexivity.
Ltac hopto S U I C P V J C' R :=
  eapply gone_hop with (s := S) (u := U) (i := I) (vc := C) (p := P) (v := V) (j := J) (vc' := C'); [ | R; vm_compute; reflexivity | left; reflexivity | reflexivity | cbn; lia | go_link ].

(** C38: every channel has one source and one sink, and a flit that leaves through port p arrives at the port with the lowest bit of p flipped. *)
Theorem C38_wiring : forall k n, 1 <= k ->
  (forall u p, on_grid k n u -> (p < 2 * n)%nat -> exists v q, linked k n u p v q) /\
  (forall v q, on_grid k n v -> (q < 2 * n)%nat -> exists u p, linked k n u p v q) /\
  (forall u p v q v' q', linked k n u p v q -> linked k n u p v' q' -> v = v' /\ q = q') /\
  (forall u p u' p' v q, linked k n u p v q -> linked k n u' p' v q -> u = u' /\ p = p').
Proof. exact wiring. Qed.
Print Assumptions C38_wiring.

Theorem C38_neighbours : forall k n u p v q, 1 <= k -> linked k n u p v q ->
  q = Nat.lxor p 1 /\
  exists d, (p = (2 * d)%nat /\ moved k n u v d ((digit k d u + 1) mod k)) \/ (p = (2 * d + 1)%nat /\ moved k n u v d ((digit k d u - 1) mod k)).
Proof.
  intros k n u p v q Hk L. split.
  - apply linked_iff in L; auto. destruct L as [_ [_ [_ ->]]]. rewrite <- (mate_mate p) at 2. rewrite mate_lxor. reflexivity.
  - destruct (linked_moved k n u p v q Hk L) as [d [[A [_ B]]|[A [_ B]]]]; exists d; auto.
Qed.
Print Assumptions C38_neighbours.

Theorem C38_channels : forall k n c, 1 <= k -> 0 <= c < 2 * Z.of_nat n * k ^ Z.of_nat n ->
  (exists u p, on_grid k n u /\ nth_error (out_channels n u) p = Some c) /\
  (exists v q, on_grid k n v /\ nth_error (in_channels k n v) q = Some c).
Proof. exact all_channels_used. Qed.
Print Assumptions C38_channels.

Example C38_wiring_ex : linked 4 2 7 0 4 1 /\ linked 4 2 5 3 1 2.
Proof. split; (apply linked_iff; [lia|]; split; [unfold on_grid; cbn; lia|]; split; [lia|]; split; reflexivity). Qed.
Example C38_neighbours_ex : moved 4 2 7 4 0 0.
Proof. split; [lia|]. split; [reflexivity|]. intros i Hi Ni. destruct i as [|[|i]]; try lia. reflexivity. Qed.
Example C38_channels_ex : 0 <= 37 < 2 * Z.of_nat 2 * 4 ^ Z.of_nat 2 /\ nth_error (out_channels 2 9) 1 = Some 37 /\ nth_error (in_channels 4 2 8) 0 = Some 37.
Proof. split; [cbn; lia|]. split; reflexivity. Qed.

(** C36: the packet is delivered over a shortest path inside the box between its ends, without a wrap-around link. *)
Theorem C36_dim_order : forall k n b e, 1 <= k -> delivers (rf_dor k n) k n b e (mesh_dist k n) (in_box k n) (mesh_link k n).
Proof. intros. apply steers_delivers; auto. apply dor_steers; auto. Qed.
Print Assumptions C36_dim_order.

Theorem C36_per_destination : forall k n b e, 1 <= k ->
  (k ^ Z.of_nat n <= e - b + 1 -> delivers (rf_ni k n) k n b e (mesh_dist k n) (in_box k n) (mesh_link k n)) /\
  (k <= e - b + 1 -> delivers (rf_pni k n) k n b e (mesh_dist k n) (in_box k n) (mesh_link k n)).
Proof. intros. split; intros; apply steers_delivers; auto; [apply ni_steers|apply pni_steers]; auto. Qed.
Print Assumptions C36_per_destination.

Theorem C36_xy_yx : forall k n b e, 1 <= k -> 2 <= e - b + 1 -> delivers (rf_xy k n) k n b e (mesh_dist k n) (in_box k n) (mesh_link k n).
Proof. intros. apply steers_delivers; auto. apply xy_steers; auto. Qed.
Print Assumptions C36_xy_yx.

Theorem C36_min_adapt : forall k n e, 1 <= k -> 0 <= e -> delivers (rf_adapt k n) k n 0 e (mesh_dist k n) (in_box k n) (mesh_link k n).
Proof. intros. apply steers_delivers; auto. apply adapt_steers; auto. Qed.
Print Assumptions C36_min_adapt.

Theorem C36_romm : forall k n b e, 1 <= k -> 2 <= e - b + 1 -> delivers (rf_romm k n) k n b e (mesh_dist k n) (in_box k n) (mesh_link k n).
Proof. intros. eapply guides_delivers; auto. apply romm_guides; auto. Qed.
Print Assumptions C36_romm.

Theorem C36_torus : forall k n balance b e, 1 <= k -> 2 <= e - b + 1 ->
  delivers (rf_torus k n balance) k n b e (torus_dist k n) (fun _ _ _ => True) (fun _ _ => True).
Proof. intros. eapply guides_delivers; auto. apply torus_guides; auto. Qed.
Print Assumptions C36_torus.

(** Whatever a routing function that delivers offers, some way leads to the destination. *)
Theorem C36_arrives : forall St (rf : rfun St) k n b e dist box lk, 1 <= k -> delivers rf k n b e dist box lk ->
  (forall a c, on_grid k n a -> on_grid k n c -> 0 <= dist a c) ->
  forall src dest l u i vc s, on_grid k n src -> on_grid k n dest -> gone rf k n b e src dest l u i vc s ->
    exists l' i' vc' s', gone rf k n b e src dest (l ++ l') dest i' vc' s'.
Proof.
  intros St rf k n b e dist box lk Hk D NN src dest l u i vc s Hs Hd G.
  destruct (D src dest l u i vc s Hs Hd G) as [Hu _]. remember (Z.to_nat (dist u dest)) as N eqn:EN.
  revert l u i vc s G Hu EN. induction N as [N IH] using lt_wf_ind. intros l u i vc s G Hu EN.
  destruct (D src dest l u i vc s Hs Hd G) as [_ [V [_ [L1 [[r R] A]]]]]. destruct (A r R) as [es [s' [-> [NE F]]]].
  destruct es as [|x es]; [congruence|]. destruct (F x (or_introl eq_refl)) as [F1 [F2 F3]].
  destruct (Z.eqb_spec u dest) as [->|N0]; [exists [], i, vc, s; rewrite app_nil_r; exact G|].
  destruct F3 as [p [v [j [P [LK _]]]]].
  assert (G' : gone rf k n b e src dest (l ++ [(u, p, o_lo x)]) v j (o_lo x) s') by (eapply gone_hop; eauto; [left; auto|lia]).
  destruct (D _ _ _ _ _ _ _ Hs Hd G') as [Hv [_ [_ [L2 _]]]]. rewrite app_length in L2. cbn [length] in L2.
  pose proof (NN v dest Hv Hd). pose proof (NN u dest Hu Hd).
  destruct (IH (Z.to_nat (dist v dest)) ltac:(lia) _ _ _ _ _ G' Hv eq_refl) as [l' [i' [vc' [s'' G'']]]].
  exists ((u, p, o_lo x) :: l'), i', vc', s''. rewrite <- app_assoc in G''. exact G''.
Qed.
Print Assumptions C36_arrives.

(** No route over links of the mesh is shorter. *)
Theorem C36_shortest : forall k n dest path src, 1 <= k -> on_grid k n dest ->
  (forall a u v c, src :: path = a ++ u :: v :: c -> mesh_link k n u v) -> last (src :: path) src = dest ->
  mesh_dist k n src dest <= Z.of_nat (length path).
Proof.
  intros k n dest path. induction path as [|v path IH]; intros src Hk Hd P L.
  - cbn [last] in L. subst dest. rewrite mesh_dist_refl. cbn. lia.
  - assert (ML : mesh_link k n src v) by (apply (P [] src v path); reflexivity).
    assert (mesh_dist k n v dest <= Z.of_nat (length path)).
    { apply IH; auto.
      - intros a x y c E. apply (P (src :: a) x y c). cbn [app]. rewrite E. reflexivity.
      - rewrite <- L. change (src :: v :: path) with ([src] ++ v :: path). destruct path as [|w path]; [reflexivity|].
        cbn [app]. change (last (src :: v :: w :: path) src) with (last (w :: path) src). change (last (v :: w :: path) v) with (last (w :: path) v).
        clear. revert w. induction path as [|z path IH]; intros w; [reflexivity|]. change (last (w :: z :: path) v) with (last (z :: path) v). change (last (w :: z :: path) src) with (last (z :: path) src). apply IH. }
    pose proof (mesh_link_far k n src v dest ML). cbn [length]. lia.
Qed.
Print Assumptions C36_shortest.

(** A rectangle inside the square mesh is never left: what config.py assumes when it pads the mesh. *)
Theorem C36_rectangle : forall k n (w : nat -> Z) b e src dest l u i vc s, 1 <= k -> on_grid k n src -> on_grid k n dest ->
  (forall d, (d < n)%nat -> digit k d src < w d /\ digit k d dest < w d) ->
  gone (rf_dor k n) k n b e src dest l u i vc s -> forall d, (d < n)%nat -> digit k d u < w d.
Proof.
  intros k n w b e src dest l u i vc s Hk Hs Hd W G d Hdn.
  destruct (C36_dim_order k n b e Hk src dest l u i vc s Hs Hd G) as [_ [_ [B _]]]. specialize (B d Hdn). specialize (W d Hdn). lia.
Qed.
Print Assumptions C36_rectangle.

(** Valiant routing goes to a random node first and then to the destination. *)
Theorem C36_valiant : forall k n b e src dest l u i vc s, 1 <= k -> 2 <= e - b + 1 -> on_grid k n src -> on_grid k n dest ->
  gone (rf_valiant k n) k n b e src dest l u i vc s ->
  on_grid k n u /\ b <= vc <= e /\
  forall r, rf_valiant k n s (at_router b e src dest u i vc) r ->
    exists x ph intm, r = Some ([x], (ph, intm)) /\ (ph = 0 \/ ph = 1) /\ on_grid k n intm /\ b <= o_lo x <= o_hi x /\ o_hi x <= e /\
      Z.of_nat (length l) + (if ph =? 0 then mesh_dist k n u intm + mesh_dist k n intm dest else mesh_dist k n u dest) = mesh_dist k n src intm + mesh_dist k n intm dest /\
      if (ph =? 1) && (u =? dest) then o_port x = Z.of_nat (2 * n)
      else exists p v j, o_port x = Z.of_nat p /\ linked k n u p v j /\ mesh_link k n u v.
Proof.
  intros k n b e src dest l u i vc s Hk W Hs Hd G. pose proof (valiant_gone k n b e src dest l u i vc s Hk W Hs Hd G) as OK.
  pose proof OK as [Hu [V _]]. split; auto. split; auto. intros r R.
  destruct (valiant_step k n b e src dest u i vc s r l Hk W Hs Hd OK R) as [x [[ph intm] [E [S1 [S2 [S3 [S4 [S5 S6]]]]]]]].
  cbn [fst snd] in *. exists x, ph, intm. split; auto. split; auto. split; auto. split; auto. split; auto.
  split; [unfold valiant_len in S5; cbn [fst snd] in S5; destruct (ph =? 0); lia|].
  destruct ((ph =? 1) && (u =? dest)); auto. destruct S6 as [_ [p [P PR]]].
  destruct (proj1 (wiring k n Hk) u p Hu (productive_lt _ _ _ _ _ PR)) as [v [j L]]. exists p, v, j. split; auto. split; auto.
  apply (productive_hop k n u _ p v j Hk PR L).
Qed.
Print Assumptions C36_valiant.

Ltac plain := idtac.
Example C36_dim_order_ex : exists l, gone (rf_dor 4 2) 4 2 1 1 12 2 l 2 2 1 tt /\ length l = 5%nat /\ mesh_dist 4 2 12 2 = 5.
Proof.
  eexists. split; [|split].
  - hopto tt 6 2%nat 1 3%nat 2 2%nat 1 plain. hopto tt 10 2%nat 1 3%nat 6 2%nat 1 plain. hopto tt 14 1%nat 1 3%nat 10 2%nat 1 plain.
    hopto tt 13 1%nat 1 0%nat 14 1%nat 1 plain. hopto tt 12 4%nat 1 0%nat 13 1%nat 1 plain. apply gone_nil. lia.
  - reflexivity.
  - reflexivity.
Qed.
Example C36_per_destination_ex :
  (exists l, gone (rf_ni 2 2) 2 2 0 7 0 3 l 3 3 7 tt /\ length l = 2%nat) /\ (exists l, gone (rf_pni 2 2) 2 2 0 7 0 3 l 3 3 7 tt /\ length l = 2%nat).
Proof.
  split; eexists; (split; [|]).
  - hopto tt 1 1%nat 6 2%nat 3 3%nat 7 plain. hopto tt 0 4%nat 6 0%nat 1 1%nat 6 plain. apply gone_nil. lia.
  - reflexivity.
  - hopto tt 1 1%nat 5 2%nat 3 3%nat 7 plain. hopto tt 0 4%nat 5 0%nat 1 1%nat 5 plain. apply gone_nil. lia.
  - reflexivity.
Qed.
Example C36_xy_yx_ex : exists l, gone (rf_xy 4 2) 4 2 2 3 0 9 l 9 1 3 tt /\ length l = 3%nat.
Proof.
  eexists. split.
  - hopto tt 8 3%nat 3 0%nat 9 1%nat 3 ltac:(exists false). hopto tt 4 3%nat 3 2%nat 8 3%nat 3 ltac:(exists false). hopto tt 0 4%nat 2 2%nat 4 3%nat 3 ltac:(exists false).
    apply gone_nil. lia.
  - reflexivity.
Qed.
Example C36_min_adapt_ex : exists l, gone (rf_adapt 4 2) 4 2 0 2 0 5 l 5 3 0 tt /\ length l = 2%nat.
Proof.
  eexists. split.
  - eapply gone_hop with (s := tt) (u := 1) (i := 1%nat) (vc := 2) (p := 2%nat) (v := 5) (j := 3%nat) (vc' := 0) (x := {| o_port := 2; o_lo := 0; o_hi := 0; o_pri := 0 |});
      [ | vm_compute; reflexivity | right; left; reflexivity | reflexivity | cbn; lia | go_link ].
    eapply gone_hop with (s := tt) (u := 0) (i := 4%nat) (vc := 1) (p := 0%nat) (v := 1) (j := 1%nat) (vc' := 2) (x := {| o_port := 0; o_lo := 1; o_hi := 2; o_pri := 1 |});
      [ | vm_compute; reflexivity | left; reflexivity | reflexivity | cbn; lia | go_link ]. apply gone_nil. lia.
  - reflexivity.
Qed.
Example C36_romm_ex : exists l, gone (rf_romm 4 2) 4 2 0 1 0 10 l 10 3 1 (1, 5) /\ length l = 4%nat.
Proof.
  eexists. split.
  - hopto (1, 5) 6 1%nat 1 2%nat 10 3%nat 1 ltac:(exists (fun _ _ => 0); split; [intros; lia|]).
    hopto (0, 5) 5 3%nat 0 0%nat 6 1%nat 1 ltac:(exists (fun _ _ => 0); split; [intros; lia|]).
    hopto (0, 5) 1 1%nat 0 2%nat 5 3%nat 0 ltac:(exists (fun _ _ => 0); split; [intros; lia|]).
    hopto (0, 0) 0 4%nat 0 0%nat 1 1%nat 0 ltac:(exists (fun _ d => d / 2); split; [intros; pose proof (Z.div_mod d 2); pose proof (Z.mod_pos_bound d 2); lia|]).
    apply gone_nil. lia.
  - reflexivity.
Qed.
Example C36_torus_ex : exists l, gone (rf_torus 4 2 false) 4 2 0 1 3 4 l 4 3 0 0 /\ length l = 2%nat /\ torus_dist 4 2 3 4 = 2.
Proof.
  eexists. split; [|split].
  - hopto 1 0 1%nat 1 2%nat 4 3%nat 0 ltac:(exists true, true).
    hopto 0 3 4%nat 0 0%nat 0 1%nat 1 ltac:(exists true, true).
    apply gone_nil. lia.
  - reflexivity.
  - reflexivity.
Qed.
Example C36_arrives_ex : exists l i vc s, gone (rf_torus 5 3 true) 5 3 0 3 7 124 l 124 i vc s.
Proof.
  assert (N : forall m a c, 0 <= torus_dist 5 m a c).
  { induction m as [|m IH]; intros a c; cbn [torus_dist]; [lia|]. specialize (IH a c).
    pose proof (Z.mod_pos_bound (digit 5 m a - digit 5 m c) 5). pose proof (Z.mod_pos_bound (digit 5 m c - digit 5 m a) 5). lia. }
  destruct (C36_arrives _ _ 5 3 0 3 _ _ _ ltac:(lia) (C36_torus 5 3 true 0 3 ltac:(lia) ltac:(lia)) (fun a c _ _ => N 3%nat a c) 7 124 [] 7 6%nat 2 0
              ltac:(unfold on_grid; cbn; lia) ltac:(unfold on_grid; cbn; lia) (gone_nil _ 5 3 0 3 7 124 2 0 ltac:(lia))) as [l [i [vc [s G]]]].
  exists l, i, vc, s. exact G.
Qed.
Example C36_shortest_ex : mesh_link 4 2 5 6 /\ mesh_link 4 2 6 10 /\ mesh_dist 4 2 5 10 = 2.
Proof.
  split; [|split; [|reflexivity]].
  - exists 0%nat, 1%nat, 0%nat. split; [go_link|left]. split; [lia|]. split; [reflexivity|]. intros i Hi Ni. destruct i as [|[|i]]; try lia. reflexivity.
  - exists 2%nat, 3%nat, 1%nat. split; [go_link|left]. split; [lia|]. split; [reflexivity|]. intros i Hi Ni. destruct i as [|[|i]]; try lia. reflexivity.
Qed.
(** A 3 by 2 rectangle in the 3 by 3 mesh. *)
Example C36_rectangle_ex : let w := fun d => match d with O => 3 | _ => 2 end in
  (forall d, (d < 2)%nat -> digit 3 d 5 < w d /\ digit 3 d 0 < w d) /\ exists l, gone (rf_dor 3 2) 3 2 0 0 5 0 l 3 0 0 tt.
Proof.
  split.
  - intros d Hd. destruct d as [|[|d]]; try lia; vm_compute; auto.
  - eexists. hopto tt 4 0%nat 0 1%nat 3 0%nat 0 plain. hopto tt 5 4%nat 0 1%nat 4 0%nat 0 plain. apply gone_nil. lia.
Qed.
Example C36_valiant_ex : exists l, gone (rf_valiant 4 2) 4 2 0 1 8 9 l 5 1 1 (1, 4).
Proof.
  eexists. hopto (0, 4) 4 2%nat 0 0%nat 5 1%nat 1 ltac:(exists 0; split; [cbn; lia|]). hopto (0, 0) 8 4%nat 0 3%nat 4 2%nat 0 ltac:(exists 4; split; [cbn; lia|]).
  apply gone_nil. lia.
Qed.

(** C37: no set of packets can wait for each other for ever. *)
Theorem C37_dim_order : forall k n b e D, 1 <= k -> ~ deadlock (rf_dor k n) k n b e D.
Proof. intros k n b e D Hk. apply dor_only_no_deadlock; auto. apply dor_steers; auto. apply dor_dor_only. Qed.
Print Assumptions C37_dim_order.

Theorem C37_per_destination : forall k n b e, 1 <= k ->
  (forall D, k ^ Z.of_nat n <= e - b + 1 -> ~ deadlock (rf_ni k n) k n b e D) /\ (forall D, k <= e - b + 1 -> ~ deadlock (rf_pni k n) k n b e D).
Proof.
  intros k n b e Hk. split; intros D W; apply dor_only_no_deadlock; auto; [apply ni_steers|apply ni_dor_only|apply pni_steers|apply pni_dor_only]; auto.
Qed.
Print Assumptions C37_per_destination.

Theorem C37_xy_yx : forall k n b e D, 1 <= k -> 2 <= e - b + 1 -> ~ deadlock (rf_xy k n) k n b e D.
Proof. exact xy_no_deadlock. Qed.
Print Assumptions C37_xy_yx.

Theorem C37_min_adapt : forall k n e D, 1 <= k -> 0 <= e -> ~ deadlock (rf_adapt k n) k n 0 e D.
Proof. exact adapt_no_deadlock. Qed.
Print Assumptions C37_min_adapt.

Theorem C37_romm : forall k n b e D, 1 <= k -> 2 <= e - b + 1 -> ~ deadlock (rf_romm k n) k n b e D.
Proof. exact romm_no_deadlock. Qed.
Print Assumptions C37_romm.

Theorem C37_torus : forall k n balance b e D, 1 <= k -> 2 <= e - b + 1 -> ~ deadlock (rf_torus k n balance) k n b e D.
Proof. exact torus_no_deadlock. Qed.
Print Assumptions C37_torus.

(** A packet that waits for a channel held by another. *)
Definition waits {St} (rf : rfun St) k n b e (p q : pkt St) : Prop :=
  travelling rf k n b e p /\ travelling rf k n b e q /\ (exists c, offers (pk_es p) (pk_at p) c) /\
  forall c, offers (pk_es p) (pk_at p) c -> In c (pk_held q).

Definition mkp {St} src dest dn held u i vc (s : St) es s' : pkt St :=
  {| pk_src := src; pk_dest := dest; pk_done := dn; pk_held := held; pk_at := u; pk_in := i; pk_vc := vc; pk_st := s; pk_es := es; pk_st' := s' |}.

Ltac trav := split; [unfold on_grid; cbn; lia|]; split; [unfold on_grid; cbn; lia|]; cbn [pk_src pk_dest pk_done pk_held pk_at pk_in pk_vc pk_st pk_es pk_st' mkp app].
Ltac off P0 V0 := let c := fresh in let x := fresh in let p := fresh in let vc := fresh in let X := fresh in let P := fresh in let V := fresh in
  intros c [x [p [vc [X [P [V ->]]]]]]; cbn in X; destruct X as [<-|[]]; cbn in P, V; assert (p = P0) by lia; assert (vc = V0) by lia; subst p vc.

Example C37_dim_order_ex : exists p q, waits (rf_dor 4 2) 4 2 0 0 p q.
Proof.
  exists (mkp 4 7 [] [(4, 0%nat, 0)] 5 1%nat 0 tt [add_range 0 0 0] tt), (mkp 5 6 [] [(5, 0%nat, 0)] 6 1%nat 0 tt [add_range 4 0 0] tt).
  split; [|split; [|split]].
  - trav. split; [|vm_compute; reflexivity]. change [(4, 0%nat, 0)] with ([] ++ [(4, 0%nat, 0)]). hopto tt 4 4%nat 0 0%nat 5 1%nat 0 plain. apply gone_nil. lia.
  - trav. split; [|vm_compute; reflexivity]. change [(5, 0%nat, 0)] with ([] ++ [(5, 0%nat, 0)]). hopto tt 5 4%nat 0 0%nat 6 1%nat 0 plain. apply gone_nil. lia.
  - exists (5, 0%nat, 0). exists (add_range 0 0 0), 0%nat, 0. cbn. repeat split; auto; lia.
  - off 0%nat 0. left; auto.
Qed.

(** The other functions: the same kind of wait, for every one of them. *)
Example C37_per_destination_ex : (exists p q, waits (rf_ni 2 2) 2 2 0 3 p q) /\ (exists p q, waits (rf_pni 2 2) 2 2 0 1 p q).
Proof.
  split.
  - exists (mkp 0 3 [] [] 0 4%nat 0 tt [add_range 0 3 3] tt), (mkp 0 3 [] [(0, 0%nat, 3)] 1 1%nat 3 tt [add_range 2 3 3] tt).
    split; [|split; [|split]].
    + trav. split; [|vm_compute; reflexivity]. apply gone_nil. lia.
    + trav. split; [|vm_compute; reflexivity]. change [(0, 0%nat, 3)] with ([] ++ [(0, 0%nat, 3)]). hopto tt 0 4%nat 1 0%nat 1 1%nat 3 plain. apply gone_nil. lia.
    + exists (0, 0%nat, 3). exists (add_range 0 3 3), 0%nat, 3. cbn. repeat split; auto; lia.
    + off 0%nat 3. left; auto.
  - exists (mkp 0 3 [] [] 0 4%nat 0 tt [add_range 0 1 1] tt), (mkp 0 3 [] [(0, 0%nat, 1)] 1 1%nat 1 tt [add_range 2 1 1] tt).
    split; [|split; [|split]].
    + trav. split; [|vm_compute; reflexivity]. apply gone_nil. lia.
    + trav. split; [|vm_compute; reflexivity]. change [(0, 0%nat, 1)] with ([] ++ [(0, 0%nat, 1)]). hopto tt 0 4%nat 1 0%nat 1 1%nat 1 plain. apply gone_nil. lia.
    + exists (0, 0%nat, 1). exists (add_range 0 1 1), 0%nat, 1. cbn. repeat split; auto; lia.
    + off 0%nat 1. left; auto.
Qed.
Example C37_xy_yx_ex : exists p q, waits (rf_xy 4 2) 4 2 0 1 p q.
Proof.
  exists (mkp 4 7 [] [(4, 0%nat, 0)] 5 1%nat 0 tt [add_range 0 0 0] tt), (mkp 5 11 [] [(5, 0%nat, 0)] 6 1%nat 0 tt [add_range 0 0 0] tt).
  split; [|split; [|split]].
  - trav. split; [|exists true; vm_compute; reflexivity]. change [(4, 0%nat, 0)] with ([] ++ [(4, 0%nat, 0)]). hopto tt 4 4%nat 0 0%nat 5 1%nat 0 ltac:(exists true).
    apply gone_nil. lia.
  - trav. split; [|exists true; vm_compute; reflexivity]. change [(5, 0%nat, 0)] with ([] ++ [(5, 0%nat, 0)]). hopto tt 5 4%nat 0 0%nat 6 1%nat 0 ltac:(exists true).
    apply gone_nil. lia.
  - exists (5, 0%nat, 0). exists (add_range 0 0 0), 0%nat, 0. cbn. repeat split; auto; lia.
  - off 0%nat 0. left; auto.
Qed.
Example C37_romm_ex : exists p q, waits (rf_romm 4 2) 4 2 0 1 p q.
Proof.
  exists (mkp 0 2 [] [] 0 4%nat 0 (0, 0) [add_range 0 0 0] (0, 2)), (mkp 0 2 [] [(0, 0%nat, 0)] 1 1%nat 0 (0, 2) [add_range 0 0 0] (0, 2)).
  split; [|split; [|split]].
  - trav. split; [apply gone_nil; lia|]. exists (fun _ d => d). split; [intros; lia|]. vm_compute. reflexivity.
  - trav. split; [|exists (fun _ d => d); split; [intros; lia|]; vm_compute; reflexivity]. change [(0, 0%nat, 0)] with ([] ++ [(0, 0%nat, 0)]).
    hopto (0, 0) 0 4%nat 0 0%nat 1 1%nat 0 ltac:(exists (fun _ d => d); split; [intros; lia|]). apply gone_nil. lia.
  - exists (0, 0%nat, 0). exists (add_range 0 0 0), 0%nat, 0. cbn. repeat split; auto; lia.
  - off 0%nat 0. left; auto.
Qed.
Example C37_torus_ex : exists p q, waits (rf_torus 4 1 false) 4 1 0 1 p q.
Proof.
  exists (mkp 1 3 [] [(1, 0%nat, 0)] 2 1%nat 0 0 [add_range 0 0 0] 0), (mkp 2 3 [] [(2, 0%nat, 0)] 3 1%nat 0 0 [add_range 2 0 1] 0).
  split; [|split; [|split]].
  - trav. split; [|exists true, true; vm_compute; reflexivity]. change [(1, 0%nat, 0)] with ([] ++ [(1, 0%nat, 0)]).
    hopto 0 1 2%nat 0 0%nat 2 1%nat 0 ltac:(exists true, true). apply gone_nil. lia.
  - trav. split; [|exists true, true; vm_compute; reflexivity]. change [(2, 0%nat, 0)] with ([] ++ [(2, 0%nat, 0)]).
    hopto 0 2 2%nat 0 0%nat 3 1%nat 0 ltac:(exists true, true). apply gone_nil. lia.
  - exists (2, 0%nat, 0). exists (add_range 0 0 0), 0%nat, 0. cbn. repeat split; auto; lia.
  - off 0%nat 0. left; auto.
Qed.
Example C37_min_adapt_ex : exists p q, waits (rf_adapt 4 2) 4 2 0 1 p q.
Proof.
  exists (mkp 4 7 [] [(4, 0%nat, 0)] 5 1%nat 0 tt [add_range 0 0 0] tt), (mkp 5 6 [] [(5, 0%nat, 0)] 6 1%nat 0 tt [add_range 4 0 1] tt).
  split; [|split; [|split]].
  - trav. split; [|vm_compute; reflexivity]. change [(4, 0%nat, 0)] with ([] ++ [(4, 0%nat, 0)]).
    eapply gone_hop with (s := tt) (u := 4) (i := 4%nat) (vc := 1) (p := 0%nat) (v := 5) (j := 1%nat) (vc' := 0) (x := {| o_port := 0; o_lo := 0; o_hi := 0; o_pri := 0 |});
      [ | vm_compute; reflexivity | right; left; reflexivity | reflexivity | cbn; lia | go_link ]. apply gone_nil. lia.
  - trav. split; [|vm_compute; reflexivity]. change [(5, 0%nat, 0)] with ([] ++ [(5, 0%nat, 0)]).
    eapply gone_hop with (s := tt) (u := 5) (i := 4%nat) (vc := 1) (p := 0%nat) (v := 6) (j := 1%nat) (vc' := 0) (x := {| o_port := 0; o_lo := 0; o_hi := 0; o_pri := 0 |});
      [ | vm_compute; reflexivity | right; left; reflexivity | reflexivity | cbn; lia | go_link ]. apply gone_nil. lia.
  - exists (5, 0%nat, 0). exists (add_range 0 0 0), 0%nat, 0. cbn. repeat split; auto; lia.
  - off 0%nat 0. left; auto.
Qed.

(** valiant_mesh can deadlock: at the router of its destination a packet that has not yet reached the intermediate node is offered every channel of its
    type (routefunc.cpp:1354-1371 only splits them elsewhere), so that the two halves wait for each other.  Four packets on the 4 by 4 mesh. *)
Theorem C37_valiant_refuted : exists D, deadlock (rf_valiant 4 2) 4 2 0 1 D.
Proof.
  exists [ mkp 13 12 [(13, 1%nat, 0)] [(12, 3%nat, 1)] 8 2%nat 1 (0, 4) [add_range 3 0 0] (0, 4);
           mkp 8 9 [] [(8, 3%nat, 0); (4, 0%nat, 1)] 5 1%nat 1 (1, 4) [add_range 2 1 1] (1, 4);
           mkp 4 5 [(4, 0%nat, 0)] [(5, 2%nat, 1)] 9 3%nat 1 (0, 13) [add_range 2 0 0] (0, 13);
           mkp 9 8 [] [(9, 2%nat, 0); (13, 1%nat, 1)] 12 0%nat 1 (1, 13) [add_range 3 1 1] (1, 13) ].
  split; [discriminate|]. split; [|split].
  - repeat (apply Forall_cons); [| | | |apply Forall_nil]; trav.
    + split; [|exists 0; split; [cbn; lia|]; vm_compute; reflexivity]. change [(13, 1%nat, 0); (12, 3%nat, 1)] with (([] ++ [(13, 1%nat, 0)]) ++ [(12, 3%nat, 1)]).
      hopto (0, 4) 12 0%nat 0 3%nat 8 2%nat 1 ltac:(exists 0; split; [cbn; lia|]). hopto (0, 0) 13 4%nat 0 1%nat 12 0%nat 0 ltac:(exists 4; split; [cbn; lia|]).
      apply gone_nil. lia.
    + split; [|exists 0; split; [cbn; lia|]; vm_compute; reflexivity]. change [(8, 3%nat, 0); (4, 0%nat, 1)] with (([] ++ [(8, 3%nat, 0)]) ++ [(4, 0%nat, 1)]).
      hopto (0, 4) 4 2%nat 0 0%nat 5 1%nat 1 ltac:(exists 0; split; [cbn; lia|]). hopto (0, 0) 8 4%nat 0 3%nat 4 2%nat 0 ltac:(exists 4; split; [cbn; lia|]).
      apply gone_nil. lia.
    + split; [|exists 0; split; [cbn; lia|]; vm_compute; reflexivity]. change [(4, 0%nat, 0); (5, 2%nat, 1)] with (([] ++ [(4, 0%nat, 0)]) ++ [(5, 2%nat, 1)]).
      hopto (0, 13) 5 1%nat 0 2%nat 9 3%nat 1 ltac:(exists 0; split; [cbn; lia|]). hopto (0, 0) 4 4%nat 0 0%nat 5 1%nat 0 ltac:(exists 13; split; [cbn; lia|]).
      apply gone_nil. lia.
    + split; [|exists 0; split; [cbn; lia|]; vm_compute; reflexivity]. change [(9, 2%nat, 0); (13, 1%nat, 1)] with (([] ++ [(9, 2%nat, 0)]) ++ [(13, 1%nat, 1)]).
      hopto (0, 13) 13 3%nat 0 1%nat 12 0%nat 1 ltac:(exists 0; split; [cbn; lia|]). hopto (0, 0) 9 4%nat 0 2%nat 13 3%nat 0 ltac:(exists 13; split; [cbn; lia|]).
      apply gone_nil. lia.
  - cbn. repeat (apply NoDup_cons; [cbn; intuition congruence|]). apply NoDup_nil.
  - intros p c P. cbn in P. destruct P as [<-|[<-|[<-|[<-|[]]]]]; revert c; cbn [pk_es pk_at mkp].
    + off 3%nat 0. cbn. split; [lia|auto].
    + off 2%nat 1. cbn. split; [lia|auto].
    + off 2%nat 0. cbn. split; [lia|auto 10].
    + off 3%nat 1. cbn. split; [lia|auto].
Qed.
Print Assumptions C37_valiant_refuted.


(** C64: a packet is only offered virtual channels of its type, and no assertion of a routing function fails. *)
Lemma delivers_own : forall St (rf : rfun St) k n b e dist box lk, delivers rf k n b e dist box lk -> own_channels rf k n b e.
Proof.
  intros St rf k n b e dist box lk D src dest l u i vc s r Hs Hd G R. destruct (D src dest l u i vc s Hs Hd G) as [_ [_ [_ [_ [_ A]]]]].
  destruct (A r R) as [es [s' [E [N F]]]]. exists es, s'. split; auto. split; auto. intros x X. destruct (F x X) as [F1 [F2 _]]. auto.
Qed.

Theorem C64_own_channels : forall k n b e, 1 <= k ->
  own_channels (rf_dor k n) k n b e /\
  (k ^ Z.of_nat n <= e - b + 1 -> own_channels (rf_ni k n) k n b e) /\
  (k <= e - b + 1 -> own_channels (rf_pni k n) k n b e) /\
  (b = 0 -> 0 <= e -> own_channels (rf_adapt k n) k n b e) /\
  (2 <= e - b + 1 ->
    own_channels (rf_xy k n) k n b e /\ own_channels (rf_romm k n) k n b e /\ own_channels (rf_valiant k n) k n b e /\
    forall balance, own_channels (rf_torus k n balance) k n b e).
Proof.
  intros k n b e Hk. split; [|split; [|split; [|split]]].
  - eapply delivers_own, C36_dim_order; auto.
  - intros W. eapply delivers_own, (proj1 (C36_per_destination k n b e Hk)); auto.
  - intros W. eapply delivers_own, (proj2 (C36_per_destination k n b e Hk)); auto.
  - intros -> W. eapply delivers_own, C36_min_adapt; auto.
  - intros W. split; [|split; [|split]].
    + eapply delivers_own, C36_xy_yx; auto.
    + eapply delivers_own, C36_romm; auto.
    + intros src dest l u i vc s r Hs Hd G R. destruct (C36_valiant k n b e src dest l u i vc s Hk W Hs Hd G) as [_ [_ A]].
      destruct (A r R) as [x [ph [intm [-> [_ [_ [L [H _]]]]]]]]. exists [x], (ph, intm). split; auto. split; [discriminate|].
      intros y [<-|[]]. auto.
    + intros balance. eapply delivers_own, C36_torus; auto.
Qed.
Print Assumptions C64_own_channels.
Example C64_own_channels_ex : exists l, gone (rf_valiant 4 2) 4 2 2 5 13 12 l 8 2 5 (0, 4) /\ rf_valiant 4 2 (0, 4) (at_router 2 5 13 12 8 2 5) (Some ([add_range 3 2 3], (0, 4))).
Proof.
  eexists. split.
  - hopto (0, 4) 12 0%nat 2 3%nat 8 2%nat 5 ltac:(exists 0; split; [cbn; lia|]). hopto (0, 0) 13 4%nat 2 1%nat 12 0%nat 2 ltac:(exists 4; split; [cbn; lia|]).
    apply gone_nil. lia.
  - exists 0. split; [cbn; lia|]. vm_compute. reflexivity.
Qed.

Theorem C64_injection : forall k n b e, 1 <= k -> b <= e ->
  injects (rf_dor k n) k n b e /\
  (k ^ Z.of_nat n <= e - b + 1 -> injects (rf_ni k n) k n b e) /\
  (k <= e - b + 1 -> injects (rf_pni k n) k n b e) /\
  injects (rf_adapt k n) k n b e /\ injects (rf_xy k n) k n b e /\ injects (rf_romm k n) k n b e /\ injects (rf_valiant k n) k n b e /\
  forall balance, injects (rf_torus k n balance) k n b e.
Proof.
  assert (V : forall b e, vc_assert true (-1) b e = true) by (intros; unfold vc_assert; apply orb_true_iff; right; reflexivity).
  assert (SPLIT : forall b e m c, 1 <= m <= e - b + 1 -> 0 <= c < m -> let v := (e - b + 1) / m in
            (v <=? 0) = false /\ b <= b + c * v <= b + c * v + v - 1 /\ b + c * v + v - 1 <= e).
  { intros b e m c Hm Hc v. pose proof (Z.div_mod (e - b + 1) m). pose proof (Z.mod_pos_bound (e - b + 1) m).
    assert (1 <= v) by (unfold v; apply Z.div_le_lower_bound; lia). fold v in H. assert (m * v <= e - b + 1) by lia. split; [lia|]. nia. }
  assert (ALL : forall b e, b <= e -> forall St (s : St), exists y s', Some ([add_range (-1) b e], s) = Some ([y], s') /\ o_port y = -1 /\ b <= o_lo y <= o_hi y /\ o_hi y <= e).
  { intros b e W St s. exists (add_range (-1) b e), s. cbn. split; auto. lia. }
  intros k n b e Hk W. split; [|split; [|split; [|split; [|split; [|split; [|split]]]]]]; [|intros K|intros K| | | | |intros balance]; intros s x r I C B E D R.
  - unfold rf_dor, rf_pure, dim_order_mesh in R. rewrite I, C, V in R. rewrite R, B, E. apply ALL; auto.
  - unfold rf_ni, rf_pure, dim_order_ni_mesh in R. rewrite I, C, V, B, E in R. cbn [negb orb] in R.
    destruct (SPLIT b e (k ^ Z.of_nat n) (ri_dest x)) as [S1 S2]; [pose proof (Z.pow_pos_nonneg k (Z.of_nat n)); unfold on_grid in D; lia|exact D|]. rewrite S1 in R. rewrite R.
    eexists _, _. split; [reflexivity|]. cbn [o_port o_lo o_hi add_range]. split; [auto|lia].
  - unfold rf_pni, rf_pure, dim_order_pni_mesh in R. rewrite I, C, V, B, E in R. cbn [negb orb] in R.
    destruct (SPLIT b e k (ri_dest x mod k)) as [S1 S2]; [lia|apply Z.mod_pos_bound; lia|]. rewrite S1 in R. rewrite R.
    eexists _, _. split; [reflexivity|]. cbn [o_port o_lo o_hi add_range]. split; [auto|lia].
  - unfold rf_adapt, rf_pure, min_adapt_mesh in R. rewrite I, C, V in R. rewrite R, B, E. apply ALL; auto.
  - destruct R as [xy R]. unfold rf_pure, xy_yx_mesh in R. rewrite I, C, V in R. rewrite R, B, E. apply ALL; auto.
  - destruct R as [rnd [_ R]]. unfold romm_mesh, two_phase_mesh in R. rewrite I, C, V in R. cbn [negb] in R. rewrite R, B, E. apply ALL; auto.
  - destruct R as [rnd [_ R]]. unfold valiant_mesh, two_phase_mesh in R. rewrite I, C, V in R. cbn [negb] in R. rewrite R, B, E. apply ALL; auto.
  - destruct R as [r1 [r2 R]]. unfold dim_order_torus in R. rewrite I, C, V in R. rewrite R, B, E. apply ALL; auto.
Qed.
Print Assumptions C64_injection.
Example C64_injection_ex : exists r, rf_romm 4 2 (0, 0) {| ri_cur := 3; ri_in := 0; ri_src := 3; ri_dest := 9; ri_vc := -1; ri_b := 2; ri_e := 4; ri_inject := true |} r.
Proof. eexists. exists (fun _ _ => 0). split; [intros; lia|reflexivity]. Qed.

(** The arguments of AddRange on line 1012 are in the wrong order: a type whose channels do not start at 0 is offered those of other types. *)
Theorem C64_min_adapt_refuted : forall b e, 0 < b <= e -> ~ own_channels (rf_adapt 4 2) 4 2 b e.
Proof.
  intros b e W O. destruct (O 0 5 [] 0 4%nat b tt (Some (os_adds ({| o_port := 0; o_lo := 0; o_hi := b; o_pri := b |} ::
    (if e =? b then [] else adapt_outs 4 2 0 0 5 b e)), tt))) as [es [s' [E [_ F]]]]; try (unfold on_grid; cbn; lia).
  - apply gone_nil. lia.
  - unfold rf_adapt, rf_pure, min_adapt_mesh, vc_assert. cbn [at_router ri_cur ri_in ri_src ri_dest ri_vc ri_b ri_e ri_inject].
    replace (b <=? b) with true by lia. replace (b <=? e) with true by lia. reflexivity.
  - inversion E; subst es s'. destruct (F _ (os_adds_first _ _)) as [F1 _]. cbn in F1. lia.
Qed.
Print Assumptions C64_min_adapt_refuted.

(** With one virtual channel per type, the partition that RAD-Sim writes by default, an assertion fails as soon as a packet has to move. *)
Theorem C64_one_channel_refuted : forall b src dest, on_grid 4 2 src -> on_grid 4 2 dest -> src <> dest ->
  (forall r, rf_xy 4 2 tt (at_router b b src dest src 4 b) r -> r = None) /\
  (forall s r, rf_romm 4 2 s (at_router b b src dest src 4 b) r -> r = None) /\
  (forall s r, rf_valiant 4 2 s (at_router b b src dest src 4 b) r -> r = None) /\
  (forall balance s r, rf_torus 4 2 balance s (at_router b b src dest src 4 b) r -> r = None).
Proof.
  intros b src dest Hs Hd N. assert (V : vc_assert false b b b = true) by (unfold vc_assert; lia). assert (Z2 : (b - b + 1) / 2 = 0) by (replace (b - b + 1) with 1 by lia; reflexivity).
  assert (NE : (src =? dest) = false) by lia.
  split; [|split; [|split]].
  - intros r [xy ->]. unfold xy_yx_mesh. cbn [at_router ri_cur ri_in ri_src ri_dest ri_vc ri_b ri_e ri_inject]. rewrite V, NE, Z2. reflexivity.
  - intros s r [rnd [_ ->]]. unfold romm_mesh, two_phase_mesh. cbn [at_router ri_cur ri_in ri_src ri_dest ri_vc ri_b ri_e ri_inject]. rewrite V, NE, Z2.
    destruct (Nat.eqb 4 (2 * 2)); reflexivity.
  - intros s r [rnd [_ ->]]. unfold valiant_mesh, two_phase_mesh. cbn [at_router ri_cur ri_in ri_src ri_dest ri_vc ri_b ri_e ri_inject]. rewrite V, NE, Z2.
    destruct (Nat.eqb 4 (2 * 2)); reflexivity.
  - intros balance s r [r1 [r2 ->]]. unfold dim_order_torus. cbn [at_router ri_cur ri_in ri_src ri_dest ri_vc ri_b ri_e ri_inject]. rewrite V, NE, Z2.
    destruct (dor_next_torus 4 2 balance r1 r2 4 s src dest). reflexivity.
Qed.
Print Assumptions C64_one_channel_refuted.

(** C65: every network of a design routes with the radix, the dimension and the number of nodes of the one that was built last. *)
Theorem C65_alike : forall k n cfgs b e, 1 <= k -> cfgs <> [] -> (forall c, In c cfgs -> c = (k, n)) ->
  delivers (rf_shared cfgs) k n b e (mesh_dist k n) (in_box k n) (mesh_link k n).
Proof.
  intros k n cfgs b e Hk NE A. replace (rf_shared cfgs) with (rf_dor k n); [apply C36_dim_order; auto|].
  unfold rf_shared, rf_dor, dim_order_mesh_g, build_nets. rewrite (app_removelast_last (k, n) NE), fold_left_app. cbn [fold_left].
  assert (L : last cfgs (k, n) = (k, n)) by (apply A; rewrite (app_removelast_last (k, n) NE) at 2; apply in_or_app; right; left; reflexivity).
  rewrite L. unfold build_net. cbn [g_k g_n g_nodes fst snd]. rewrite powi_pow. reflexivity.
Qed.
Print Assumptions C65_alike.
Example C65_alike_ex : [(4, 2%nat); (4, 2%nat)] <> [] /\ forall c, In c [(4, 2%nat); (4, 2%nat)] -> c = (4, 2%nat).
Proof. split; [discriminate|]. intros c [<-|[<-|[]]]; reflexivity. Qed.

(** A 4 by 4 mesh built before a 2 by 2 mesh: a packet from node 0 to node 2 of the first goes round column 0 for ever. *)
Theorem C65_other_radix_refuted : forall b e, b <= e -> let rf := rf_shared [(4, 2%nat); (2, 2%nat)] in
  (forall l u i vc s, gone rf 4 2 b e 0 2 l u i vc s -> (u = 0 \/ u = 4 \/ u = 8 \/ u = 12) /\ b <= vc <= e /\
     exists s', rf s (at_router b e 0 2 u i vc) (Some ([add_range 2 b e], s'))) /\
  (forall m, exists l u i vc s, gone rf 4 2 b e 0 2 l u i vc s /\ length l = m).
Proof.
  intros b e W rf.
  assert (ST : forall u i vc r s, (u = 0 \/ u = 4 \/ u = 8 \/ u = 12) -> b <= vc <= e -> rf s (at_router b e 0 2 u i vc) r <-> r = Some ([add_range 2 b e], tt)).
  { intros u i vc r s U V. unfold rf, rf_shared, rf_pure, dim_order_mesh_g, dim_order_mesh. cbn [at_router ri_cur ri_in ri_src ri_dest ri_vc ri_b ri_e ri_inject].
    replace (vc_assert false vc b e) with true by (unfold vc_assert; lia). cbn [negb].
    destruct U as [->|[->|[->| ->]]]; reflexivity. }
  assert (HP : forall u v j, (u = 0 \/ u = 4 \/ u = 8 \/ u = 12) -> linked 4 2 u 2 v j -> v = 0 \/ v = 4 \/ v = 8 \/ v = 12).
  { intros u v j U L. apply linked_iff in L; [|lia]. destruct L as [_ [_ [-> _]]]. destruct U as [->|[->|[->| ->]]]; vm_compute; auto. }
  assert (INV : forall l u i vc s, gone rf 4 2 b e 0 2 l u i vc s -> (u = 0 \/ u = 4 \/ u = 8 \/ u = 12) /\ b <= vc <= e).
  { intros l u i vc s G. induction G as [vc s V|l u i vc s es s' x p v j vc' G [IU IV] R X P V L]; [auto|].
    apply ST in R; auto. inversion R; subst es s'. destruct X as [<-|[]]. cbn in P, V. assert (p = 2%nat) by lia. subst p. split; [eapply HP; eauto|auto]. }
  split.
  - intros l u i vc s G. destruct (INV l u i vc s G) as [U V]. split; auto. split; auto. exists tt. apply ST; auto.
  - induction m as [|m [l [u [i [vc [s [G L]]]]]]].
    + exists [], 0, 4%nat, b, tt. split; [apply (gone_nil rf 4 2 b e 0 2 b tt); lia|reflexivity].
    + destruct (INV l u i vc s G) as [U V]. assert (Hu : on_grid 4 2 u) by (unfold on_grid; cbn; lia).
      destruct (proj1 (wiring 4 2 ltac:(lia)) u 2%nat Hu ltac:(lia)) as [v [j K]].
      exists (l ++ [(u, 2%nat, b)]), v, j, b, tt. split; [|rewrite app_length; cbn; lia].
      apply gone_hop with (i := i) (vc := vc) (s := s) (es := [add_range 2 b e]) (x := add_range 2 b e); auto; [apply ST; auto|left; auto|cbn; lia].
Qed.
Print Assumptions C65_other_radix_refuted.

(** C66: minimal adaptive routing offers every direction towards the destination.  It does not: an OutputSet keeps one element per priority, so that
    all outputs offered lie on the port of dimension-order routing, and on the 4 by 4 mesh a packet from 0 to 5 is never offered the second one. *)
Theorem C66_adaptive_refuted : forall k n b e src dest u i vc s es s', u <> dest ->
  rf_adapt k n s (at_router b e src dest u i vc) (Some (es, s')) ->
  forall x, In x es -> o_port x = Z.of_nat (dor_next_mesh k n (k ^ Z.of_nat n) false u dest).
Proof.
  intros k n b e src dest u i vc s es s' N R x X. unfold rf_adapt, rf_pure in R.
  destruct (min_adapt_mesh k n (k ^ Z.of_nat n) (at_router b e src dest u i vc)) as [es1|] eqn:E; [|discriminate]. injection R as -> _.
  apply (adapt_one_port k n (k ^ Z.of_nat n) (at_router b e src dest u i vc) es1 x E); auto.
Qed.
Print Assumptions C66_adaptive_refuted.
Example C66_adaptive_refuted_ex : mesh_dist 4 2 4 5 < mesh_dist 4 2 0 5 /\ linked 4 2 0 2 4 3 /\
  exists es, rf_adapt 4 2 tt (at_router 0 2 0 5 0 4 1) (Some (es, tt)) /\ forall x, In x es -> o_port x <> 2.
Proof.
  split; [reflexivity|]. split; [go_link|]. eexists. split; [vm_compute; reflexivity|]. intros x [<-|[<-|[]]]; discriminate.
Qed.
