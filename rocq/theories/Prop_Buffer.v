(** C33, C63 : the credit tracker of a downstream buffer. *)
From Coq Require Import ZArith Arith Bool List Lia.
From Verif Require Import Fupd BufferModel BufferSpec BufferProofs.
Import ListNotations.
Open Scope Z_scope.

(** C33. Private buffers: no check ever fails, occupancy is flits sent minus credits received, at most
    the size of the buffer of the channel, and a channel is reported available exactly when no packet
    is under way on it (and, when so configured, all its credits are back), and full exactly when its
    buffer is. *)
Theorem C33_exact : forall vcs buf_size vc_buf_size wait c P es,
  new_private vcs buf_size vc_buf_size wait = Some (c, P) -> (0 < vcs)%nat -> buf_size <> 0 -> lawful c P es ->
  exists s, bs_run c P es (bufs0 P) = Some s /\ tracks c P es s /\
    forall v, (v < vcs)%nat -> let z := if buf_size <? 0 then vc_buf_size else buf_size / Z.of_nat vcs in
      sent v es - credited v es <= z /\ forall t, po_full P t (bs_b s) v (bs_p s) = Some false <-> sent v es - credited v es < z.
Proof.
  intros vcs bz vz wait c P es E Hv Hb L. unfold new_private in E.
  replace (if bz <=? 0 then vz else bz / Z.of_nat vcs) with (if bz <? 0 then vz else bz / Z.of_nat vcs) in E
    by (destruct (Z.ltb_spec bz 0), (Z.leb_spec bz 0); auto; lia).
  set (z := if bz <? 0 then vz else bz / Z.of_nat vcs) in *. destruct (Z.ltb_spec 0 z) as [Hz|]; [|discriminate]. injection E as <- <-.
  destruct (tracker_ok _ _ _ (private_ok {| bc_vcs := vcs; bc_size := if bz <? 0 then Z.of_nat vcs * vz else bz; bc_wait := wait |} z
    ltac:(cbn [bc_size bc_vcs]; unfold z; destruct (Z.ltb_spec bz 0); [lia|]; pose proof (Z.mul_div_le bz (Z.of_nat vcs)); lia)) es L) as [s [R [T [I _]]]].
  exists s. split; auto. split; auto. intros v Hvv. cbv zeta. fold z. specialize (I v Hvv). destruct T as [_ T]. destruct (T v Hvv) as [T1 _]. split; [lia|].
  intros t. cbn [private_policy po_full]. destruct (Z.leb_spec z (b_vocc (bs_b s) v)); split; intros; try lia; try discriminate; auto.
Qed.
Print Assumptions C33_exact.

Definition ex_events : list (Z * bev) :=
  [(0, ETake 0 3); (0, ETake 1 5); (1, ESend 0 false); (2, ESend 1 true); (3, ESend 0 false); (4, ECredit [0%nat; 1%nat]);
   (5, ETake 1 6); (6, ESend 0 true); (7, ESend 1 false); (8, ECredit [0%nat]); (9, ETake 0 7)].
Example C33_exact_ex : match new_private 2 (-1) 2 false with
  | Some (c, P) => lawful c P ex_events /\
      match bs_run c P ex_events (bufs0 P) with Some s => b_occ (bs_b s) = 2 /\ b_vocc (bs_b s) 0%nat = 1 /\ available_for (bs_b s) 0 = false | None => False end
  | None => False end.
Proof. cbn [new_private]. vm_compute new_private. cbv match. split; [apply lawfulb_ok; vm_compute; reflexivity|vm_compute; auto]. Qed.

(** C33. With the setting buf_size = 0 the channels have room, yet the first flit ends the simulation. *)
Theorem C33_zero_size_refuted : forall vcs vc_buf_size wait, (0 < vcs)%nat -> 0 < vc_buf_size ->
  exists c P, new_private vcs 0 vc_buf_size wait = Some (c, P) /\ lawful c P [(0, ETake 0 0); (1, ESend 0 true)] /\
    bs_run c P [(0, ETake 0 0); (1, ESend 0 true)] (bufs0 P) = None.
Proof.
  intros vcs z w Hv Hz. unfold new_private. cbn [Z.leb Z.ltb Z.compare]. rewrite (proj2 (Z.ltb_lt 0 z) Hz). eexists _, _. split; [reflexivity|].
  assert (E : bs_take {| bc_vcs := vcs; bc_size := 0; bc_wait := w |} (private_policy z) 0 0 (bufs0 (private_policy z)) =
    Some (Build_bufs (private_policy z) {| b_occ := 0; b_vocc := fun _ => 0; b_use := fupd (fun _ => -1) 0%nat 0; b_tail := fupd (fun _ => false) 0%nat false |} tt)).
  { unfold bs_take. cbn [bc_vcs]. rewrite (proj2 (Nat.ltb_lt 0 vcs) Hv). reflexivity. }
  split.
  - split; [cbn; repeat split; auto; lia|]. intros s' E'. cbn [bs_step] in E'. rewrite E in E'. injection E' as <-. split.
    + cbn. split; [auto|]. split; [auto|]. rewrite (proj2 (Z.leb_gt z 0)) by lia. auto.
    + intros. exact Logic.I.
  - cbn [bs_run bs_step]. rewrite E. unfold bs_send. cbn [bc_vcs bc_size bs_b b_occ]. rewrite (proj2 (Nat.ltb_lt 0 vcs) Hv). reflexivity.
Qed.
Print Assumptions C33_zero_size_refuted.
Example C33_zero_size_refuted_ex : match new_private 4 0 8 false with
  | Some (c, P) => bs_run c P [(0, ETake 0 0); (1, ESend 0 true)] (bufs0 P) = None | None => False end.
Proof. vm_compute. reflexivity. Qed.

(** C63. A shared buffer: no check ever fails, occupancy is exact, and all channels together never
    occupy more than the buffer.  A channel whose private buffer has room may send (with a limit per
    channel: when it is empty). *)
Definition shared_cfg (vcs : nat) (buf : Z) (wait : bool) : bcfg := {| bc_vcs := vcs; bc_size := buf; bc_wait := wait |}.
Definition within (c : bcfg) (P : bpolicy) (sc : shcfg) (es : list (Z * bev)) (buf : Z) (can : nat -> Prop) : Prop :=
  exists s, bs_run c P es (bufs0 P) = Some s /\ tracks c P es s /\ total (fun v => sent v es - credited v es) (bc_vcs c) <= buf /\
    forall v, (v < bc_vcs c)%nat -> has_room (bc_vcs c) sc es v -> can v -> forall t, po_full P t (bs_b s) v (bs_p s) = Some false.
Lemma within_ok : forall vcs buf wait sc psizes starts ends P I es (can : nat -> Prop), new_shared vcs buf psizes starts ends = Some sc -> Forall (fun p => 0 <= p) psizes ->
  policy_ok (shared_cfg vcs buf wait) P I ->
  (forall b p, I b p -> exists s, sh_ok (shared_cfg vcs buf wait) sc b s /\
     forall v t, (v < vcs)%nat -> sh_full sc v s = false -> can v -> b_vocc b v = sent v es - credited v es -> po_full P t b v p = Some false) ->
  lawful (shared_cfg vcs buf wait) P es -> within (shared_cfg vcs buf wait) P sc es buf can.
Proof.
  intros vcs buf wait sc psizes starts ends P I es can E F HP HI L. destruct (new_shared_ok _ _ _ _ _ _ E) as [A1 [A2 [A3 [A4 A5]]]].
  destruct (tracker_ok _ _ _ HP es L) as [s [R [T [Is Y]]]]. exists s. split; auto. split; auto.
  destruct (HI _ _ Is) as [sh [Hs Hf]]. pose proof (sh_bound (shared_cfg vcs buf wait) sc A1 A2 _ _ Hs) as B.
  pose proof (res_nonneg (shared_cfg vcs buf wait) sc _ _ Hs) as N. destruct T as [_ T].
  assert (O : forall v, (v < vcs)%nat -> b_vocc (bs_b s) v = sent v es - credited v es) by (intros v Hv; destruct (T v Hv) as [-> _]; reflexivity).
  split.
  - rewrite (total_ext _ (b_vocc (bs_b s))); [rewrite A4 in B; lia|]. intros v Hv. symmetry. auto.
  - intros v Hv Hr Hc t. apply Hf; auto. exact (sh_open (shared_cfg vcs buf wait) sc (bs_b s) sh es v A1 Hs O Y Hv Hr).
Qed.

Theorem C63_shared : forall vcs buf wait psizes starts ends sc es,
  new_shared vcs buf psizes starts ends = Some sc -> Forall (fun p => 0 <= p) psizes ->
  lawful (shared_cfg vcs buf wait) (shared_policy sc) es -> within (shared_cfg vcs buf wait) (shared_policy sc) sc es buf (fun _ => True).
Proof.
  intros vcs buf wait psizes starts ends sc es E F L. destruct (new_shared_ok _ _ _ _ _ _ E) as [A1 [A2 [A3 [A4 A5]]]].
  apply (within_ok vcs buf wait sc psizes starts ends _ _ es _ E F (shared_ok (shared_cfg vcs buf wait) sc A1 (A5 F) A2 A3 (eq_sym A4))); auto.
  intros b p X. exists p. split; auto. intros v t Hv Hf _ _. cbn [shared_policy po_full]. rewrite Hf. reflexivity.
Qed.
Print Assumptions C63_shared.

(** C63. The same with a limit per channel: a fixed one, or one divided among the active channels. *)
Theorem C63_limited : forall vcs buf wait psizes starts ends sc k es,
  new_shared vcs buf psizes starts ends = Some sc -> Forall (fun p => 0 <= p) psizes -> 0 < buf ->
  (match k with Fixed _ => True | Dynamic => Z.of_nat vcs <= buf | Shifting => 2 ^ Z.log2_up (Z.of_nat vcs) <= buf end) ->
  lawful (shared_cfg vcs buf wait) (limited_policy sc vcs k) es -> within (shared_cfg vcs buf wait) (limited_policy sc vcs k) sc es buf (fun v => sent v es = credited v es /\ k <> Fixed 0).
Proof.
  intros vcs buf wait psizes starts ends sc k es E F Hb Hk L. destruct (new_shared_ok _ _ _ _ _ _ E) as [A1 [A2 [A3 [A4 A5]]]].
  apply (within_ok vcs buf wait sc psizes starts ends _ _ es _ E F (limited_ok (shared_cfg vcs buf wait) sc A1 (A5 F) A2 A3 (eq_sym A4) k ltac:(unfold roomy; rewrite A4; exact Hk) ltac:(rewrite A4; exact Hb))); auto.
  intros b p [X [_ Y]]. exists (li_sh p). split; auto. intros v t Hv Hf [Hc Hk0] O. cbn [limited_policy po_full]. rewrite Hf. cbn [orb]. f_equal. apply Z.leb_gt.
  rewrite O, Hc. destruct k as [mh| |]; [|lia|lia]. assert (mh <> 0) by congruence. rewrite A4 in Y. destruct (Z.ltb_spec mh 0); lia.
Qed.
Print Assumptions C63_limited.

(** C63. A slot per channel is not enough for the halving limit: with five channels and five slots the
    fifth allocation ends the simulation. *)
Definition five : list (Z * bev) := [(0, ETake 0 0); (0, ETake 1 1); (0, ETake 2 2); (0, ETake 3 3); (0, ETake 4 4)].
Theorem C63_shifting_refuted : exists sc, default_shared 5 5 8 (-1) 1 = Some sc /\
  lawful (shared_cfg 5 5 false) (limited_policy sc 5 Shifting) five /\
  bs_run (shared_cfg 5 5 false) (limited_policy sc 5 Shifting) five (bufs0 (limited_policy sc 5 Shifting)) = None.
Proof. eexists. split; [reflexivity|]. split; [apply lawfulb_ok; vm_compute; reflexivity|vm_compute; reflexivity]. Qed.
Print Assumptions C63_shifting_refuted.
Example C63_shifting_refuted_ex : shift_limit 5 5 = 0 /\ shift_limit 8 5 = 1.
Proof. vm_compute. auto. Qed.

(** C63. The same with a limit from measured round trip times, for every sequence of times. *)
Theorem C63_feedback : forall vcs buf wait psizes starts ends sc f es,
  new_shared vcs buf psizes starts ends = Some sc -> Forall (fun p => 0 <= p) psizes -> 0 <= fc_minlat f ->
  lawful (shared_cfg vcs buf wait) (feedback_policy sc f) es -> within (shared_cfg vcs buf wait) (feedback_policy sc f) sc es buf (fun v => sent v es = credited v es /\ 0 < buf).
Proof.
  intros vcs buf wait psizes starts ends sc f es E F Hf L. destruct (new_shared_ok _ _ _ _ _ _ E) as [A1 [A2 [A3 [A4 A5]]]].
  apply (within_ok vcs buf wait sc psizes starts ends _ _ es _ E F (feedback_ok (shared_cfg vcs buf wait) sc A1 (A5 F) A2 A3 (eq_sym A4) f Hf)); auto.
  intros b p [X [Hl Hm]]. exists (fb_sh p). split; auto. intros v t Hv Hs [Hc Hb] O. cbn [feedback_policy po_full]. unfold fb_full, fb_max_slots. rewrite Hs.
  rewrite <- A4 in Hb. specialize (Hm Hb v). specialize (Hl v Hv). rewrite O, Hc in *. destruct (fb_sent p v); [|cbn [length] in Hl; lia]. f_equal. apply Z.leb_gt. lia.
Qed.
Print Assumptions C63_feedback.
Theorem C63_simple_feedback : forall vcs buf wait psizes starts ends sc f es,
  new_shared vcs buf psizes starts ends = Some sc -> Forall (fun p => 0 <= p) psizes -> 0 <= fc_minlat f ->
  lawful (shared_cfg vcs buf wait) (simple_feedback_policy sc f) es -> within (shared_cfg vcs buf wait) (simple_feedback_policy sc f) sc es buf (fun v => sent v es = credited v es /\ 0 < buf).
Proof.
  intros vcs buf wait psizes starts ends sc f es E F Hf L. destruct (new_shared_ok _ _ _ _ _ _ E) as [A1 [A2 [A3 [A4 A5]]]].
  apply (within_ok vcs buf wait sc psizes starts ends _ _ es _ E F (simple_feedback_ok (shared_cfg vcs buf wait) sc A1 (A5 F) A2 A3 (eq_sym A4) f Hf)); auto.
  intros b p [X Hl]. exists (fb_sh p). split; auto. intros v t Hv Hs [Hc Hb] O. cbn [simple_feedback_policy po_full]. unfold fb_full, fb_max_slots. rewrite Hs.
  rewrite <- A4 in Hb. destruct (Hl v Hv) as [H1 [H2 H3]]. specialize (H3 Hb). rewrite O, Hc in *. destruct (fb_sent p v) as [|x [|]]; [|lia|tauto]. f_equal. apply Z.leb_gt. lia.
Qed.
Print Assumptions C63_simple_feedback.

(** C63. The constructor succeeds for the default ranges: at most as many private buffers as channels
    and a shared part that is not negative. *)
Theorem C63_constructible : forall vcs buf_size vc_buf_size private_bufs private_size,
  let n := if private_bufs <? 0 then vcs else if private_bufs =? 0 then 1%nat else Z.to_nat private_bufs in
  let buf := if buf_size <? 0 then Z.of_nat vcs * vc_buf_size else buf_size in
  (0 < n <= vcs)%nat -> private_size < 0 \/ Z.of_nat n * private_size <= buf ->
  exists sc, default_shared vcs buf_size vc_buf_size private_bufs private_size = Some sc.
Proof.
  intros vcs bz vz pb ps n buf Hn Hp. unfold default_shared. change (default_bufs vcs pb) with n. fold buf. apply default_ok; auto.
  destruct (Z.ltb_spec ps 0); [|lia]. apply Z.mul_div_le. lia.
Qed.
Print Assumptions C63_constructible.
Example C63_constructible_ex : match default_shared 5 (-1) 8 3 2 with
  | Some sc => map (sc_map sc) (seq 0 5) = [0%nat; 1%nat; 1%nat; 2%nat; 2%nat] /\ sc_shared sc = 34 | None => False end.
Proof. vm_compute. auto. Qed.

(** Channel 0 keeps a reserved slot after its flits were all credited, and channel 1 uses the shared slot. *)
Definition sh_events : list (Z * bev) :=
  [(0, ETake 0 3); (0, ETake 1 5); (1, ESend 0 false); (2, ESend 1 false); (3, ESend 1 false); (4, ECredit [0%nat; 1%nat]);
   (6, ESend 0 true); (7, ESend 1 true); (8, ECredit [0%nat]); (9, ETake 0 7); (10, ECredit [1%nat])].
Example C63_shared_ex : match default_shared 2 3 8 (-1) 1 with
  | Some sc => lawful (shared_cfg 2 3 false) (shared_policy sc) sh_events /\
     match bs_run (shared_cfg 2 3 false) (shared_policy sc) sh_events (bufs0 (shared_policy sc)) with Some s => b_occ (bs_b s) = 1 | None => False end
  | None => False end.
Proof. vm_compute default_shared. cbv match. split; [apply lawfulb_ok; vm_compute; reflexivity|vm_compute; auto]. Qed.
Example C63_limited_ex : match default_shared 2 4 8 (-1) 1 with
  | Some sc => lawful (shared_cfg 2 4 true) (limited_policy sc 2 Dynamic) (firstn 8 sh_events) /\ lawful (shared_cfg 2 4 true) (limited_policy sc 2 Shifting) (firstn 8 sh_events) /\
     lawful (shared_cfg 2 4 true) (limited_policy sc 2 (Fixed 2)) (firstn 8 sh_events)
  | None => False end.
Proof. vm_compute default_shared. cbv match. split; [|split]; apply lawfulb_ok; vm_compute; reflexivity. Qed.
Definition fb_events : list (Z * bev) :=
  [(0, ETake 0 3); (0, ETake 1 5); (1, ESend 0 false); (2, ESend 1 false); (3, ESend 1 false); (5, ECredit [0%nat; 1%nat]);
   (6, ESend 0 true); (12, ECredit [0%nat; 1%nat]); (13, ETake 0 7); (14, ESend 0 false)].
Example C63_feedback_ex : match default_shared 2 8 8 (-1) 1 with
  | Some sc => lawful (shared_cfg 2 8 false) (feedback_policy sc {| fc_scale := 1; fc_offset := 0; fc_minlat := 3 |}) fb_events | None => False end.
Proof. vm_compute default_shared. cbv match. apply lawfulb_ok; vm_compute; reflexivity. Qed.
Example C63_simple_feedback_ex : match default_shared 2 8 8 (-1) 1 with
  | Some sc => lawful (shared_cfg 2 8 false) (simple_feedback_policy sc {| fc_scale := 1; fc_offset := 0; fc_minlat := 3 |}) fb_events | None => False end.
Proof. vm_compute default_shared. cbv match. apply lawfulb_ok; vm_compute; reflexivity. Qed.
