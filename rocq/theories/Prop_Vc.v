(** C12, C13, C58 : packet types and virtual channels. *)
From Coq Require Import ZArith Bool List Lia.
From Verif Require Import VcModel VcProofs.
Import ListNotations.
Local Open Scope Z_scope.

(** C12, requests. Every channel of the range of a request type maps back to the type, hence
    also the one the sender chose. *)
Theorem C12_request_roundtrip : forall r t vc,
  (forall a b x, (a = 0 \/ a = 1 \/ a = 2) -> (b = 0 \/ b = 1 \/ b = 2) -> a <> b ->
     ~ (fst (r a) <= x <= snd (r a) /\ fst (r b) <= x <= snd (r b))) ->
  (t = 0 \/ t = 1 \/ t = 2) -> fst (r t) <= vc <= snd (r t) ->
  inverse_vc_master r vc = Some t /\ inverse_vc_master r (vcid_from_type r t) = Some t.
Proof.
  intros r t vc D T H. split; apply inverse_master_in; auto.
  rewrite vcid_begin by lia. lia.
Qed.
Print Assumptions C12_request_roundtrip.

Definition ex_r : vcranges := fun t => (2 * t, 2 * t + 1).
Example C12_request_roundtrip_ex :
  (forall a b x, (a = 0 \/ a = 1 \/ a = 2) -> (b = 0 \/ b = 1 \/ b = 2) -> a <> b ->
     ~ (fst (ex_r a) <= x <= snd (ex_r a) /\ fst (ex_r b) <= x <= snd (ex_r b))) /\
  inverse_vc_master ex_r 5 = Some 2 /\ inverse_vc_master ex_r (vcid_from_type ex_r 1) = Some 1.
Proof. split; [|split; reflexivity]. unfold ex_r. cbn [fst snd]. intros. lia. Qed.

(** C12, responses. *)
Theorem C12_response_roundtrip : forall r t vc,
  (forall x, ~ (fst (r 3) <= x <= snd (r 3) /\ fst (r 4) <= x <= snd (r 4))) ->
  (t = 3 \/ t = 4) -> fst (r t) <= vc <= snd (r t) ->
  inverse_vc_slave r vc = Some t /\ inverse_vc_slave r (vcid_from_type r t) = Some t.
Proof.
  intros r t vc D T H. split; apply inverse_slave_in; auto.
  rewrite vcid_begin by lia. lia.
Qed.
Print Assumptions C12_response_roundtrip.

Example C12_response_roundtrip_ex :
  (forall x, ~ (fst (ex_r 3) <= x <= snd (ex_r 3) /\ fst (ex_r 4) <= x <= snd (ex_r 4))) /\
  inverse_vc_slave ex_r 7 = Some 3 /\ inverse_vc_slave ex_r (vcid_from_type ex_r 4) = Some 4.
Proof. split; [|split; reflexivity]. unfold ex_r. cbn [fst snd]. intros. lia. Qed.

(** C13. Accepted counts give ranges that partition the channels into equal parts. *)
Theorem C13_ranges_partition : forall vcs types l, gen_ranges vcs types = Some l -> 1 <= vcs -> 1 <= types ->
  Z.of_nat (length l) = types /\
  (forall k x, nth_error l k = Some x -> 0 <= fst x <= snd x /\ snd x < vcs /\ snd x - fst x + 1 = vcs / types) /\
  (forall vc, 0 <= vc < vcs -> exists k x, nth_error l k = Some x /\ fst x <= vc <= snd x) /\
  (forall k1 k2 x1 x2 vc, nth_error l k1 = Some x1 -> nth_error l k2 = Some x2 ->
     fst x1 <= vc <= snd x1 -> fst x2 <= vc <= snd x2 -> k1 = k2).
Proof. exact gen_partition. Qed.
Print Assumptions C13_ranges_partition.

Example C13_ranges_partition_ex : gen_ranges 6 3 = Some [(0, 1); (2, 3); (4, 5)].
Proof. reflexivity. Qed.

(** C13. Exactly the multiples are accepted, for up to five types. *)
Theorem C13_accepts : forall vcs types, 1 <= types ->
  (gen_ranges vcs types <> None <-> types <= 5 /\ exists k, vcs = types * k).
Proof.
  intros vcs types T. unfold gen_ranges. destruct (Z.eqb_spec types 0); [lia|].
  destruct (Z.eqb_spec (vcs mod types) 0) as [E|E]; cbn [negb].
  - destruct (Z.ltb_spec 5 types).
    + split; [congruence|]. intros (A & _). lia.
    + split; [|discriminate]. intros _. split; [lia|]. exists (vcs / types). apply Z.div_exact; lia.
  - split; [congruence|]. intros (_ & k & ->). exfalso. apply E. rewrite Z.mul_comm. apply Z.mod_mul. lia.
Qed.
Print Assumptions C13_accepts.

Example C13_accepts_ex : gen_ranges 10 5 <> None /\ gen_ranges 9 5 = None /\ gen_ranges 12 6 = None.
Proof. repeat split; discriminate. Qed.

(** C12 with C13. For the configurations that config.py generates with five packet types,
    every type travels on an existing channel and is recovered by the receiver. *)
Theorem C12_generated_config : forall vcs l, gen_ranges vcs 5 = Some l -> 1 <= vcs ->
  let r := configured l in
  forall t, 0 <= t <= 4 ->
    0 <= vcid_from_type r t < vcs /\
    (if t <? 3 then inverse_vc_master r (vcid_from_type r t) else inverse_vc_slave r (vcid_from_type r t)) = Some t.
Proof. exact config_roundtrip. Qed.
Print Assumptions C12_generated_config.

Example C12_generated_config_ex : exists l, gen_ranges 10 5 = Some l /\ vcid_from_type (configured l) 3 = 6.
Proof. eexists. split; reflexivity. Qed.

(** C58 is false: with fewer than five packet types the remaining types keep the BookSim
    defaults, and read replies then name a channel that does not exist. *)
Theorem C58_types_have_channels_refuted :
  ~ (forall vcs types l t, gen_ranges vcs types = Some l -> 1 <= vcs -> 1 <= types -> 0 <= t <= 4 ->
       0 <= vcid_from_type (configured l) t < vcs).
Proof.
  intros H. specialize (H 3 3 [(0, 0); (1, 1); (2, 2)] 3 eq_refl ltac:(lia) ltac:(lia) ltac:(lia)).
  vm_compute in H. destruct H as [_ H]. discriminate H.
Qed.
Print Assumptions C58_types_have_channels_refuted.

Example C58_types_have_channels_refuted_ex :
  gen_ranges 3 3 = Some [(0, 0); (1, 1); (2, 2)] /\ vcid_from_type (configured [(0, 0); (1, 1); (2, 2)]) 3 = 8.
Proof. split; reflexivity. Qed.

(** C58. What holds: a type has an existing channel exactly when it is one of the configured types
    or the BookSim default for it is below the number of channels. *)
Theorem C58_types_have_channels_exact : forall vcs types l t, gen_ranges vcs types = Some l -> 1 <= vcs -> 1 <= types -> 0 <= t <= 4 ->
  (0 <= vcid_from_type (configured l) t < vcs <-> t < types \/ nth (Z.to_nat t) [0; 1; 2; 8; 10] 0 < vcs).
Proof.
  intros vcs types l t H V T R. destruct (gen_partition _ _ _ H V T) as (L & S & _ & _).
  rewrite vcid_begin by exact R. unfold configured. destruct (Z.leb_spec 0 t); [|lia].
  destruct (Z.lt_ge_cases t types) as [LT|GE].
  - destruct (nth_error l (Z.to_nat t)) as [x|] eqn:E.
    + rewrite (nth_error_nth _ _ _ E). destruct (S _ _ E) as (S1 & S2 & _). split; [intros _; left; exact LT|intros _; lia].
    + apply nth_error_None in E. lia.
  - rewrite nth_overflow by lia.
    assert (C : fst (default_ranges t) = nth (Z.to_nat t) [0; 1; 2; 8; 10] 0 /\ 0 <= fst (default_ranges t)).
    { assert (C : t = 0 \/ t = 1 \/ t = 2 \/ t = 3 \/ t = 4) by lia.
      destruct C as [-> | [-> | [-> | [-> | ->]]]]; (split; [reflexivity|vm_compute; discriminate]). }
    lia.
Qed.
Print Assumptions C58_types_have_channels_exact.

Example C58_types_have_channels_exact_ex : exists l, gen_ranges 9 3 = Some l /\
  vcid_from_type (configured l) 2 = 6 /\ vcid_from_type (configured l) 3 = 8 /\ vcid_from_type (configured l) 4 = 10.
Proof. eexists. split; [reflexivity|]. split; [|split]; reflexivity. Qed.
