(** C51 - C54 : pools, the bandwidth fraction, hop counts and cycle numbers. *)
From Coq Require Import ZArith Arith Bool List Lia.
From Coq.Floats Require Import SpecFloat.
From Verif Require Import UtilModel UtilProofs UtilFloatProofs.
Import ListNotations.

(** C51. When only objects in use are freed, New never returns an object in use, and the number of
    objects in use is what OutStanding reports. *)
Theorem C51_pool : forall l p tr, pl_run l pool0 = (p, tr) -> frees_ok tr ->
  (forall tr1 x tr2, tr = tr1 ++ ENew x :: tr2 -> in_use x tr1 = false) /\
  pl_outstanding p = (Z.of_nat (news tr) - Z.of_nat (frees tr))%Z.
Proof.
  intros l p tr R F. destruct (pool_run l pool0 [] p tr pinv0 R F) as [[ND [LT [H E]]] J]. cbn [app] in *. split; [exact J|].
  unfold pl_outstanding. lia.
Qed.
Print Assumptions C51_pool.
Example C51_pool_ex : exists p, pl_run [PNew; PNew; PFree 0; PNew; PNew; PFree 1] pool0 = (p, [ENew 0; ENew 1; EFree 0; ENew 0; ENew 2; EFree 1]) /\
  frees_ok [ENew 0; ENew 1; EFree 0; ENew 0; ENew 2; EFree 1] /\ pl_outstanding p = 2%Z.
Proof.
  eexists. split; [reflexivity|]. split; [|reflexivity]. intros tr1 x tr2 E.
  do 6 (destruct tr1 as [|? tr1]; [try discriminate; injection E as <- _; reflexivity | injection E as <- E]); destruct tr1; discriminate.
Qed.

(** C51. Freeing an object twice hands it out while it is in use. *)
Theorem C51_double_free_refuted : exists l p tr1 x tr2, pl_run l pool0 = (p, tr1 ++ ENew x :: tr2) /\ in_use x tr1 = true.
Proof. exists [PNew; PFree 0; PFree 0; PNew; PNew], {| pl_all := 1; pl_free := [] |}, [ENew 0; EFree 0; EFree 0; ENew 0], 0%nat, []. split; reflexivity. Qed.
Print Assumptions C51_double_free_refuted.

Open Scope Z_scope.
(** C52. For a fraction with three decimal places, the counters have its quotient exactly when it needs no more than one place. *)
Theorem C52_exact : forall i m, 0 <= i -> 0 <= m < 1000 -> exists a b, get_fraction i m = Some (a, b) /\ 0 < b /\
  (a * 1000 = (i * 1000 + m) * b <-> m mod 100 = 0).
Proof. exact fraction_ok. Qed.
Print Assumptions C52_exact.
Example C52_exact_ex : get_fraction 0 300 = Some (3, 10) /\ get_fraction 0 250 = Some (25, 20) /\ get_fraction 0 70 = Some (7000000000000001, 170).
Proof. vm_compute. auto. Qed.

(** C52. What reaches the knob file never exceeds full bandwidth: it is the pair of counters if that is at most one, and full bandwidth otherwise. *)
Theorem C52_bounded : forall i m, 0 <= i -> 0 <= m < 1000 -> exists a b a' b', get_fraction i m = Some (a, b) /\ bw_knobs i m = Some (a', b') /\ 0 < b' /\ a' <= b' /\
  (a <= b -> a' = a /\ b' = b) /\ (b < a -> a' = b').
Proof. exact knobs_bound. Qed.
Print Assumptions C52_bounded.
Example C52_bounded_ex : get_fraction 0 300 = Some (3, 10) /\ bw_knobs 0 300 = Some (3, 10) /\ get_fraction 0 250 = Some (25, 20) /\ bw_knobs 0 250 = Some (1, 1).
Proof. vm_compute. auto. Qed.

(** C52. What reaches the knob file is the fraction only with at most one decimal place, or by the fall-back to full bandwidth. *)
Theorem C52_knobs_refuted : forall m, 0 < m < 1000 -> m mod 100 <> 0 -> exists a b, bw_knobs 0 m = Some (a, b) /\ 0 < b /\ a * 1000 <> m * b.
Proof. exact knobs_bad. Qed.
Print Assumptions C52_knobs_refuted.
Example C52_knobs_refuted_ex : bw_knobs 0 250 = Some (1, 1) /\ bw_knobs 0 50 = Some (5, 20) /\ bw_knobs 0 125 = Some (1, 1) /\ bw_knobs 0 500 = Some (5, 10).
Proof. vm_compute. auto. Qed.

(** C53. On a grid of width below 2^16 the hop count of the nodes at two positions is one more than their distance. *)
Theorem C53_hops : forall g r1 c1 r2 c2, 0 < g < 2 ^ 16 -> 0 <= r1 < g -> 0 <= c1 < g -> 0 <= r2 < g -> 0 <= c2 < g ->
  grid_hops (r1 * g + c1) (r2 * g + c2) g = Some (Z.abs (r1 - r2) + Z.abs (c1 - c2) + 1).
Proof. exact grid_ok. Qed.
Print Assumptions C53_hops.
Example C53_hops_ex : grid_hops (1 * 4 + 3) (3 * 4 + 0) 4 = Some 6.
Proof. reflexivity. Qed.

(** C53. For any ids and any width, the hop count is symmetric, at least one, one for equal ids, and satisfies the triangle inequality. *)
Theorem C53_metric : forall g a b c x y z, grid_hops a b g = Some x -> grid_hops b c g = Some y -> grid_hops a c g = Some z ->
  grid_hops b a g = Some x /\ grid_hops a a g = Some 1 /\ 1 <= x /\ z <= x + y - 1.
Proof.
  intros g a b c x y z. unfold grid_hops. destruct (_ =? 0); [discriminate|]. intros X Y Z. injection X as <-. injection Y as <-. injection Z as <-.
  repeat split; try (f_equal; lia); try lia.
Qed.
Print Assumptions C53_metric.
Example C53_metric_ex : grid_hops 0 5 4 = Some 3 /\ grid_hops 5 15 4 = Some 5 /\ grid_hops 0 15 4 = Some 7.
Proof. auto. Qed.

(** C53. A grid of width zero or 65536 divides by zero. Above that width different nodes are taken for one. *)
Theorem C53_wide_refuted : (forall a b, grid_hops a b 0 = None /\ grid_hops a b 65536 = None) /\ grid_hops 0 (1 * 65537 + 65536) 65537 = Some 1.
Proof. split; [intros; split; reflexivity|reflexivity]. Qed.
Print Assumptions C53_wide_refuted.

(** C54. With exact division the cycle number never decreases, grows by one with each period, and is k at edge k. *)
Theorem C54_exact : forall pn pd, 0 < pn -> 0 < pd ->
  (forall t u, t <= u -> sim_cycle_exact t pn pd <= sim_cycle_exact u pn pd) /\
  (forall t q, q * pd = 1000 * pn -> sim_cycle_exact (t + q) pn pd = sim_cycle_exact t pn pd + 1) /\
  (forall k r q, q * pd = 1000 * pn -> 0 < r <= q -> sim_cycle_exact (k * q + r) pn pd = k + 1).
Proof. exact cycle_exact_ok. Qed.
Print Assumptions C54_exact.
Example C54_exact_ex : 800 * 10 = 1000 * 8 /\ map (fun t => sim_cycle_exact t 8 10) [0; 1; 800; 801; 1600] = [0; 1; 1; 2; 2].
Proof. vm_compute. auto. Qed.

(** C54. In doubles the number never decreases, for every positive finite period and as long as it fits an int. *)
Theorem C54_double_monotone : forall m e t u a b, SpecFloat.bounded 53 1024 m e = true -> t <= u ->
  sim_cycle t (S754_finite false m e) = Some a -> sim_cycle u (S754_finite false m e) = Some b -> a <= b.
Proof. exact double_monotone. Qed.
Print Assumptions C54_double_monotone.
Example C54_double_monotone_ex : let p := d_div (d_of_Z 7) (d_of_Z 10) in
  match p with S754_finite false m e => SpecFloat.bounded 53 1024 m e = true | _ => False end /\ map (fun t => sim_cycle t p) [699; 700; 701] = [Some 1; Some 2; Some 2].
Proof. vm_compute. auto. Qed.

(** C54. In doubles the number is that of exact division, for 75 minutes of simulated time, when the period [m * 2 ^ e] ns is exactly [q] ps:
    it is k + 1 after edge k up to and including edge k + 1. *)
Theorem C54_double_exact : forall m e q k r, SpecFloat.bounded 53 1024 m e = true ->
  1000 * Zpos m * 2 ^ (Z.max e 0) = q * 2 ^ (Z.max (- e) 0) -> 0 <= k -> 0 < r <= q -> (k + 1) * q < 2 ^ 52 -> k + 1 < 2 ^ 31 ->
  sim_cycle (k * q + r) (S754_finite false m e) = Some (k + 1).
Proof. exact double_exact. Qed.
Print Assumptions C54_double_exact.
Example C54_double_exact_ex : d_div (d_of_Z 5) (d_of_Z 4) = S754_finite false 5629499534213120 (-52) /\
  1000 * 5629499534213120 * 2 ^ (Z.max (-52) 0) = 1250 * 2 ^ (Z.max (- -52) 0) /\
  map (fun t => sim_cycle t (d_div (d_of_Z 5) (d_of_Z 4))) [0; 1; 1250; 1251; 2500] = [Some 0; Some 1; Some 1; Some 2; Some 2].
Proof. vm_compute. auto. Qed.

(** C54. Not so for other periods: with a period of 0.7 ns the edges 1 to 5 are numbered 2, 3, 3, 5 and 5. *)
Theorem C54_double_refuted : let p := d_div (d_of_Z 7) (d_of_Z 10) in map (fun k => sim_cycle (k * 700) p) [0; 1; 2; 3; 4; 5] = [Some 0; Some 2; Some 3; Some 3; Some 5; Some 5].
Proof. vm_compute. reflexivity. Qed.
Print Assumptions C54_double_refuted.
Example C54_double_refuted_ex : let p := d_of_Z 5 in map (fun k => sim_cycle (k * 5000) p) [0; 1; 2; 3; 4; 5] = [Some 0; Some 1; Some 2; Some 3; Some 4; Some 5].
Proof. vm_compute. reflexivity. Qed.
