(** C14 : the AXI-MM address map. *)
From Coq Require Import ZArith Bool List Lia.
From Verif Require Import Bits AddrModel AddrProofs.
Import ListNotations.
Local Open Scope Z_scope.

(** C14. One NoC of [n] nodes, field width as generated in the header: the base address of a
    port and every offset inside the region decode to the node of the port. *)
Theorem C14_base_decodes : forall n node a off, 2 <= n -> 0 <= node < n ->
  base_address [n] 0 node = Some a -> 0 <= off < 2 ^ (64 - Z.log2_up n) ->
  0 <= a + off < 2 ^ 64 /\ dest_node (header_nodew [n]) (a + off) = node.
Proof. exact base_decodes. Qed.
Print Assumptions C14_base_decodes.

Example C14_base_decodes_ex :
  base_address [100] 0 77 = Some (77 * 2 ^ 57) /\ dest_node (header_nodew [100]) (77 * 2 ^ 57 + 123456789) = 77.
Proof. split; vm_compute; reflexivity. Qed.

(** C14. A base address exists for every node of a NoC with at least two nodes. *)
Theorem C14_base_exists : forall n node, 2 <= n <= 2 ^ 64 -> 0 <= node < n -> exists a, base_address [n] 0 node = Some a.
Proof.
  intros n node N H. unfold base_address.
  assert (M : max_nodes [n] = n). { unfold max_nodes. cbn [fold_left]. destruct (Z.ltb_spec 0 n); lia. }
  rewrite M. change (clog2 (Z.of_nat (length [n]))) with 0. unfold addrw.
  assert (A : 0 < clog2 n) by (apply Z.log2_up_pos; lia).
  assert (B : clog2 n <= 64). { change 64 with (Z.log2_up (2 ^ 64)). apply Z.log2_up_le_mono. lia. }
  destruct (Z.ltb_spec (64 - 0 - clog2 n) 64); [|lia]. destruct (Z.leb_spec 0 (64 - 0 - clog2 n)); [|lia].
  cbn [andb]. eauto.
Qed.
Print Assumptions C14_base_exists.

Example C14_base_exists_ex : base_address [2] 0 1 = Some (2 ^ 63).
Proof. vm_compute. reflexivity. Qed.

(** C14. The regions of different ports do not overlap, for any number of NoCs. *)
Theorem C14_regions_disjoint : forall nodes c1 d1 c2 d2 n1 n2 a1 a2 x,
  nth_error nodes c1 = Some n1 -> nth_error nodes c2 = Some n2 -> 0 <= d1 < n1 -> 0 <= d2 < n2 ->
  base_address nodes (Z.of_nat c1) d1 = Some a1 -> base_address nodes (Z.of_nat c2) d2 = Some a2 ->
  let size := 2 ^ (64 - Z.log2_up (Z.of_nat (length nodes)) - Z.log2_up (fold_right Z.max 0 nodes)) in
  a1 <= x < a1 + size -> a2 <= x < a2 + size -> c1 = c2 /\ d1 = d2.
Proof. exact regions_disjoint'. Qed.
Print Assumptions C14_regions_disjoint.

Example C14_regions_disjoint_ex :
  base_address [16; 64; 4] 2 5 = Some (133 * 2 ^ 56) /\ base_address [16; 64; 4] 1 63 = Some (127 * 2 ^ 56).
Proof. split; vm_compute; reflexivity. Qed.

(** The condition on the NoC count is needed: with two NoCs the base address of node 1 of
    NoC 0 decodes to node 0. *)
Theorem C14_two_nocs_refuted :
  ~ (forall nodes noc node a, 0 <= noc < Z.of_nat (length nodes) -> 0 <= node < max_nodes nodes ->
       base_address nodes noc node = Some a -> dest_node (header_nodew nodes) a = node).
Proof.
  intros H. specialize (H [4; 4] 0 1 (2 ^ 61) ltac:(cbn; lia) ltac:(cbn; lia) ltac:(vm_compute; reflexivity)).
  vm_compute in H. discriminate H.
Qed.
Print Assumptions C14_two_nocs_refuted.

Example C14_two_nocs_refuted_ex : dest_node (header_nodew [4; 4]) (2 ^ 61) = 0 /\ base_address [4; 4] 0 1 = Some (2 ^ 61).
Proof. split; vm_compute; reflexivity. Qed.

(** The condition on the field width is needed: the header takes one width for all devices,
    so a device with fewer nodes than the widest one has its ports decoded to other nodes. *)
Theorem C14_other_width_refuted :
  ~ (forall n nw node a, 2 <= n -> header_nodew [n] <= nw <= 64 -> 0 <= node < n ->
       base_address [n] 0 node = Some a -> dest_node nw a = node).
Proof.
  intros H. specialize (H 16 7 1 (2 ^ 60) ltac:(lia) ltac:(vm_compute; split; discriminate) ltac:(lia) ltac:(vm_compute; reflexivity)).
  vm_compute in H. discriminate H.
Qed.
Print Assumptions C14_other_width_refuted.

Example C14_other_width_refuted_ex : dest_node 7 (2 ^ 60) = 8.
Proof. vm_compute. reflexivity. Qed.

(** A NoC with a single node has no base address: the shift amount is 64. *)
Theorem C14_one_node_undefined : base_address [1] 0 0 = None.
Proof. reflexivity. Qed.
Print Assumptions C14_one_node_undefined.
