(** C01 : AXI-S payload survives packetisation. *)
From Coq Require Import ZArith Bool List Lia.
From Verif Require Import Bits AxisFormatModel AxisFormatProofs.
Local Open Scope Z_scope.

(** Data that fits in the interface width comes back unchanged, for all widths. *)
Theorem C01_axis_roundtrip : forall c w last user data,
  0 < linkw c -> 0 < maxdw c -> 0 <= userw c ->
  1 <= w <= maxdw c -> 0 <= user < 2 ^ userw c -> 0 <= data < 2 ^ w ->
  unpack c (reassemble c (flit_payloads c w (pack c last user data))) = (last, user, data).
Proof. exact roundtrip_exact. Qed.
Print Assumptions C01_axis_roundtrip.

Example C01_axis_roundtrip_ex :
  unpack repo_widths (reassemble repo_widths
     (flit_payloads repo_widths 100 (pack repo_widths true (2^74 + 3) (2^99 + 2^50 + 1))))
  = (true, 2^74 + 3, 2^99 + 2^50 + 1)
  /\ length (flit_payloads repo_widths 100 0) = 3%nat /\ 0 <= 2^99 + 2^50 + 1 < 2^100.
Proof. vm_compute. repeat split; reflexivity || discriminate. Qed.

(** For wider data exactly the bits beyond the last flit are lost; [k] is the number of
    data bits carried by the flits, at least the interface width. *)
Theorem C01_axis_truncation : forall c w last user data,
  0 < linkw c -> 0 < maxdw c -> 0 <= userw c ->
  1 <= w <= maxdw c -> 0 <= user < 2 ^ userw c -> 0 <= data < 2 ^ maxdw c ->
  let n := Z.of_nat (length (flit_payloads c w (pack c last user data))) in
  let k := Z.min (maxdw c) (n * linkw c - (userw c + 1)) in
  w <= k /\
  unpack c (reassemble c (flit_payloads c w (pack c last user data)))
    = (last, user, data mod 2 ^ k).
Proof. exact roundtrip_trunc. Qed.
Print Assumptions C01_axis_truncation.

(** A 64-bit interface uses two flits, which carry 88 data bits; bit 100 is lost. *)
Example C01_axis_truncation_ex :
  unpack repo_widths (reassemble repo_widths
     (flit_payloads repo_widths 64 (pack repo_widths false 9 (2^100 + 2^87 + 1))))
  = (false, 9, 2^87 + 1).
Proof. vm_compute. reflexivity. Qed.

(** The number of flits is the least number that holds flag, user word and [w] data bits. *)
Theorem C01_flit_count : forall c w p,
  0 < linkw c -> 0 < maxdw c -> 0 <= userw c -> 1 <= w <= maxdw c ->
  let n := Z.of_nat (length (flit_payloads c w p)) in
  1 <= n /\ (n - 1) * linkw c < userw c + 1 + w <= n * linkw c.
Proof. exact flit_count. Qed.
Print Assumptions C01_flit_count.

Example C01_flit_count_ex : length (flit_payloads repo_widths 512 0) = 8%nat
  /\ length (flit_payloads repo_widths 6 0) = 1%nat /\ length (flit_payloads repo_widths 7 0) = 2%nat.
Proof. vm_compute. auto. Qed.

(** Each flit payload fits the link. *)
Theorem C01_flit_fits : forall c w p q, 0 < linkw c ->
  In q (flit_payloads c w p) -> 0 <= q < 2 ^ linkw c.
Proof. exact flit_fits. Qed.
Print Assumptions C01_flit_fits.

Example C01_flit_fits_ex : In (2^82 - 1) (flit_payloads repo_widths 512 (2^588 - 1)).
Proof. vm_compute. auto. Qed.

(** A destination on the same device comes back unchanged. *)
Theorem C01_tdest_local : forall c my_rad portal d,
  0 < destfw c -> 0 <= d < 2 ^ (3 * destfw c) -> 0 <= my_rad < 2 ^ destfw c ->
  dest_rad c d = my_rad ->
  from_booksim_dest c (to_booksim_dest c my_rad portal d) = d.
Proof. exact tdest_local. Qed.
Print Assumptions C01_tdest_local.

Example C01_tdest_local_ex :
  from_booksim_dest repo_widths (to_booksim_dest repo_widths 100 3 (100 * 2^14 + 77 * 2^7 + 127))
  = 100 * 2^14 + 77 * 2^7 + 127 /\ dest_rad repo_widths (100 * 2^14 + 77 * 2^7 + 127) = 100.
Proof. vm_compute. auto. Qed.

(** A destination on another device arrives with its device and remote-node fields, and the
    local field names the portal. *)
Theorem C01_tdest_cross : forall c my_rad portal d,
  0 < destfw c -> 0 <= portal < 2 ^ destfw c -> 0 <= my_rad < 2 ^ destfw c ->
  dest_rad c d <> my_rad ->
  let d' := from_booksim_dest c (to_booksim_dest c my_rad portal d) in
  dest_rad c d' = dest_rad c d /\ dest_remote c d' = dest_remote c d /\ dest_local c d' = portal
  /\ bs_node (to_booksim_dest c my_rad portal d) = portal.
Proof. exact tdest_cross. Qed.
Print Assumptions C01_tdest_cross.

Example C01_tdest_cross_ex :
  let d' := from_booksim_dest repo_widths (to_booksim_dest repo_widths 0 16 (1 * 2^14 + 77 * 2^7 + 5)) in
  dest_rad repo_widths d' = 1 /\ dest_remote repo_widths d' = 77 /\ dest_local repo_widths d' = 16.
Proof. vm_compute. auto. Qed.

(** Only the low bits of tid survive. *)
Theorem C01_tid : forall c tid, 0 <= ifacew c ->
  iface_of_tid c tid = tid mod 2 ^ ifacew c.
Proof. exact tid_low_bits. Qed.
Print Assumptions C01_tid.

Example C01_tid_ex : iface_of_tid repo_widths (2^31 + 33) = 1.
Proof. reflexivity. Qed.
