(** C08, C09: contents of AXI-MM transactions. *)
From Coq Require Import ZArith Bool List Lia.
From Verif Require Import Bits BitsProofs VcModel AddrModel AximmFormatModel AximmSpec AximmFormatProofs.
Import ListNotations.
Local Open Scope Z_scope.

(** C08: requests.  [n] flits are sent; the address loses its bits above [n * linkw - userw - 16]. *)
Theorem C08_address : forall c dw t h sid r0,
  good_xw c -> fits_addr c h -> t = AR \/ t = AW ->
  let n := xnum_flits c dw t in
  exists v, carry c dw (cap_addr c t h sid r0) = Some (h_id h, v) /\
    out_addr c (h_id h) v =
      (let a := arrives_as h in
      {| h_id := h_id a; h_addr := h_addr h mod 2 ^ (n * x_linkw c - x_userw c - 16);
         h_user := h_user a; h_burst := h_burst a; h_size := h_size a; h_len := h_len a |}) /\
    get (ctrlw + respw + x_userw c) (respw + x_userw c + 1) v =
      h_burst h + 4 * h_size h + 32 * h_len h.
Proof.
  intros c dw t h sid r0 HG HF Ht n. apply addr_arrives; assumption.
Qed.
Print Assumptions C08_address.

Example C08_address_ex :
  let h := {| h_id := 5; h_addr := 2 ^ 63 + 77; h_len := 3; h_size := 6; h_burst := 1; h_user := 2 ^ 60 + 37 |} in
  good_xw repo_xwidths /\ fits_addr repo_xwidths h /\
  xnum_flits repo_xwidths 512 AR * 82 - 64 - 16 = 84 /\
  option_map (fun '(i, v) => out_addr repo_xwidths i v)
    (carry repo_xwidths 512 (cap_addr repo_xwidths AR h 0 regs0)) =
  Some {| h_id := 5; h_addr := 2 ^ 63 + 77; h_len := 2; h_size := 2; h_burst := 2; h_user := 2 ^ 60 + 37 |}.
Proof. vm_compute. intuition congruence. Qed.

(** C08: the address arrives whole when the flits have room for it. *)
Theorem C08_address_whole : forall c dw t h sid r0,
  good_xw c -> fits_addr c h -> t = AR \/ t = AW ->
  (forall j, 0 <= j <= 2 -> (77 + x_userw c + j) mod x_linkw c <> 0) ->
  exists v, carry c dw (cap_addr c t h sid r0) = Some (h_id h, v) /\
    out_addr c (h_id h) v = arrives_as h.
Proof.
  intros c dw t h sid r0 HG HF Ht Hs. apply addr_arrives_whole; assumption.
Qed.
Print Assumptions C08_address_whole.

Example C08_address_whole_ex :
  good_xw repo_xwidths /\
  forallb (fun j => negb ((77 + x_userw repo_xwidths + j) mod x_linkw repo_xwidths =? 0)) [0; 1; 2] = true.
Proof. vm_compute. intuition congruence. Qed.

(** C08: W beats. *)
Theorem C08_data : forall c dw w aw sid r0,
  good_xw c -> 1 <= dw <= x_maxdw c -> fits_w c dw w ->
  exists v, carry c dw (cap_w c w aw sid r0) = Some (w_id w, v) /\ out_w c (w_id w) v = w.
Proof. intros. apply w_arrives; assumption. Qed.
Print Assumptions C08_data.

Example C08_data_ex :
  let w := {| w_id := 5; w_data := 2 ^ 255 + 77; w_last := true; w_user := 2 ^ 60 + 37 |} in
  good_xw repo_xwidths /\ fits_w repo_xwidths 256 w /\ xnum_flits repo_xwidths 256 W = 4 /\
  option_map (fun '(i, v) => out_w repo_xwidths i v)
    (carry repo_xwidths 256 (cap_w repo_xwidths w 9 0 regs0)) = Some w.
Proof. vm_compute. intuition congruence. Qed.

(** C08: as stated at first it does not hold: the burst settings never arrive. *)
Theorem C08_burst_refuted :
  ~ (forall h sid, fits_addr repo_xwidths h ->
      exists v, carry repo_xwidths 512 (cap_addr repo_xwidths AR h sid regs0) = Some (h_id h, v) /\
        out_addr repo_xwidths (h_id h) v = h).
Proof.
  intros H.
  specialize (H {| h_id := 0; h_addr := 0; h_len := 3; h_size := 0; h_burst := 0; h_user := 0 |} 0).
  destruct H as (v & H1 & H2).
  - vm_compute. intuition congruence.
  - vm_compute in H1. injection H1 as <-. vm_compute in H2. discriminate.
Qed.
Print Assumptions C08_burst_refuted.

(** C08: with flits of 47 bits the node bits of the address are lost. *)
Theorem C08_address_refuted :
  let c := {| x_linkw := 47; x_maxdw := 512; x_userw := 64; x_idw := 8; x_pidw := 32; x_nodew := 7; x_destw := 21 |} in
  ~ (forall h sid, fits_addr c h ->
      exists v, carry c 512 (cap_addr c AW h sid regs0) = Some (h_id h, v) /\
        h_addr (out_addr c (h_id h) v) = h_addr h).
Proof.
  intros c H.
  specialize (H {| h_id := 0; h_addr := 2 ^ 63; h_len := 0; h_size := 0; h_burst := 0; h_user := 0 |} 0).
  destruct H as (v & H1 & H2).
  - vm_compute. intuition congruence.
  - vm_compute in H1. injection H1 as <-. vm_compute in H2. discriminate.
Qed.
Print Assumptions C08_address_refuted.

(** C08: with a data field narrower than address and control fields no request can be sent. *)
Theorem C08_narrow : forall c dw t h sid r0, x_maxdw c < 77 -> t = AR \/ t = AW ->
  carry c dw (cap_addr c t h sid r0) = None.
Proof.
  intros c dw t h sid r0 Hm Ht. unfold carry, xpack.
  assert (E : (addrw + ctrlw + respw + x_userw c <? xpayloadw c) = false)
    by (apply Z.ltb_ge; unfold xpayloadw, addrw, ctrlw, respw; lia).
  destruct Ht as [Ht|Ht]; subst t; cbn [cap_addr i_type]; rewrite E; reflexivity.
Qed.
Print Assumptions C08_narrow.

Example C08_narrow_ex :
  let c := {| x_linkw := 82; x_maxdw := 64; x_userw := 64; x_idw := 8; x_pidw := 32; x_nodew := 7; x_destw := 21 |} in
  x_maxdw c < 77 /\
  carry c 64 (cap_addr c AR {| h_id := 5; h_addr := 7; h_len := 3; h_size := 6; h_burst := 1; h_user := 2 |} 0 regs0)
  = None.
Proof. split; reflexivity. Qed.

(** C09: read responses. *)
Theorem C09_read : forall c dw x sid r0,
  good_xw c -> 1 <= dw <= x_maxdw c -> fits_r c dw x ->
  exists v, carry c dw (cap_r c x sid r0) = Some (r_id x, v) /\ out_r c (r_id x) v = x.
Proof. intros. apply r_arrives; assumption. Qed.
Print Assumptions C09_read.

Example C09_read_ex :
  let x := {| r_id := 200; r_data := 2 ^ 511 + 77; r_resp := 2; r_last := true; r_user := 2 ^ 63 + 37 |} in
  good_xw repo_xwidths /\ fits_r repo_xwidths 512 x /\ xnum_flits repo_xwidths 512 R = 8 /\
  option_map (fun '(i, v) => out_r repo_xwidths i v)
    (carry repo_xwidths 512 (cap_r repo_xwidths x 0 regs0)) = Some x.
Proof. vm_compute. intuition congruence. Qed.

(** C09: write responses. *)
Theorem C09_write : forall c dw x sid r0,
  good_xw c -> fits_b c x -> (2 + x_userw c) mod x_linkw c <> 0 ->
  exists v, carry c dw (cap_b c x sid r0) = Some (rb_id x, v) /\ out_b c (rb_id x) v = x.
Proof. intros. apply b_arrives; assumption. Qed.
Print Assumptions C09_write.

Example C09_write_ex :
  let x := {| rb_id := 200; rb_resp := 3; rb_user := 2 ^ 63 + 37 |} in
  good_xw repo_xwidths /\ fits_b repo_xwidths x /\ (2 + x_userw repo_xwidths) mod x_linkw repo_xwidths <> 0 /\
  option_map (fun '(i, v) => out_b repo_xwidths i v)
    (carry repo_xwidths 512 (cap_b repo_xwidths x 0 regs0)) = Some x.
Proof. vm_compute. intuition congruence. Qed.

(** C09: with flits of 33 bits the upper bit of the write response is lost: an error arrives as OK. *)
Theorem C09_write_refuted :
  let c := {| x_linkw := 33; x_maxdw := 512; x_userw := 64; x_idw := 8; x_pidw := 32; x_nodew := 7; x_destw := 21 |} in
  good_xw c /\
  ~ (forall x sid, fits_b c x ->
      exists v, carry c 512 (cap_b c x sid regs0) = Some (rb_id x, v) /\ out_b c (rb_id x) v = x).
Proof.
  intros c. split; [vm_compute; intuition congruence|]. intros H.
  specialize (H {| rb_id := 0; rb_resp := 2; rb_user := 0 |} 0).
  destruct H as (v & H1 & H2).
  - vm_compute. intuition congruence.
  - vm_compute in H1. injection H1 as <-. vm_compute in H2. discriminate.
Qed.
Print Assumptions C09_write_refuted.
