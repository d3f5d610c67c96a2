(** AXI-MM transactions and the payloads of their flits. *)
From Coq Require Import ZArith Bool List.
From Verif Require Import Bits VcModel AddrModel.
Import ListNotations.
Local Open Scope Z_scope.

(** rad-sim/sim/radsim_defines.hpp:8-34 : the macros that rad-sim/config.py:199-312 writes for
    each design.  AXI4_ADDRW, AXI4_LENW, AXI4_SIZEW, AXI4_BURSTW and AXI4_RESPW are the
    constants 64, 8, 3, 2 and 2 in every generated header (config.py:271-277). *)
Record xwidths := {
  x_linkw : Z;   (* NOC_LINKS_PAYLOAD_WIDTH *)
  x_maxdw : Z;   (* AXI4_MAX_DATAW *)
  x_userw : Z;   (* AXI4_USERW *)
  x_idw : Z;     (* AXI4_IDW *)
  x_pidw : Z;    (* NOC_LINKS_PACKETID_WIDTH *)
  x_nodew : Z;   (* AXI4_NODE_ADDRW *)
  x_destw : Z    (* NOC_LINKS_DEST_WIDTH *)
}.

(** rad-sim/sim/radsim_defines.hpp:8-34, the values in the repository. *)
Definition repo_xwidths : xwidths :=
  {| x_linkw := 82; x_maxdw := 512; x_userw := 64; x_idw := 8; x_pidw := 32; x_nodew := 7; x_destw := 21 |}.

(** rad-sim/sim/radsim_defines.hpp:28-31,33 : AXI4_LENW + AXI4_SIZEW + AXI4_BURSTW. *)
Definition ctrlw : Z := 13.
(** rad-sim/sim/radsim_defines.hpp:31 : AXI4_RESPW. *)
Definition respw : Z := 2.
(** rad-sim/sim/radsim_defines.hpp:49 : AXI4_PAYLOADW. *)
Definition xpayloadw (c : xwidths) : Z := x_maxdw c + respw + x_userw c + 1.

(** The channels of rad-sim/sim/noc/aximm_interface.hpp:9-48.  AW and AR have the same fields
    (lines 13-18 and 35-40). *)
Record addr_ch := { h_id : Z; h_addr : Z; h_len : Z; h_size : Z; h_burst : Z; h_user : Z }.
(** rad-sim/sim/noc/aximm_interface.hpp:19-25. *)
Record w_ch := { w_id : Z; w_data : Z; w_last : bool; w_user : Z }.
(** rad-sim/sim/noc/aximm_interface.hpp:41-47. *)
Record r_ch := { r_id : Z; r_data : Z; r_resp : Z; r_last : bool; r_user : Z }.
(** rad-sim/sim/noc/aximm_interface.hpp:26-31. *)
Record b_ch := { rb_id : Z; rb_resp : Z; rb_user : Z }.

(** rad-sim/sim/radsim_defines.hpp:58-62 : the kinds of transaction. *)
Inductive xtype := AR | AW | W | R | B.

(** rad-sim/sim/noc/aximm_slave_adapter.hpp:90-99 : the captured transaction.  [_i_last] is an
    [sc_bv<1>]. *)
Record xregs := {
  i_type : xtype; i_id : Z; i_payload : Z; i_ctrl : Z; i_user : Z; i_resp : Z; i_last : bool;
  i_dest : Z; i_sid : Z }.

(** rad-sim/sim/noc/aximm_slave_adapter.cpp:145-154 : values after reset.  The type is 0. *)
Definition regs0 : xregs :=
  {| i_type := AR; i_id := 0; i_payload := 0; i_ctrl := 0; i_user := 0; i_resp := 0; i_last := false;
     i_dest := 0; i_sid := 0 |}.

(** rad-sim/sim/noc/aximm_slave_adapter.cpp:165-174,197-206 : burst type, size and length in one vector. *)
Definition ctrl_of (h : addr_ch) : Z :=
  set 12 5 (set 4 2 (set 1 0 0 (h_burst h)) (h_size h)) (h_len h).

(** rad-sim/sim/noc/aximm_slave_adapter.cpp:162-188 (AR) and 194-221 (AW) : capture of an
    address request.  [_i_resp] and [_i_last] keep their values. *)
Definition cap_addr (c : xwidths) (t : xtype) (h : addr_ch) (sid : Z) (r : xregs) : xregs :=
  {| i_type := t; i_id := trunc (x_idw c) (h_id h); i_payload := trunc (x_maxdw c) (h_addr h);
     i_ctrl := ctrl_of h; i_user := trunc (x_userw c) (h_user h); i_resp := i_resp r; i_last := i_last r;
     i_dest := trunc (x_destw c) (dest_node (x_nodew c) (h_addr h)); i_sid := sid |}.

(** rad-sim/sim/noc/aximm_slave_adapter.cpp:227-247 : capture of a W beat, sent to [aw]. *)
Definition cap_w (c : xwidths) (w : w_ch) (aw sid : Z) (r : xregs) : xregs :=
  {| i_type := W; i_id := trunc (x_idw c) (w_id w); i_payload := trunc (x_maxdw c) (w_data w);
     i_ctrl := if w_last w then 1 else 0; i_user := trunc (x_userw c) (w_user w); i_resp := i_resp r;
     i_last := w_last w; i_dest := trunc (x_destw c) aw; i_sid := sid |}.

(** rad-sim/sim/noc/aximm_master_adapter.cpp:419-441 : capture of a read response; the
    destination comes from the low 64 bits of the user field. *)
Definition cap_r (c : xwidths) (x : r_ch) (sid : Z) (r : xregs) : xregs :=
  {| i_type := R; i_id := trunc (x_idw c) (r_id x); i_payload := trunc (x_maxdw c) (r_data x);
     i_ctrl := i_ctrl r; i_user := trunc (x_userw c) (r_user x); i_resp := trunc respw (r_resp x);
     i_last := r_last x;
     i_dest := trunc (x_destw c) (dest_node (x_nodew c) (trunc 64 (trunc (x_userw c) (r_user x))));
     i_sid := sid |}.

(** rad-sim/sim/noc/aximm_master_adapter.cpp:443-463 : capture of a write response. *)
Definition cap_b (c : xwidths) (x : b_ch) (sid : Z) (r : xregs) : xregs :=
  {| i_type := B; i_id := trunc (x_idw c) (rb_id x); i_payload := i_payload r;
     i_ctrl := i_ctrl r; i_user := trunc (x_userw c) (rb_user x); i_resp := trunc respw (rb_resp x);
     i_last := i_last r;
     i_dest := trunc (x_destw c) (dest_node (x_nodew c) (trunc 64 (trunc (x_userw c) (rb_user x))));
     i_sid := sid |}.

(** [ceil(x * 1.0 / NOC_LINKS_PAYLOAD_WIDTH)] as the exact ceiling,
    rad-sim/sim/noc/aximm_slave_adapter.cpp:295-297. *)
Definition flits_for (c : xwidths) (x : Z) : Z := (x + x_linkw c - 1) / x_linkw c.

(** Number of flits of each kind of transaction, [dw] is the data width of the interface:
    rad-sim/sim/noc/aximm_slave_adapter.cpp:295-297 (AR, AW) and 321-323 (W),
    rad-sim/sim/noc/aximm_master_adapter.cpp:494-495 (B) and 512-514 (R). *)
Definition xnum_flits (c : xwidths) (dw : Z) (t : xtype) : Z :=
  match t with
  | AR | AW => flits_for c (addrw + ctrlw + x_userw c)
  | W | R => flits_for c (dw + respw + x_userw c + 1)
  | B => flits_for c (respw + x_userw c)
  end.

(** The packet, rad-sim/sim/noc/aximm_slave_adapter.cpp:298-300 (AR, AW) and 324-327 (W),
    rad-sim/sim/noc/aximm_master_adapter.cpp:496-497 (B) and 515-518 (R), with the macros of
    rad-sim/sim/radsim_defines.hpp:49-55.  [None]: the range of AXI4_ADDR lies outside of the
    vector, which SystemC reports as an error. *)
Definition xpack (c : xwidths) (r : xregs) : option Z :=
  let u := x_userw c in
  let pu := set u 1 0 (i_user r) in
  match i_type r with
  | AR | AW =>
      if addrw + ctrlw + respw + u <? xpayloadw c then
        Some (set (addrw + ctrlw + respw + u) (ctrlw + respw + u + 1)
               (set (ctrlw + respw + u) (respw + u + 1) pu (i_ctrl r)) (i_payload r))
      else None
  | W | R =>
      let resp := match i_type r with W => 0 | _ => i_resp r end in
      Some (set (x_maxdw c + respw + u) (respw + u + 1)
             (set 0 0 (set (respw + u) (u + 1) pu resp) (if i_last r then 1 else 0)) (i_payload r))
  | B => Some (set (respw + u) (u + 1) pu (i_resp r))
  end.

(** rad-sim/sim/noc/noc_utils.cpp:17-23 : payload of flit [i]. *)
Definition xflit_payload (c : xwidths) (packet i : Z) : Z :=
  trunc (x_linkw c) (get (Z.min ((i + 1) * x_linkw c) (xpayloadw c) - 1) (i * x_linkw c) packet).

(** The loop over the flits, rad-sim/sim/noc/aximm_slave_adapter.cpp:306-313 and the like. *)
Definition xpayloads (c : xwidths) (dw : Z) (t : xtype) (packet : Z) : list Z :=
  map (fun i => xflit_payload c packet (Z.of_nat i)) (seq 0 (Z.to_nat (xnum_flits c dw t))).

(** rad-sim/sim/noc/aximm_master_adapter.cpp:263-270 and the same loop in the other branches
    and in rad-sim/sim/noc/aximm_slave_adapter.cpp:637-644,662-669 : one flit put back into
    the vector. *)
Definition xplace (c : xwidths) (acc i payload : Z) : Z :=
  set (Z.min (xpayloadw c) ((i + 1) * x_linkw c) - 1) (i * x_linkw c) acc payload.

(** rad-sim/sim/noc/aximm_master_adapter.cpp:263-270 : the loop, from flit [i]. *)
Fixpoint xplaces (c : xwidths) (acc i : Z) (ps : list Z) : Z :=
  match ps with
  | [] => acc
  | p :: ps' => xplaces c (xplace c acc i p) (i + 1) ps'
  end.

(** rad-sim/sim/noc/aximm_master_adapter.cpp:260-270 : the vector starts as zero. *)
Definition xreassemble (c : xwidths) (ps : list Z) : Z := xplaces c 0 0 ps.

(** rad-sim/sim/noc/aximm_master_adapter.cpp:275-287 (AR) and 312-324 (AW) : the request put on
    the interface.  Burst type, size and length are read from [temp_bv] itself, the vector
    [ctrl_temp] is not used. *)
Definition out_addr (c : xwidths) (pid v : Z) : addr_ch :=
  let u := x_userw c in
  {| h_id := trunc (x_idw c) pid;
     h_addr := get (addrw + ctrlw + respw + u) (ctrlw + respw + u + 1) v;
     h_user := get u 1 v;
     h_burst := get 1 0 v;
     h_size := get 4 2 v;
     h_len := get 12 5 v |}.

(** rad-sim/sim/noc/aximm_master_adapter.cpp:347-351 : the W beat put on the interface. *)
Definition out_w (c : xwidths) (pid v : Z) : w_ch :=
  let u := x_userw c in
  {| w_id := trunc (x_idw c) pid;
     w_data := get (x_maxdw c + respw + u) (respw + u + 1) v;
     w_last := get 0 0 v =? 1;
     w_user := get u 1 v |}.

(** rad-sim/sim/noc/aximm_slave_adapter.cpp:673-677 : the read response put on the interface. *)
Definition out_r (c : xwidths) (pid v : Z) : r_ch :=
  let u := x_userw c in
  {| r_id := trunc (x_idw c) pid;
     r_data := get (x_maxdw c + respw + u) (respw + u + 1) v;
     r_resp := get (respw + u) (u + 1) v;
     r_last := get 0 0 v =? 1;
     r_user := get u 1 v |}.

(** rad-sim/sim/noc/aximm_slave_adapter.cpp:646-650 : the write response put on the interface. *)
Definition out_b (c : xwidths) (pid v : Z) : b_ch :=
  let u := x_userw c in
  {| rb_id := trunc (x_idw c) pid; rb_resp := get (respw + u) (u + 1) v; rb_user := get u 1 v |}.

(** The packet id of the flits, rad-sim/sim/noc/aximm_slave_adapter.cpp:307-310 with
    rad-sim/sim/noc/sc_flit.hpp:26 and the copies at lines 401 and 503-507 of the adapter:
    [_i_id] in a vector of NOC_LINKS_PACKETID_WIDTH bits (at most 32, [to_uint]). *)
Definition xpid (c : xwidths) (r : xregs) : Z := trunc (x_pidw c) (i_id r).
