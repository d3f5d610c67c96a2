(** AXI-S transaction <-> flit payload conversion.

    The widths are parameters because config.py regenerates radsim_defines.hpp
    (rad-sim/config.py:199-312) for each design. *)
From Coq Require Import ZArith Bool List Lia.
From Verif Require Import Bits.
Import ListNotations.
Local Open Scope Z_scope.

(** rad-sim/sim/radsim_defines.hpp:7-29 : the macros that the conversion uses. *)
Record widths := {
  linkw : Z;   (* NOC_LINKS_PAYLOAD_WIDTH *)
  maxdw : Z;   (* AXIS_MAX_DATAW *)
  userw : Z;   (* AXIS_USERW *)
  destfw : Z;  (* AXIS_DEST_FIELDW *)
  ifacew : Z;  (* NOC_LINKS_DEST_INTERFACE_WIDTH *)
  tidw : Z     (* AXIS_IDW *)
}.

(** rad-sim/sim/radsim_defines.hpp:7-29, the values in the repository. *)
Definition repo_widths : widths :=
  {| linkw := 82; maxdw := 512; userw := 75; destfw := 7; ifacew := 5; tidw := 32 |}.

(** rad-sim/sim/radsim_defines.hpp:36 : AXIS_PAYLOADW. *)
Definition payloadw (c : widths) : Z := maxdw c + userw c + 1.

(** rad-sim/sim/noc/axis_slave_adapter.cpp:29-32 and
    rad-sim/sim/noc/axis_master_adapter.cpp:19-22 : flits per packet for an interface
    of data width [w].  [ceil] of the floating point quotient is modelled by the exact
    integer ceiling. *)
Definition num_flits (c : widths) (w : Z) : Z :=
  (payloadw c - maxdw c + w + linkw c - 1) / linkw c.

(** rad-sim/sim/noc/axis_slave_adapter.cpp:166-169 : payload bit vector
    ([sc_bv] is zero-initialised). *)
Definition pack (c : widths) (last : bool) (user data : Z) : Z :=
  set (maxdw c + userw c) (userw c + 1)
    (set (userw c) 1 (set 0 0 0 (if last then 1 else 0)) user) data.

(** rad-sim/sim/noc/noc_utils.cpp:25-31 : payload of flit [i]. *)
Definition flit_payload (c : widths) (packet : Z) (i : Z) : Z :=
  trunc (linkw c) (get (Z.min ((i + 1) * linkw c) (payloadw c) - 1) (i * linkw c) packet).

(** rad-sim/sim/noc/axis_slave_adapter.cpp:172-194 : the payloads of all flits of a packet,
    one per packetisation cycle 0 .. num_flits-1. *)
Definition flit_payloads (c : widths) (w : Z) (packet : Z) : list Z :=
  map (fun i => flit_payload c packet (Z.of_nat i)) (seq 0 (Z.to_nat (num_flits c w))).

(** rad-sim/sim/noc/axis_master_adapter.cpp:224-235 : one iteration of the reassembly loop. *)
Definition place_flit (c : widths) (acc : Z) (i : Z) (payload : Z) : Z :=
  set (Z.min (payloadw c) ((i + 1) * linkw c) - 1) (i * linkw c) acc
      (get (linkw c - 1) 0 payload).

(** rad-sim/sim/noc/axis_master_adapter.cpp:219-235 : the whole reassembly loop,
    starting at flit number [i]. *)
Fixpoint place_flits (c : widths) (acc : Z) (i : Z) (ps : list Z) : Z :=
  match ps with
  | [] => acc
  | p :: ps' => place_flits c (place_flit c acc i p) (i + 1) ps'
  end.

(** rad-sim/sim/noc/axis_master_adapter.cpp:219 : [packet_bv] starts as zero. *)
Definition reassemble (c : widths) (ps : list Z) : Z := place_flits c 0 0 ps.

(** rad-sim/sim/noc/axis_master_adapter.cpp:239-246 : fields written to the output port. *)
Definition unpack (c : widths) (packet : Z) : bool * Z * Z :=
  (get 0 0 packet =? 1, get (userw c) 1 packet,
   get (maxdw c + userw c) (userw c + 1) packet).

(** rad-sim/sim/noc/axis_slave_adapter.cpp:179 with rad-sim/sim/noc/sc_flit.cpp:19,27 :
    the 32-bit tid is stored in the narrower destination interface field. *)
Definition iface_of_tid (c : widths) (tid : Z) : Z := trunc (ifacew c) tid.

(** rad-sim/sim/radsim_defines.hpp:45-47. *)
Definition dest_local (c : widths) (d : Z) : Z := get (destfw c - 1) 0 d.
(** rad-sim/sim/radsim_defines.hpp:46. *)
Definition dest_remote (c : widths) (d : Z) : Z := get (2 * destfw c - 1) (destfw c) d.
(** rad-sim/sim/radsim_defines.hpp:47. *)
Definition dest_rad (c : widths) (d : Z) : Z := get (3 * destfw c - 1) (2 * destfw c) d.

(** The destination fields of a BookSim flit, rad-sim/sim/noc/booksim/flit.hpp. rad-sim/sim/noc/booksim/flit.hpp:67-70. *)
Record bs_dest := { bs_node : Z; bs_rad : Z; bs_remote : Z }.

(** rad-sim/sim/noc/axis_slave_adapter.cpp:235-246 : destination of the BookSim flit.
    [_rad_id] is compared with the range modulo the field width. *)
Definition to_booksim_dest (c : widths) (my_rad portal d : Z) : bs_dest :=
  {| bs_node := if dest_rad c d =? trunc (destfw c) my_rad then dest_local c d
                else trunc (3 * destfw c) portal;
     bs_rad := to_int (destfw c) (dest_rad c d);
     bs_remote := to_int (destfw c) (dest_remote c d) |}.

(** rad-sim/sim/noc/axis_master_adapter.cpp:84-87 : destination bit vector rebuilt at ejection. *)
Definition from_booksim_dest (c : widths) (b : bs_dest) : Z :=
  set (3 * destfw c - 1) (2 * destfw c)
    (set (2 * destfw c - 1) (destfw c)
      (set (destfw c - 1) 0 0 (bs_node b)) (bs_remote b)) (bs_rad b).
