(** AXI-MM address map. *)
From Coq Require Import ZArith Bool List.
From Verif Require Import Bits.
Import ListNotations.
Local Open Scope Z_scope.

(** rad-sim/sim/radsim_defines.hpp:27 : AXI4_ADDRW. *)
Definition addrw : Z := 64.

(** rad-sim/sim/design_context.cpp:75-81 : the loop computing max_num_nodes. *)
Definition max_nodes (nodes : list Z) : Z := fold_left (fun m n => if m <? n then n else m) nodes 0.

(** [(int)ceil(log2(n))], exact: rad-sim/sim/design_context.cpp:82-83 and rad-sim/config.py:245. *)
Definition clog2 (n : Z) : Z := Z.log2_up n.

(** rad-sim/sim/design_context.cpp:73-88 : DetermineBaseAddress, [nodes] being the node count
    of each NoC of the device.  64-bit arithmetic wraps; a shift by 64 is undefined: [None].
    [log2(0)] (no NoC or no node) is excluded.  The [int] shift of noc_id is exact. *)
Definition base_address (nodes : list Z) (noc_id node_id : Z) : option Z :=
  let noc_bits := clog2 (Z.of_nat (length nodes)) in
  let node_bits := clog2 (max_nodes nodes) in
  let sh := addrw - noc_bits - node_bits in
  if (sh <? 64) && (0 <=? sh)
  then Some (Z.shiftl ((Z.shiftl noc_id node_bits + node_id) mod 2 ^ 64) sh mod 2 ^ 64)
  else None.

(** rad-sim/sim/noc/aximm_slave_adapter.cpp:263-266 : GetInputDestinationNode; [nw] is AXI4_NODE_ADDRW. *)
Definition dest_node (nw addr : Z) : Z := get (addrw - 1) (addrw - nw) addr.

(** rad-sim/config.py:240-245,276 : AXI4_NODE_ADDRW from the node counts in the header parameters. *)
Definition header_nodew (nodes : list Z) : Z := clog2 (max_nodes nodes).
