(** Packet types and virtual channels. *)
From Coq Require Import ZArith Bool List.
Import ListNotations.
Local Open Scope Z_scope.

(** rad-sim/sim/noc/booksim/flit.hpp:42-47 and rad-sim/sim/radsim_defines.hpp:58-62 :
    the two enumerations give the same numbers to the same types. *)
Definition tAR : Z := 0.
(** rad-sim/sim/noc/booksim/flit.hpp:42-47. *)
Definition tAW : Z := 1.
(** rad-sim/sim/noc/booksim/flit.hpp:42-47. *)
Definition tW : Z := 2.
(** rad-sim/sim/noc/booksim/flit.hpp:42-47. *)
Definition tR : Z := 3.
(** rad-sim/sim/noc/booksim/flit.hpp:42-47. *)
Definition tB : Z := 4.

(** First and last virtual channel of each packet type: the keys read in
    rad-sim/sim/noc/noc_utils.cpp:3-15 and in the two InverseVCMapping functions. *)
Definition vcranges := Z -> Z * Z.

(** rad-sim/sim/noc/noc_utils.cpp:3-15 : VCIDFromType. *)
Definition vcid_from_type (r : vcranges) (t : Z) : Z :=
  if t =? 0 then fst (r tAR) else
  if t =? 1 then fst (r tAW) else
  if t =? 2 then fst (r tW) else
  if t =? 3 then fst (r tR) else fst (r tB).

(** Comparisons [vc_id >= start && vc_id <= end]. rad-sim/sim/noc/aximm_master_adapter.cpp:83-106. *)
Definition in_range (x : Z * Z) (vc : Z) : bool := (fst x <=? vc) && (vc <=? snd x).

(** rad-sim/sim/noc/aximm_master_adapter.cpp:83-106 : InverseVCMapping of requests; [None] is exit(1). *)
Definition inverse_vc_master (r : vcranges) (vc : Z) : option Z :=
  if in_range (r tAW) vc then Some tAW else
  if in_range (r tAR) vc then Some tAR else
  if in_range (r tW) vc then Some tW else None.

(** rad-sim/sim/noc/aximm_slave_adapter.cpp:459-478 : InverseVCMapping of responses. *)
Definition inverse_vc_slave (r : vcranges) (vc : Z) : option Z :=
  if in_range (r tR) vc then Some tR else
  if in_range (r tB) vc then Some tB else None.

(** rad-sim/sim/noc/booksim/booksim_config.cpp:198-207 : default ranges. *)
Definition default_ranges : vcranges := fun t =>
  if t =? 0 then (0, 5) else if t =? 1 then (1, 6) else if t =? 2 then (2, 7) else
  if t =? 3 then (8, 13) else (10, 15).

(** rad-sim/config.py:179-182 : the loop that writes the ranges. *)
Fixpoint gen_loop (n : nat) (per vc_count : Z) : list (Z * Z) :=
  match n with
  | O => []
  | S n' => (vc_count, vc_count + per - 1) :: gen_loop n' per (vc_count + per)
  end.

(** rad-sim/config.py:165-182 : [None] is exit(1) or ZeroDivisionError.  [int(a / b)] is
    taken as the exact quotient. *)
Definition gen_ranges (vcs types : Z) : option (list (Z * Z)) :=
  if types =? 0 then None else
  if negb (vcs mod types =? 0) then None else
  if 5 <? types then None else
  Some (gen_loop (Z.to_nat types) (vcs / types) 0).

(** The BookSim configuration after the file is read over the defaults:
    rad-sim/config.py:177-182 names the types in the order of their numbers. *)
Definition configured (l : list (Z * Z)) : vcranges := fun t =>
  if (0 <=? t) then nth (Z.to_nat t) l (default_ranges t) else default_ranges t.
