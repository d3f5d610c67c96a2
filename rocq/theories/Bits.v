(** Bit-range operations of SystemC's [sc_bv] that RAD-Sim relies on.

    The values are non-negative integers in [Z].  These are the primitives behind
    the accessor macros in rad-sim/sim/radsim_defines.hpp:38-55
    ([t.range(hi, lo)] as a value and as an assignment target).  The SystemC
    library itself is outside /repo, its documented meaning is modelled here. *)
From Coq Require Import ZArith Bool Lia.
Local Open Scope Z_scope.

(** [v.range(hi, lo)] read as a value, used at rad-sim/sim/radsim_defines.hpp:38-55. *)
Definition get (hi lo v : Z) : Z := Z.land (Z.shiftr v lo) (Z.ones (hi - lo + 1)).

(** [v.range(hi, lo) = x], used at rad-sim/sim/noc/axis_slave_adapter.cpp:166-169.
    The right-hand side is truncated or zero-extended to the range width. *)
Definition set (hi lo v x : Z) : Z :=
  Z.lor (Z.ldiff v (Z.shiftl (Z.ones (hi - lo + 1)) lo))
        (Z.shiftl (Z.land x (Z.ones (hi - lo + 1))) lo).

(** Assignment of a value to an [sc_bv<w>] of a different width: truncation or
    zero-extension, e.g. rad-sim/sim/noc/sc_flit.cpp:25-28. *)
Definition trunc (w x : Z) : Z := Z.land x (Z.ones w).

(** [x.to_int()] of a [w]-bit range: the value is sign-extended from bit [w-1],
    used at rad-sim/sim/noc/axis_slave_adapter.cpp:238-245. *)
Definition to_int (w x : Z) : Z := if Z.testbit x (w - 1) then x - 2 ^ w else x.
