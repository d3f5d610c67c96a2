(** dim_order_ni_torus, which gives every destination channels of its own. *)
From Coq Require Import ZArith Arith Bool List.
From Verif Require Import RouteModel.
Import ListNotations.
Open Scope Z_scope.

(** rad-sim/sim/noc/booksim/routefunc.cpp:1640-1704 : dim_order_ni_torus. dor_next_torus gets a null pointer for the partition (line 1674) and then neither writes one nor
    draws for it, so that only the port of its result is used and [r2] does not matter. [nodes] is gNodes. *)
Definition dim_order_ni_torus (k : Z) (n : nat) (nodes : Z) (r1 : bool) (x : rin) : option (list oelem) :=
  if negb (vc_assert (ri_inject x) (ri_vc x) (ri_b x) (ri_e x)) then None
  else if ri_inject x then Some [add_range (-1) (ri_b x) (ri_e x)]
  else
    let p := fst (dor_next_torus k n false r1 false (ri_in x) 0 (ri_cur x) (ri_dest x)) in
    if negb (ri_cur x =? ri_dest x) then
      let v := Z.quot (ri_e x - ri_b x + 1) nodes in
      if v =? 0 then None else let b := ri_b x + ri_dest x * v in Some [add_range (Z.of_nat p) b (b + v - 1)]
    else Some [add_range (Z.of_nat p) (ri_b x) (ri_e x)].
