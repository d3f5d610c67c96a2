(** romm_ni_mesh and valiant_ni_torus, which give every destination channels of its own. *)
From Coq Require Import ZArith Arith Bool List.
From Verif Require Import RouteModel.
Import ListNotations.
Open Scope Z_scope.

(** rad-sim/sim/noc/booksim/routefunc.cpp:931-940 : the share of the destination, at injection and where the packet is not at its destination; [None] for a failing assertion.
    rad-sim/sim/noc/booksim/routefunc.cpp:1487-1496 are the same lines. *)
Definition ni_share (nodes : Z) (x : rin) : option (Z * Z) :=
  if ri_inject x || negb (ri_cur x =? ri_dest x) then
    let v := Z.quot (ri_e x - ri_b x + 1) nodes in
    if v <=? 0 then None else let b := ri_b x + ri_dest x * v in Some (b, b + v - 1)
  else Some (ri_b x, ri_e x).
(** rad-sim/sim/noc/booksim/routefunc.cpp:909-966 : romm_ni_mesh. [rnd i d] is what RandomInt(d) returns in dimension [i]; the flit's ph and intm before and after. *)
Definition romm_ni_mesh (k : Z) (n : nat) (nodes : Z) (rnd : nat -> Z -> Z) (st : Z * Z) (x : rin) : option (list oelem * (Z * Z)) :=
  if negb (vc_assert (ri_inject x) (ri_vc x) (ri_b x) (ri_e x)) then None
  else match ni_share nodes x with
  | None => None
  | Some (b, e) =>
    if ri_inject x then Some ([add_range (-1) b e], st)
    else
      let '(ph, intm) := if Nat.eqb (ri_in x) (2 * n) then (0, rand_min_intr k n 0 rnd 1 (ri_src x) (ri_dest x)) else st in
      let ph := if (ph =? 0) && (ri_cur x =? intm) then 1 else ph in
      Some ([add_range (Z.of_nat (dor_next_mesh k n nodes false (ri_cur x) (if ph =? 0 then intm else ri_dest x))) b e], (ph, intm))
  end.
(** rad-sim/sim/noc/booksim/routefunc.cpp:1464-1565 : valiant_ni_torus. [pick] is RandomInt(gNodes - 1), [r1] that of dor_next_torus, [g] the value that ring_part (line 1518) has
    before dor_next_torus, which does not always write it. *)
Definition valiant_ni_torus (k : Z) (n : nat) (nodes : Z) (pick : Z) (r1 : bool) (g : Z) (st : Z * Z) (x : rin) : option (list oelem * (Z * Z)) :=
  if negb (vc_assert (ri_inject x) (ri_vc x) (ri_b x) (ri_e x)) then None
  else match ni_share nodes x with
  | None => None
  | Some (b, e) =>
    if ri_inject x then Some ([add_range (-1) b e], st)
    else
      let '(phase, intm) := if Nat.eqb (ri_in x) (2 * n) then (0, pick) else (Z.quot (fst st) 2, snd st) in
      let '(ph, inp) := if (fst st =? 0) && (ri_cur x =? intm) then (1, (2 * n)%nat) else (fst st, ri_in x) in
      let '(out, part) := dor_next_torus k n false r1 false inp g (ri_cur x) (if ph =? 0 then intm else ri_dest x) in
      let st' := (2 * phase + part, intm) in
      if negb (ri_cur x =? ri_dest x) then
        let ra := Z.quot (e - b + 1) 2 in
        if ra <=? 0 then None
        else match (if part =? 0 then Some (b, e - ra) else if part =? 1 then Some (b + ra, e) else None) with
        | None => None
        | Some (b, e) =>
          let pa := Z.quot ra 2 in
          if pa <=? 0 then None
          else if phase =? 0 then Some ([add_range (Z.of_nat out) b (e - pa)], st')
          else if phase =? 1 then Some ([add_range (Z.of_nat out) (b + pa) e], st') else None
        end
      else Some ([add_range (Z.of_nat out) b e], st')
  end.
