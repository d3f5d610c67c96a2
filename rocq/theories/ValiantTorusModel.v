(** valiant_torus with the variable it does not initialise. *)
From Coq Require Import ZArith Arith Bool List.
From Verif Require Import RouteModel.
Import ListNotations.
Open Scope Z_scope.

(** rad-sim/sim/noc/booksim/routefunc.cpp:1434-1453 : the channels for part [part] of a ring and phase [phase]; [None] for a failing assertion. *)
Definition vt_range (phase part b e : Z) : option (Z * Z) :=
  let ra := Z.quot (e - b + 1) 2 in
  if ra <=? 0 then None
  else match (if part =? 0 then Some (b, e - ra) else if part =? 1 then Some (b + ra, e) else None) with
       | None => None
       | Some (b, e) =>
         let pa := Z.quot ra 2 in
         if pa <=? 0 then None else if phase =? 0 then Some (b, e - pa) else if phase =? 1 then Some (b + pa, e) else None
       end.
(** rad-sim/sim/noc/booksim/routefunc.cpp:1383-1460 (valiant_torus). [pick] is RandomInt(gNodes - 1), [r1] and [r2] are those in dor_next_torus; [g] is the value
    that ring_part (line 1425) has before dor_next_torus, which does not always write it. The flit's ph and intm before and after. *)
Definition valiant_torus (k : Z) (n : nat) (pick : Z) (r1 r2 : bool) (g : Z) (st : Z * Z) (x : rin) : option (list oelem * (Z * Z)) :=
  if negb (vc_assert (ri_inject x) (ri_vc x) (ri_b x) (ri_e x)) then None
  else if ri_inject x then Some ([add_range (-1) (ri_b x) (ri_e x)], st)
  else
    let '(phase, intm) := if Nat.eqb (ri_in x) (2 * n) then (0, pick) else (Z.quot (fst st) 2, snd st) in
    let '(phase, inp) := if (phase =? 0) && (ri_cur x =? intm) then (1, (2 * n)%nat) else (phase, ri_in x) in
    let '(out, part) := dor_next_torus k n false r1 r2 inp g (ri_cur x) (if phase =? 0 then intm else ri_dest x) in
    let st' := (2 * phase + part, intm) in
    if negb (ri_cur x =? ri_dest x) then
      match vt_range phase part (ri_b x) (ri_e x) with
      | Some (b, e) => Some ([add_range (Z.of_nat out) b e], st')
      | None => None
      end
    else Some ([add_range (Z.of_nat out) (ri_b x) (ri_e x)], st').
