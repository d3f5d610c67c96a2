(** min_adapt_torus. *)
From Coq Require Import ZArith Arith Bool List.
From Verif Require Import RouteModel.
Import ListNotations.
Open Scope Z_scope.

(** rad-sim/sim/noc/booksim/routefunc.cpp:1823-1838 : the adaptive outputs, from dimension [dim], [m] left. *)
Fixpoint mt_outs (k : Z) (m dim : nat) (cur dest b : Z) : list oelem :=
  match m with
  | O => []
  | S m' =>
      (if cur mod k =? dest mod k then []
       else
         let dist2 := k - 2 * ((dest mod k - cur mod k + k) mod k) in
         [{| o_port := Z.of_nat (if 0 <? dist2 then 2 * dim else 2 * dim + 1); o_lo := b + 3; o_hi := b + 3; o_pri := 1 |}])
      ++ mt_outs k m' (S dim) (cur / k) (dest / k) b
  end.
(** rad-sim/sim/noc/booksim/routefunc.cpp:1779-1858 : min_adapt_torus. At the destination it goes on after offering the ejection port (lines 1808-1811). [r1] is RandomInt(1) in
    dor_next_torus. The result includes the partition stored in the flit. *)
Definition min_adapt_torus (k : Z) (n : nat) (r1 : bool) (ph : Z) (x : rin) : option (list oelem * Z) :=
  if negb (vc_assert (ri_inject x) (ri_vc x) (ri_b x) (ri_e x)) then None
  else if ri_inject x then Some ([add_range (-1) (ri_b x) (ri_e x)], ph)
  else
    let eject := if ri_cur x =? ri_dest x then [add_range (Z.of_nat (2 * n)) (ri_b x) (ri_e x)] else [] in
    let in_vc := if Nat.eqb (ri_in x) (2 * n) then ri_e x else ri_vc x in
    let adaptive := ri_b x + 1 <? in_vc in
    let outs := if adaptive then mt_outs k n 0 (ri_cur x) (ri_dest x) (ri_b x) else [] in
    let '(p, ph') := dor_next_torus k n false r1 false (if adaptive then (2 * n)%nat else ri_in x) ph (ri_cur x) (ri_dest x) in
    let c := if ph' =? 0 then ri_b x else ri_b x + 1 in
    Some (os_adds (eject ++ outs ++ [add_range (Z.of_nat p) c c]), ph').
