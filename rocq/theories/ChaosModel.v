(** The routing functions of the chaos router and planar adaptive routing. *)
From Coq Require Import ZArith Arith Bool List.
From Verif Require Import RouteModel.
Import ListNotations.
Open Scope Z_scope.

(** rad-sim/sim/noc/booksim/routefunc.cpp:1966-1977 : the loop of chaos_mesh from dimension [dim], [m] left. *)
Fixpoint chaos_mesh_outs (k : Z) (m dim : nat) (cur dest : Z) : list oelem :=
  match m with
  | O => []
  | S m => (if cur mod k =? dest mod k then [] else [add_range (Z.of_nat (if cur mod k <? dest mod k then 2 * dim else 2 * dim + 1)) 0 0])
           ++ chaos_mesh_outs k m (S dim) (cur / k) (dest / k)
  end.
(** rad-sim/sim/noc/booksim/routefunc.cpp:1951-1981 (chaos_mesh). *)
Definition chaos_mesh (k : Z) (n : nat) (x : rin) : list oelem :=
  if ri_inject x then os_adds [add_range (-1) 0 0]
  else if ri_cur x =? ri_dest x then os_adds [add_range (Z.of_nat (2 * n)) 0 0]
  else os_adds (chaos_mesh_outs k n 0 (ri_cur x) (ri_dest x)).
(** rad-sim/sim/noc/booksim/routefunc.cpp:1926-1942 : the loop of chaos_torus from dimension [dim], [m] left. *)
Fixpoint chaos_torus_outs (k : Z) (m dim : nat) (cur dest : Z) : list oelem :=
  match m with
  | O => []
  | S m => (if cur mod k =? dest mod k then []
            else let dist2 := k - 2 * ((dest mod k - cur mod k + k) mod k) in
                 (if 0 <=? dist2 then [add_range (Z.of_nat (2 * dim)) 0 0] else []) ++ (if dist2 <=? 0 then [add_range (Z.of_nat (2 * dim + 1)) 0 0] else []))
           ++ chaos_torus_outs k m (S dim) (cur / k) (dest / k)
  end.
(** rad-sim/sim/noc/booksim/routefunc.cpp:1912-1946 (chaos_torus). *)
Definition chaos_torus (k : Z) (n : nat) (x : rin) : list oelem :=
  if ri_inject x then os_adds [add_range (-1) 0 0]
  else if ri_cur x =? ri_dest x then os_adds [add_range (Z.of_nat (2 * n)) 0 0]
  else os_adds (chaos_torus_outs k n 0 (ri_cur x) (ri_dest x)).

(** rad-sim/sim/noc/booksim/routefunc.cpp:1116-1130 : the loop for the adaptive plane; [skip] says that a first dimension is passed over. The dimension with what
    is left of the coordinates; [None] for the failing assertion. *)
Fixpoint planar_dim (k : Z) (skip : bool) (m dim : nat) (cur dest : Z) : option (nat * Z * Z) :=
  match m with
  | O => None
  | S m => if negb (cur mod k =? dest mod k) && negb (skip && Nat.eqb dim 0) then Some (dim, cur, dest) else planar_dim k skip m (S dim) (cur / k) (dest / k)
  end.
(** rad-sim/sim/noc/booksim/routefunc.cpp:1072-1237 (planar_adapt_mesh): [faulty] are the faulty outputs, [rnd] is RandomInt(1). [None] for a failing assertion or
    Error. Ports are numbers; [d ^ 1] is [Z.lxor d 1]. *)
Definition planar_adapt_mesh (k : Z) (n : nat) (faulty : Z -> bool) (rnd : Z) (x : rin) : option (list oelem) :=
  if negb (vc_assert (ri_inject x) (ri_vc x) (ri_b x) (ri_e x)) then None
  else if ri_inject x then Some (os_adds [add_range (-1) (ri_b x) (ri_e x)])
  else if ri_cur x =? ri_dest x then Some (os_adds [add_range (Z.of_nat (2 * n)) (ri_b x) (ri_e x)])
  else
    let mult := Z.quot (ri_e x - ri_b x + 1) 3 in
    match planar_dim k (Nat.eqb (Nat.div2 (ri_in x)) 0 && (ri_vc x <? ri_b x + 2 * mult)) n 0 (ri_cur x) (ri_dest x) with
    | None => None
    | Some (dim, c, d) =>
      let increase := c mod k <? d mod k in
      let p1 := Z.of_nat (if increase then 2 * dim else 2 * dim + 1) in
      let fault := faulty p1 in
      let first := if fault then [] else [add_range p1 (ri_b x + 2 * mult) (ri_e x)] in
      let dim' := Nat.modulo (dim + 1) n in
      let c := c / k in
      let d := d / k in
      let b := if increase then ri_b x else ri_b x + mult in
      let e := b + mult - 1 in
      let up := Z.of_nat (2 * dim') in
      let want := if c mod k <? d mod k then up else if negb (c mod k =? d mod k) then up + 1 else -1 in
      let inz := Z.of_nat (ri_in x) in
      let want := if want =? inz then (if fault then Z.lxor inz 1 else -1) else want in
      if negb (want =? -1) then
        if negb (faulty want) then Some (os_adds (first ++ [add_range want b e]))
        else if fault then None else Some (os_adds first)
      else if fault then
        let '(way, atedge) :=
          if c mod k =? 0 then (up, true)
          else if c mod k =? k - 1 then (up + 1, true)
          else let way := up + rnd in ((if way =? inz then Z.lxor inz 1 else way), false) in
        if negb (faulty way) then Some (os_adds (first ++ [add_range way b e]))
        else if negb atedge && negb (faulty (Z.lxor way 1)) then Some (os_adds (first ++ [add_range (Z.lxor way 1) b e]))
        else None
      else Some (os_adds first)
    end.
