(** Small utilities: object pools, hop counts, cycle numbers and the bandwidth fraction. *)
From Coq Require Import ZArith Bool List.
From Coq.Floats Require Import SpecFloat.
Import ListNotations.
Open Scope Z_scope.

(** rad-sim/sim/noc/booksim/flit.hpp:101-102, rad-sim/sim/noc/booksim/credit.hpp:52-53, rad-sim/sim/noc/sc_flit.hpp:17-20 : the static stacks
    of a pool.  Objects are numbered in the order in which [new] made them, so [pl_all] objects exist. *)
Record pool := { pl_all : nat; pl_free : list nat }.
(** rad-sim/sim/noc/booksim/flit.cpp:40-41 : both stacks empty. *)
Definition pool0 : pool := {| pl_all := 0; pl_free := [] |}.
(** rad-sim/sim/noc/booksim/flit.cpp:89-100, rad-sim/sim/noc/booksim/credit.cpp:57-68, rad-sim/sim/noc/sc_flit.cpp:62-72 : New. *)
Definition pl_new (p : pool) : nat * pool :=
  match pl_free p with
  | [] => (pl_all p, {| pl_all := S (pl_all p); pl_free := [] |})
  | x :: r => (x, {| pl_all := pl_all p; pl_free := r |})
  end.
(** rad-sim/sim/noc/booksim/flit.cpp:102-104, rad-sim/sim/noc/booksim/credit.cpp:71-73, rad-sim/sim/noc/sc_flit.cpp:74 : Free. *)
Definition pl_give (x : nat) (p : pool) : pool := {| pl_all := pl_all p; pl_free := x :: pl_free p |}.
(** rad-sim/sim/noc/booksim/credit.cpp:84-86 : OutStanding, a difference of two unsigned sizes taken as an int. *)
Definition pl_outstanding (p : pool) : Z := Z.of_nat (pl_all p) - Z.of_nat (length (pl_free p)).
(** A call of New or of Free, rad-sim/sim/noc/booksim/flit.cpp:89-104. *)
Inductive pcall := PNew | PFree (x : nat).
(** What a call did, rad-sim/sim/noc/booksim/flit.cpp:89-104 : New returned an object or an object was freed. *)
Inductive pevent := ENew (x : nat) | EFree (x : nat).
(** rad-sim/sim/noc/booksim/flit.cpp:89-104 : a sequence of calls and what each did. *)
Fixpoint pl_run (l : list pcall) (p : pool) : pool * list pevent :=
  match l with
  | [] => (p, [])
  | PNew :: r => let '(x, p1) := pl_new p in let '(p2, xs) := pl_run r p1 in (p2, ENew x :: xs)
  | PFree x :: r => let '(p2, xs) := pl_run r (pl_give x p) in (p2, EFree x :: xs)
  end.

(** rad-sim/sim/radsim_utils.cpp:21-32 : CalculateXYGridHops.  The product is taken modulo 2^32; the remainder by zero is undefined. *)
Definition grid_hops (src dst g : Z) : option Z :=
  let n := (g * g) mod 2 ^ 32 in
  if n =? 0 then None
  else
    let s := src mod n in let d := dst mod n in
    Some (Z.abs (s / g - d / g) + Z.abs (s mod g - d mod g) + 1).

(** A binary64 number, as the type [double] of rad-sim/sim/radsim_utils.cpp:3 and the floats of rad-sim/config.py:314-327. *)
Definition dbl := spec_float.
(** rad-sim/sim/radsim_utils.cpp:5 : conversion of an integer. *)
Definition d_of_Z (n : Z) : dbl := binary_normalize 53 1024 n 0 false.
(** rad-sim/sim/radsim_utils.cpp:5 : division. *)
Definition d_div (x y : dbl) : dbl := SFdiv 53 1024 x y.
(** rad-sim/config.py:323 : multiplication. *)
Definition d_mul (x y : dbl) : dbl := SFmul 53 1024 x y.
(** rad-sim/sim/radsim_utils.cpp:5 : the smallest integer not below a finite number, here without going through a double again: the ceiling of
    a double is a double. *)
Definition d_ceil (x : dbl) : option Z :=
  match x with
  | S754_zero _ => Some 0
  | S754_finite s m e =>
      let m' := if s then Zneg m else Zpos m in
      Some (if 0 <=? e then m' * 2 ^ e else - ((- m') / 2 ^ (- e)))
  | _ => None
  end.
(** rad-sim/sim/radsim_utils.cpp:3-7 : GetSimulationCycle at [t] picoseconds with a period of [p] nanoseconds.  [None] when the result is not
    an int. *)
Definition sim_cycle (t : Z) (p : dbl) : option Z :=
  match d_ceil (d_div (d_div (d_of_Z t) p) (d_of_Z 1000)) with
  | Some c => if (- 2 ^ 31 <=? c) && (c <? 2 ^ 31) then Some c else None
  | None => None
  end.
(** The same with exact division, rad-sim/sim/radsim_utils.cpp:3-7 : the period is [pn / pd] nanoseconds. *)
Definition sim_cycle_exact (t pn pd : Z) : Z := - ((- (t * pd)) / (1000 * pn)).

(** rad-sim/config.py:322 : [remainder % 1 != 0]. *)
Definition d_whole (x : dbl) : bool :=
  match x with S754_zero _ => true | S754_finite _ m e => (0 <=? e) || (Zpos m mod 2 ^ (- e) =? 0) | _ => false end.
(** rad-sim/config.py:322-324 : the loop; the number reached and [count].  At most [fuel] rounds. *)
Fixpoint scale10 (fuel : nat) (x : dbl) (count : Z) : option (dbl * Z) :=
  if d_whole x then Some (x, count)
  else match fuel with O => None | S f => scale10 f (d_mul x (d_of_Z 10)) (count + 1) end.
(** rad-sim/config.py:314-327 : get_fraction of a number whose whole part is [i] and whose part after the point, rounded to three places, is
    [m] thousandths.  The sum on line 326 is taken without rounding. *)
Definition get_fraction (i m : Z) : option (Z * Z) :=
  let r := d_div (d_of_Z m) (d_of_Z 1000) in
  if m =? 0 then Some (i, 1)
  else match scale10 400 r 0 with
       | Some (x, c) => match d_ceil x with Some a => Some (i * (c * 10) + a, c * 10) | None => None end
       | None => None
       end.
(** rad-sim/config.py:350-357 : the accept and total cycles written to the knob file. *)
Definition bw_knobs (i m : Z) : option (Z * Z) :=
  match get_fraction i m with
  | Some (a, b) => if a <=? b then Some (a, b) else Some (1, 1)
  | None => None
  end.
