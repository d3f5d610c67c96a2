(** The traffic patterns of BookSim. *)
From Coq Require Import ZArith Arith Bool List.
Import ListNotations.
Open Scope Z_scope.

(** Numbers are unbounded.  Random numbers are arguments; RandomInt(max) gives one from 0 to [max] (rad-sim/sim/noc/booksim/random_utils.hpp). *)

(** ** Permutations of bits *)
(** rad-sim/sim/noc/booksim/traffic.cpp:207-215 : the check in the constructor. *)
Definition bit_ok (nodes : Z) : bool := Z.land nodes (- nodes) =? nodes.
(** rad-sim/sim/noc/booksim/traffic.cpp:223-228 (bitcomp). *)
Definition bitcomp (nodes source : Z) : Z := Z.land (Z.lnot source) (nodes - 1).
(** rad-sim/sim/noc/booksim/traffic.cpp:233-235 : how often the loop runs; [fuel] bounds it. *)
Fixpoint shift_loop (fuel : nat) (nodes shift : Z) : Z :=
  match fuel with
  | O => shift
  | S m => let nodes := Z.shiftr nodes 1 in if nodes =? 0 then shift else shift_loop m nodes (shift + 1)
  end.
(** rad-sim/sim/noc/booksim/traffic.cpp:230-242 : [_shift]; [None] if the constructor stops the program. *)
Definition transpose_shift (nodes : Z) : option Z :=
  let s := shift_loop (Z.to_nat nodes) nodes 0 in if (s mod 2 =? 0) then Some (Z.shiftr s 1) else None.
(** rad-sim/sim/noc/booksim/traffic.cpp:244-250 (transpose). *)
Definition transpose (shift source : Z) : Z :=
  let mask_lo := Z.shiftl 1 shift - 1 in
  let mask_hi := Z.shiftl mask_lo shift in
  Z.lor (Z.land (Z.shiftr source shift) mask_lo) (Z.land (Z.shiftl source shift) mask_hi).
(** rad-sim/sim/noc/booksim/traffic.cpp:262-265 : the loop; [fuel] bounds it. *)
Fixpoint bitrev_loop (fuel : nat) (n source result : Z) : Z :=
  match fuel with
  | O => result
  | S m => if n >? 1 then bitrev_loop m (Z.shiftr n 1) (Z.shiftr source 1) (Z.lor (Z.shiftl result 1) (source mod 2)) else result
  end.
(** rad-sim/sim/noc/booksim/traffic.cpp:258-267 (bitrev). *)
Definition bitrev (nodes source : Z) : Z := bitrev_loop (Z.to_nat nodes) nodes source 0.
(** rad-sim/sim/noc/booksim/traffic.cpp:275-280 (shuffle). *)
Definition shuffle (nodes source : Z) : Z :=
  let shifted := Z.shiftl source 1 in Z.lor (Z.land shifted (nodes - 1)) (if Z.land shifted nodes =? 0 then 0 else 1).

(** ** Permutations of digits *)
(** rad-sim/sim/noc/booksim/traffic.cpp:302-306 and 323-327 : the loop over the digits, [m] left, with base [kk] and what is added to each; [offset] and [result] as in the code. *)
Fixpoint digit_loop (m : nat) (kk plus source offset result : Z) : Z :=
  match m with
  | O => result
  | S m => digit_loop m kk plus source (offset * kk) (result + offset * (((source / offset) mod kk + plus) mod kk))
  end.
(** rad-sim/sim/noc/booksim/traffic.cpp:295-308 (tornado). *)
Definition tornado (k : Z) (n : nat) (xr source : Z) : Z := digit_loop n (xr * k) ((xr * k + 1) / 2 - 1) source 1 0.
(** rad-sim/sim/noc/booksim/traffic.cpp:316-329 (neighbor). *)
Definition neighbor (k : Z) (n : nat) (xr source : Z) : Z := digit_loop n (xr * k) 1 source 1 0.

(** ** A random permutation *)
(** rad-sim/sim/noc/booksim/traffic.cpp:351-361 : number [i] goes to the free place with [ind] free ones before it; [None] is -1 in the table, and as a result the failing assertion. *)
Fixpoint rp_place (ind : nat) (i : Z) (l : list (option Z)) : option (list (option Z)) :=
  match l with
  | [] => None
  | None :: r => match ind with O => Some (Some i :: r) | S ind => option_map (cons None) (rp_place ind i r) end
  | Some x :: r => option_map (cons (Some x)) (rp_place ind i r)
  end.
(** rad-sim/sim/noc/booksim/traffic.cpp:348-362 : the loop from [i], [m] left, with the random numbers [rnd]. *)
Fixpoint rp_loop (m : nat) (i : Z) (rnd : Z -> nat) (l : list (option Z)) : option (list (option Z)) :=
  match m with
  | O => Some l
  | S m => match rp_place (rnd i) i l with Some l => rp_loop m (i + 1) rnd l | None => None end
  end.
(** rad-sim/sim/noc/booksim/traffic.cpp:339-365 (randomize). *)
Definition randperm (nodes : nat) (rnd : Z -> nat) : option (list (option Z)) := rp_loop nodes 0 rnd (repeat None nodes).

(** ** Random destinations *)
(** rad-sim/sim/noc/booksim/traffic.cpp:386-390 (uniform). *)
Definition uniform (x source : Z) : Z := x.
(** rad-sim/sim/noc/booksim/traffic.cpp:402-413 (background): the loop over the random numbers drawn; [None] while all are excluded. *)
Fixpoint background (excluded : list Z) (xs : list Z) : option Z :=
  match xs with
  | [] => None
  | x :: r => if existsb (Z.eqb x) excluded then background excluded r else Some x
  end.
(** rad-sim/sim/noc/booksim/traffic.cpp:421-425 (diagonal): [x] is RandomInt(2). *)
Definition diagonal (nodes x source : Z) : Z := if x =? 0 then Z.rem (source + 1) nodes else source.
(** rad-sim/sim/noc/booksim/traffic.cpp:433-438 (asymmetric): [x] is RandomInt(1); [None] if it divides by 0. *)
Definition asymmetric (nodes x source : Z) : option Z :=
  let half := Z.quot nodes 2 in if half =? 0 then None else Some (Z.rem source half + (if x =? 0 then 0 else half)).
(** rad-sim/sim/noc/booksim/traffic.cpp:450-458 (taper64): [x] is RandomInt(1), [y] and [z] are RandomInt(2), [u] is RandomInt(_nodes - 1). *)
Definition taper64 (x y z u source : Z) : Z := if x =? 0 then u else Z.rem (64 + source + 8 * (y - 1) + (z - 1)) 64.
(** rad-sim/sim/noc/booksim/traffic.cpp:466-474 (bad_dragon): [x] is RandomInt(grp_size_nodes - 1). *)
Definition bad_dragon (nodes k x source : Z) : Z :=
  let grp := 2 * k * k in Z.rem (x + (Z.quot source grp + 1) * grp) nodes.
(** rad-sim/sim/noc/booksim/traffic.cpp:483-488 (badperm_yarc): [x] is RandomInt(_xr * _k - 1). *)
Definition badperm_yarc (k xr x source : Z) : Z := x * (xr * k) + Z.quot source (xr * k).
(** rad-sim/sim/noc/booksim/traffic.cpp:490-504 : [_max_val]; hotspots with their rates. *)
Definition hot_max (hs : list (Z * Z)) : Z := fold_left (fun a h => a + snd h) hs (-1).
(** rad-sim/sim/noc/booksim/traffic.cpp:514-525 : the loop; [None] for the failing assertion or if there are no hotspots. *)
Fixpoint hot_loop (hs : list (Z * Z)) (pct : Z) : option Z :=
  match hs with
  | [] => None
  | [h] => if pct <? snd h then Some (fst h) else None
  | h :: r => if pct <? snd h then Some (fst h) else hot_loop r (pct - snd h)
  end.
(** rad-sim/sim/noc/booksim/traffic.cpp:506-526 (hotspot): [x] is RandomInt(_max_val). *)
Definition hotspot (hs : list (Z * Z)) (x : Z) : option Z := match hs with [h] => Some (fst h) | _ => hot_loop hs x end.
