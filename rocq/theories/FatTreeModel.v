(** The fat tree (topology "fattree") and its routing functions. *)
From Coq Require Import ZArith Arith Bool List.
From Verif Require Import BufferModel RouteModel ChannelModel IqRouterModel NetModel NetMeshModel.
Import ListNotations.
Open Scope nat_scope.

(** rad-sim/sim/noc/booksim/networks/fattree.cpp:160 : channels per direction; per level, twice as many. *)
Definition ft_dir (k n : nat) : nat := k * k ^ (n - 1).
(** rad-sim/sim/noc/booksim/networks/fattree.cpp:161. *)
Definition ft_level (k n : nat) : nat := 2 * (k * k ^ (n - 1)).
(** rad-sim/sim/noc/booksim/networks/fattree.cpp:208-220 and, one level higher, 237-249 : the channel at an input, without the number of the first one of the level. *)
Definition ft_link (k n level pos port : nat) : nat :=
  let neighborhood := k ^ (n - 1 - level) in
  let branch := k ^ (n - 1 - (level + 1)) in
  pos / neighborhood * (neighborhood * k) + port * branch * k + (pos mod neighborhood) mod branch * k + (pos mod neighborhood) / branch.
(** rad-sim/sim/noc/booksim/networks/fattree.cpp:111-119 : the routers are numbered level by level, the top first; the number of inputs and of outputs. *)
Definition ft_radix (k n r : nat) : nat := if Nat.eqb (r / k ^ (n - 1)) 0 then k else 2 * k.
(** rad-sim/sim/noc/booksim/networks/fattree.cpp:141-145, 206-231 and 235-260 : the channels at the inputs, in the order in which they are added; those from below come first. *)
Definition ft_in (k n r i : nat) : cid :=
  let level := r / k ^ (n - 1) in let pos := r mod k ^ (n - 1) in
  if Nat.ltb i k then if Nat.eqb level (n - 1) then Inj (pos * k + i) else Ch ((level + 1) * ft_level k n - ft_dir k n + ft_link k n level pos i)
  else Ch ((level - 1) * ft_level k n + ft_link k n (level - 1) pos (i - k)).
(** rad-sim/sim/noc/booksim/networks/fattree.cpp:141-147, 165-180 and 184-199 : at the outputs; those that lead down come first. *)
Definition ft_out (k n r o : nat) : cid :=
  let level := r / k ^ (n - 1) in let pos := r mod k ^ (n - 1) in
  if Nat.ltb o k then if Nat.eqb level (n - 1) then Ej (pos * k + o) else Ch (level * ft_level k n + pos * k + o)
  else Ch (level * ft_level k n - ft_dir k n + pos * k + (o - k)).
(** rad-sim/sim/noc/booksim/routers/router.cpp:90-103 : the port a channel was added to. *)
Definition ft_port (k n : nat) (at_port : nat -> nat -> cid) (c : cid) : option (nat * nat) :=
  find (fun a => cid_eqb (at_port (fst a) (snd a)) c) (rev (flat_map (fun r => map (pair r) (seq 0 (ft_radix k n r))) (seq 0 (n * k ^ (n - 1))))).
(** rad-sim/sim/noc/booksim/networks/fattree.cpp:69-86 (_ComputeSize), 93-264 (_BuildNet): for [1 <= n]; unbounded numbers.  The latency of all channels is 1 (148-151, 171-172, 190-191). *)
Definition fat_tree (k n : nat) (b : bcfg) (rd : bool) (cdelay obuf : Z) : netcfg :=
  {| w_n := n * k ^ (n - 1); w_nodes := k ^ n; w_chans := 2 * k * k ^ (n - 1) * (n - 1); w_b := b; w_rd := rd;
     w_cfg := fun r => {| c_in := ft_radix k n r; c_outs := ft_radix k n r; c_b := b; c_rdelay := rd; c_cdelay := cdelay; c_obuf := obuf |};
     w_in := ft_in k n; w_out := ft_out k n; w_src := ft_port k n (ft_out k n); w_snk := ft_port k n (ft_in k n);
     w_fd := fun _ => 1%Z; w_cd := fun _ => 1%Z |}.

(** rad-sim/sim/noc/booksim/routefunc.cpp:299-326 and 369-396 : the port at router [r] for a packet from input [i]; [up] is the port of those that lead up; [None] for the assertion. *)
Definition ft_step (k n r i dest up : nat) : option nat :=
  let pos := r mod k ^ (n - 1) in
  let depth := r / k ^ (n - 1) in
  let neighborhood := pos / k ^ (n - depth - 1) in
  let coverage := k ^ (n - depth) in
  if (Nat.ltb dest ((neighborhood + 1) * coverage) && Nat.leb (neighborhood * coverage) dest)%bool then
    if Nat.eqb depth (n - 1) then Some (dest mod k) else Some ((dest - neighborhood * coverage) / k ^ (n - (depth + 1)))
  else if Nat.ltb i k then Some (k + up) else None.
(** rad-sim/sim/noc/booksim/routefunc.cpp:269-331 (fattree_nca) at a router; [x] is the random number, [b] and [e] the first and the last channel of the type of the flit. *)
Definition fattree_nca (k n r i dest x : nat) (b e : Z) : option (list oelem) := option_map (fun p => [add_range (Z.of_nat p) b e]) (ft_step k n r i dest x).
(** rad-sim/sim/noc/booksim/routefunc.cpp:336-411 (fattree_anca): [x] and [y] are the random numbers, [used] the credits in use at each output. *)
Definition fattree_anca (k n r i dest x y : nat) (used : nat -> Z) (b e : Z) : option (list oelem) :=
  option_map (fun p => [add_range (Z.of_nat p) b e]) (ft_step k n r i dest (if Z.ltb (used (k + y)) (used (k + x)) then y else x)).
