(** The k-ary n-fly network (topology "fly") and its routing function. *)
From Coq Require Import ZArith Arith Bool List.
From Verif Require Import BufferModel RouteModel ChannelModel IqRouterModel NetModel NetMeshModel.
Import ListNotations.
Open Scope nat_scope.

(** rad-sim/sim/noc/booksim/networks/fly.cpp:122-125 (_OutChannel). *)
Definition fly_out_channel (k n stage addr port : nat) : nat := stage * k ^ n + addr * k + port.
(** rad-sim/sim/noc/booksim/networks/fly.cpp:127-146 (_InChannel); used for stages after the first one. *)
Definition fly_in_channel (k n stage addr port : nat) : nat :=
  let shift := k ^ (n - stage - 1) in
  let zero := (addr / shift) mod k in
  (stage - 1) * k ^ n + (addr - zero * shift + port * shift) * k + zero.
(** rad-sim/sim/noc/booksim/networks/fly.cpp:65-99 and 117 : the routers are numbered stage by stage, [k^(n-1)] in each; the channel at input [i] of router [r]. *)
Definition fly_in (k n r i : nat) : cid :=
  let stage := r / k ^ (n - 1) in let addr := r mod k ^ (n - 1) in
  if Nat.eqb stage 0 then Inj (addr * k + i) else Ch (fly_in_channel k n stage addr i).
(** rad-sim/sim/noc/booksim/networks/fly.cpp:101-114 : at output [o]. *)
Definition fly_out (k n r o : nat) : cid :=
  let stage := r / k ^ (n - 1) in let addr := r mod k ^ (n - 1) in
  if Nat.eqb stage (n - 1) then Ej (addr * k + o) else Ch (fly_out_channel k n stage addr o).
(** rad-sim/sim/noc/booksim/networks/fly.cpp:45-59 (_ComputeSize), 61-120 (_BuildNet): the sizes, for [1 <= n]; unbounded numbers.  The latency of all channels is 1: fly.cpp:94 for those between routers,
    rad-sim/sim/noc/booksim/channel.hpp:78-81 for the others and for those of credits. *)
Definition fly (k n : nat) (b : bcfg) (rd : bool) (cdelay obuf : Z) : netcfg :=
  let size := n * k ^ (n - 1) in
  {| w_n := size; w_nodes := k ^ n; w_chans := (n - 1) * k ^ n; w_b := b; w_rd := rd;
     w_cfg := fun _ => {| c_in := k; c_outs := k; c_b := b; c_rdelay := rd; c_cdelay := cdelay; c_obuf := obuf |};
     w_in := fly_in k n; w_out := fly_out k n; w_src := last_port size k (fly_out k n); w_snk := last_port size k (fly_in k n);
     w_fd := fun _ => 1%Z; w_cd := fun _ => 1%Z |}.

(** rad-sim/sim/noc/booksim/routefunc.cpp:1893-1898 : the loop, for a stage and a destination. *)
Definition fly_shift (k n stage dest : nat) : nat := Nat.iter (n - 1 - stage) (fun d => d / k) dest.
(** rad-sim/sim/noc/booksim/routefunc.cpp:1862-1906 (dest_tag_fly) at a router; [b] and [e] are the first and the last channel of the type of the flit. *)
Definition dest_tag_fly (k n r dest : nat) (b e : Z) : list oelem :=
  let stage := (r * k) / k ^ n in
  [add_range (Z.of_nat (fly_shift k n stage dest mod k)) b e].
