(** The networks of rad-sim/sim/noc/booksim/networks/kncube.cpp: meshes and tori. *)
From Coq Require Import ZArith Arith Bool List.
From Verif Require Import Fupd BufferModel RouteModel ChannelModel IqRouterModel NetModel.
Import ListNotations.
Open Scope nat_scope.

(** rad-sim/sim/noc/booksim/networks/network.hpp:64-75 : the arrays _inject, _eject and _chan and the place in them. *)
Definition cid_eqb (a b : cid) : bool :=
  match a, b with Inj x, Inj y => Nat.eqb x y | Ej x, Ej y => Nat.eqb x y | Ch x, Ch y => Nat.eqb x y | _, _ => false end.
(** rad-sim/sim/noc/booksim/routers/router.cpp:90-103 and rad-sim/sim/noc/booksim/flitchannel.cpp:54-62 (SetSource, SetSink): [n] routers with [m] ports, in the order in which their channels are
    added; a channel keeps the last port it was added to. *)
Definition last_port (n m : nat) (at_port : nat -> nat -> cid) (c : cid) : option (nat * nat) :=
  find (fun a => cid_eqb (at_port (fst a) (snd a)) c) (rev (list_prod (seq 0 n) (seq 0 m))).

(** rad-sim/sim/noc/booksim/networks/kncube.cpp:124-131 and 159 : the channel at input [i] of router [r]. *)
Definition cube_in (k : Z) (n : nat) (r i : nat) : cid :=
  match nth_error (in_channels k n (Z.of_nat r)) i with Some c => Ch (Z.to_nat c) | None => Inj r end.
(** rad-sim/sim/noc/booksim/networks/kncube.cpp:141-147 and 160 : the channel at output [o]. *)
Definition cube_out (n : nat) (r o : nat) : cid :=
  match nth_error (out_channels n (Z.of_nat r)) o with Some c => Ch (Z.to_nat c) | None => Ej r end.
(** rad-sim/sim/noc/booksim/networks/kncube.cpp:115-165 : the delay of a channel.  The credit channels at the nodes keep the one of
    rad-sim/sim/noc/booksim/channel.hpp:80. *)
Definition cube_delay (mesh noc_latency : bool) (c : cid) : Z :=
  match c with Ch _ => if noc_latency && negb mesh then 2%Z else 1%Z | _ => 1%Z end.
(** rad-sim/sim/noc/booksim/networks/kncube.cpp:55-65 (_ComputeSize) and 70-163 (_BuildNet); all routers have the same settings. *)
Definition cube (mesh noc_latency : bool) (k : Z) (n : nat) (b : bcfg) (rd : bool) (cdelay obuf : Z) : netcfg :=
  let size := Z.to_nat (powi k n) in
  {| w_n := size; w_nodes := size; w_chans := 2 * n * size; w_b := b; w_rd := rd;
     w_cfg := fun _ => {| c_in := 2 * n + 1; c_outs := 2 * n + 1; c_b := b; c_rdelay := rd; c_cdelay := cdelay; c_obuf := obuf |};
     w_in := cube_in k n; w_out := cube_out n;
     w_src := last_port size (2 * n + 1) (cube_out n); w_snk := last_port size (2 * n + 1) (cube_in k n);
     w_fd := cube_delay mesh noc_latency; w_cd := cube_delay mesh noc_latency |}.
