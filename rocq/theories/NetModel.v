(** The network: routers (IqRouterModel.v) joined by channels (ChannelModel.v), and its cycle.  Flits injected and credits given by the
    terminals, the results of the allocators and of the routing function come from outside. *)
From Coq Require Import ZArith Arith Bool List.
From Verif Require Import Fupd ArbiterModel AllocModel BufferModel RouteModel ChannelModel IqRouterModel.
Import ListNotations.
Open Scope nat_scope.

(** rad-sim/sim/noc/booksim/networks/network.hpp:64-75 : _inject, _eject and _chan; each comes with a credit channel in the other direction. *)
Inductive cid := Inj (s : nat) | Ej (d : nat) | Ch (c : nat).
(** rad-sim/sim/noc/booksim/networks/network.cpp:123-171 (_Alloc) and rad-sim/sim/noc/booksim/routers/router.cpp:90-103 (AddInputChannel, AddOutputChannel): the number of
    routers, nodes and channels; the settings of the routers; the channels at their ports; the port a channel comes from
    and leads to, [None] for a terminal; the delays of the channels and of the credit channels. *)
Record netcfg := {
  w_n : nat; w_nodes : nat; w_chans : nat; w_b : bcfg; w_rd : bool; w_cfg : nat -> iqcfg;
  w_in : nat -> nat -> cid; w_out : nat -> nat -> cid; w_src : cid -> option (nat * nat); w_snk : cid -> option (nat * nat);
  w_fd : cid -> Z; w_cd : cid -> Z }.

(** rad-sim/sim/noc/booksim/networks/network.hpp:53-80 : the state. *)
Record net (P : bpolicy) := mkN { n_rt : list (router P); n_f : cid -> chan flit; n_c : cid -> chan (list nat) }.
Arguments mkN {P}. Arguments n_rt {P}. Arguments n_f {P}. Arguments n_c {P}.
(** rad-sim/sim/noc/booksim/networks/network.cpp:123-171. *)
Definition net0 (P : bpolicy) (w : netcfg) : net P := mkN (repeat (router0 P) (w_n w)) (fun _ => chan0 flit) (fun _ => chan0 (list nat)).

(** What a cycle gets from outside, rad-sim/sim/noc/radsim_noc.cpp:301-321: the time; for each node the flit sent into the network since the last cycle
    (rad-sim/sim/noc/booksim/networks/network.cpp:197-202) and the credit for a flit taken out (radsim_noc.cpp:307-314); for each router what its
    allocators and routing function compute. *)
Record tick := {
  t_now : Z; t_inj : nat -> option flit; t_cred : nat -> option (list nat);
  t_va : nat -> list ask -> match_; t_sa : nat -> list ask -> match_; t_rf : nat -> nat -> flit -> list oelem }.
(** What can be seen from outside after it, rad-sim/sim/noc/booksim/networks/network.cpp:204-222 (ReadFlit, ReadCredit). *)
Record nout := { z_flit : nat -> option flit; z_cred : nat -> option (list nat) }.

(** rad-sim/sim/noc/booksim/routers/iq_router.cpp:225-256 (the channels are read) and 1998-2030 (the routing function of the router behind an output). *)
Definition net_rin {P} (w : netcfg) (t : tick) (s : net P) (r : nat) : rin :=
  {| i_now := t_now t; i_flit := fun i => ch_out (n_f s (w_in w r i)); i_cred := fun o => ch_out (n_c s (w_out w r o));
     i_va := t_va t r; i_sa := t_sa t r; i_rf := t_rf t r;
     i_la := fun o f => match w_snk w (w_out w r o) with Some (r', i') => Some (t_rf t r' i' f) | None => None end |}.
(** A Send that is made only with something to send, rad-sim/sim/noc/booksim/routers/iq_router.cpp:2244-2280. *)
Definition put {A} (x : option A) (c : chan A) : chan A := match x with Some _ => ch_send x c | None => c end.
(** What a router wrote to one of its ports, rad-sim/sim/noc/booksim/routers/iq_router.cpp:2244-2280. *)
Definition wrote {P A} (l : list (router P * rout)) (f : rout -> nat -> option A) (p : option (nat * nat)) : option A :=
  match p with
  | Some (r, o) => match nth_error l r with Some (_, y) => f y o | None => None end
  | None => None
  end.
(** rad-sim/sim/noc/radsim_noc.cpp:305-320 : a cycle.  The modules are called in the order of _timed_modules, where the channels come before the
    routers (rad-sim/sim/noc/booksim/networks/network.cpp:123-195): so in WriteOutputs a channel delivers before a router sends. *)
Definition net_step {P} (w : netcfg) (t : tick) (s : net P) : option (net P * nout) :=
  match map_opt (fun a => iq_step (w_cfg w (fst a)) (net_rin w t s (fst a)) (snd a)) (combine (seq 0 (w_n w)) (n_rt s)) with
  | None => None
  | Some l =>
      let f1 c := ch_read (w_fd w c) (t_now t) (put (match c with Inj n => t_inj t n | _ => None end) (n_f s c)) in
      let c1 c := put (match c with Ej d => t_cred t d | _ => None end) (ch_read (w_cd w c) (t_now t) (n_c s c)) in
      let f2 c := put (wrote l x_flit (w_src w c)) (ch_write (t_now t) (f1 c)) in
      let c2 c := put (wrote l x_cred (w_snk w c)) (ch_write (t_now t) (c1 c)) in
      Some (mkN (map fst l) f2 c2, {| z_flit := fun d => ch_out (f2 (Ej d)); z_cred := fun n => ch_out (c2 (Inj n)) |})
  end.
(** Several cycles, rad-sim/sim/noc/radsim_noc.cpp:301-321. *)
Fixpoint net_run {P} (w : netcfg) (ts : list tick) (s : net P) : option (net P * list nout) :=
  match ts with
  | [] => Some (s, [])
  | t :: r => match net_step w t s with
              | Some (s1, z) => match net_run w r s1 with Some (s2, zs) => Some (s2, z :: zs) | None => None end
              | None => None
              end
  end.
