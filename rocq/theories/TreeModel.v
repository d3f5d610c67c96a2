(** The trees of fixed size (topologies "qtree" and "tree4") and their routing functions. *)
From Coq Require Import ZArith Arith Bool List.
From Verif Require Import BufferModel RouteModel ChannelModel IqRouterModel NetModel NetMeshModel.
Import ListNotations.
Open Scope nat_scope.

(** rad-sim/sim/noc/booksim/routers/router.cpp:90-103 : the channels at the ports of the routers after the calls of AddInputChannel (or of AddOutputChannel) on the [size] routers, the first call first. *)
Definition rows (size : nat) (calls : list (nat * cid)) : list (list cid) :=
  map (fun r => map snd (filter (fun a => Nat.eqb (fst a) r) calls)) (seq 0 size).
(** rad-sim/sim/noc/booksim/routers/router.cpp:90-103 : the channel at a port. *)
Definition tab (l : list (list cid)) (r i : nat) : cid := nth i (nth r l []) (Ch 0).
(** rad-sim/sim/noc/booksim/routers/router.cpp:90-103 : the port a channel was added to; the last one if there are several. *)
Definition tab_port (size : nat) (deg : nat -> nat) (l : list (list cid)) (c : cid) : option (nat * nat) :=
  find (fun a => cid_eqb (tab l (fst a) (snd a)) c) (rev (flat_map (fun r => map (pair r) (seq 0 (deg r))) (seq 0 size))).
(** rad-sim/sim/noc/booksim/networks/qtree.cpp:48-54 and tree4.cpp:55-61 : a network from the channels at its ports; the latency of all channels is 1 (channel.hpp:78-81 and tree4.cpp:134-205). *)
Definition tree_net (size nodes chans : nat) (deg : nat -> nat) (ins outs : list (list cid)) (b : bcfg) (rd : bool) (cdelay obuf : Z) : netcfg :=
  {| w_n := size; w_nodes := nodes; w_chans := chans; w_b := b; w_rd := rd;
     w_cfg := fun r => {| c_in := deg r; c_outs := deg r; c_b := b; c_rdelay := rd; c_cdelay := cdelay; c_obuf := obuf |};
     w_in := tab ins; w_out := tab outs; w_src := tab_port size deg outs; w_snk := tab_port size deg ins;
     w_fd := fun _ => 1%Z; w_cd := fun _ => 1%Z |}.

(** ** qtree: [k = 4] and [n = 3] are asserted *)
(** rad-sim/sim/noc/booksim/networks/qtree.cpp:69-71. *)
Definition qt_size : nat := list_sum (map (fun i => 4 ^ i) (seq 0 3)).
(** rad-sim/sim/noc/booksim/networks/qtree.cpp:73-75. *)
Definition qt_chans : nat := list_sum (map (fun j => 2 * 4 ^ j) (seq 1 2)).
(** rad-sim/sim/noc/booksim/networks/qtree.cpp:150-156 (_RouterIndex). *)
Definition qt_router (h pos : nat) : nat := list_sum (map (fun h => 4 ^ h) (seq 0 h)) + pos.
(** rad-sim/sim/noc/booksim/networks/qtree.cpp:158-165 (_InputIndex); the assertion holds for the calls. *)
Definition qt_input (h pos port : nat) : nat := list_sum (map (fun h => 4 ^ (h + 1)) (seq 0 h)) + 4 * pos + port.
(** rad-sim/sim/noc/booksim/networks/qtree.cpp:167-174 (_OutputIndex). *)
Definition qt_output (h pos port : nat) : nat := qt_chans / 2 + list_sum (map (fun h => 4 ^ (h + 1)) (seq 0 h)) + 4 * pos + port.
(** rad-sim/sim/noc/booksim/networks/qtree.cpp:85-100 : the numbers of the routers, as GetID gives them. *)
Definition qt_ids : list Z := flat_map (fun h => map (fun pos => Z.of_nat h * 256 + Z.of_nat pos)%Z (seq 0 (4 ^ h))) (seq 0 3).
(** rad-sim/sim/noc/booksim/networks/qtree.cpp:94-97 : inputs and outputs of a router. *)
Definition qt_deg (r : nat) : nat := if Z.eqb (nth r qt_ids 0%Z / 256) 0 then 4 else 5.
(** rad-sim/sim/noc/booksim/networks/qtree.cpp:103-147 : the calls of AddInputChannel. *)
Definition qt_in_calls : list (nat * cid) :=
  flat_map (fun pos => map (fun port => (qt_router 2 pos, Inj (4 * pos + port))) (seq 0 4)) (seq 0 (4 ^ 2)) ++
  flat_map (fun h => flat_map (fun pos =>
    (if Nat.ltb h 2 then map (fun port => (qt_router h pos, Ch (qt_input h pos port))) (seq 0 4) else []) ++
    (if Nat.ltb 0 h then [(qt_router h pos, Ch (qt_output (h - 1) (pos / 4) (pos mod 4)))] else [])) (seq 0 (4 ^ h))) (seq 0 3).
(** rad-sim/sim/noc/booksim/networks/qtree.cpp:103-147 : the calls of AddOutputChannel. *)
Definition qt_out_calls : list (nat * cid) :=
  flat_map (fun pos => map (fun port => (qt_router 2 pos, Ej (4 * pos + port))) (seq 0 4)) (seq 0 (4 ^ 2)) ++
  flat_map (fun h => flat_map (fun pos =>
    (if Nat.ltb h 2 then map (fun port => (qt_router h pos, Ch (qt_output h pos port))) (seq 0 4) else []) ++
    (if Nat.ltb 0 h then [(qt_router h pos, Ch (qt_input (h - 1) (pos / 4) (pos mod 4)))] else [])) (seq 0 (4 ^ h))) (seq 0 3).
(** rad-sim/sim/noc/booksim/networks/qtree.cpp:103-147 : the inputs of the routers. *)
Definition qt_ins : list (list cid) := rows qt_size qt_in_calls.
(** rad-sim/sim/noc/booksim/networks/qtree.cpp:103-147 : the outputs of the routers. *)
Definition qt_outs : list (list cid) := rows qt_size qt_out_calls.
(** rad-sim/sim/noc/booksim/networks/qtree.cpp:57-148 (_ComputeSize, _BuildNet). *)
Definition qtree (b : bcfg) (rd : bool) (cdelay obuf : Z) : netcfg := tree_net qt_size (4 ^ 3) qt_chans qt_deg qt_ins qt_outs b rd cdelay obuf.
(** rad-sim/sim/noc/booksim/routefunc.cpp:106-118 and networks/qtree.cpp:177-185 : the port at router [r]. *)
Definition qt_port (r dest : nat) : Z :=
  let id := nth r qt_ids 0%Z in
  let height := (id / 256)%Z in let pos := (id mod 256)%Z in
  let d := Nat.iter (Z.to_nat (3 - (height + 1))) (fun x => (x / 4)%Z) (Z.of_nat dest) in
  if Z.eqb pos (d / 4) then (d mod 4)%Z else 4%Z.
(** rad-sim/sim/noc/booksim/routefunc.cpp:76-125 (qtree_nca) at a router; [b] and [e] are the first and the last channel of the type of the flit. *)
Definition qtree_nca (r dest : nat) (b e : Z) : list oelem := [add_range (qt_port r dest) b e].

(** ** tree4: [k = 4] and [n = 3] are asserted *)
(** rad-sim/sim/noc/booksim/networks/tree4.cpp:99 : the routers of a level. *)
Definition t4_level (h : nat) : nat := Nat.shiftr 4 h * 4 ^ h.
(** rad-sim/sim/noc/booksim/networks/tree4.cpp:76-78. *)
Definition t4_size : nat := list_sum (map t4_level (seq 0 3)).
(** rad-sim/sim/noc/booksim/networks/tree4.cpp:80-82. *)
Definition t4_chans : nat := 2 * (2 * 4 ^ 1) * (2 * 4).
(** rad-sim/sim/noc/booksim/networks/tree4.cpp:214-224 (_Router); the assertions hold for the calls. *)
Definition t4_router (h pos : nat) : nat := list_sum (map t4_level (seq 0 h)) + pos.
(** rad-sim/sim/noc/booksim/networks/tree4.cpp:98-114 : the numbers of the routers, as GetID gives them. *)
Definition t4_ids : list Z := flat_map (fun h => map (fun pos => Z.of_nat h * 16 + Z.of_nat pos)%Z (seq 0 (t4_level h))) (seq 0 3).
(** rad-sim/sim/noc/booksim/networks/tree4.cpp:101-110 : inputs and outputs of a router. *)
Definition t4_deg (r : nat) : nat := if Z.ltb (nth r t4_ids 0%Z / 16) 2 then 8 else 6.
(** rad-sim/sim/noc/booksim/networks/tree4.cpp:147-178 : the number [c] for [pos] and [port], between the levels 1 and 2. *)
Definition t4_low (pos port : nat) : nat := 2 * (pos * 4 + port).
(** rad-sim/sim/noc/booksim/networks/tree4.cpp:181-208 : the same, between the levels 0 and 1. *)
Definition t4_high (pos port : nat) : nat := 2 * (2 * 4 ^ 1 * 4) + 2 * (pos * (2 * 4) + port).
(** rad-sim/sim/noc/booksim/networks/tree4.cpp:126-208 : the calls of AddInputChannel. *)
Definition t4_in_calls : list (nat * cid) :=
  flat_map (fun pos => map (fun port => (t4_router 2 pos, Inj (4 * pos + port))) (seq 0 4)) (seq 0 (4 ^ 2)) ++
  flat_map (fun pos => flat_map (fun port => [(t4_router 2 (4 * (pos / 2) + port), Ch (t4_low pos port)); (t4_router 1 pos, Ch (t4_low pos port + 1))]) (seq 0 4)) (seq 0 (2 * 4 ^ 1)) ++
  flat_map (fun pos => flat_map (fun port => [(t4_router 1 port, Ch (t4_high pos port)); (t4_router 0 pos, Ch (t4_high pos port + 1))]) (seq 0 (2 * 4))) (seq 0 (4 * 4 ^ 0)).
(** rad-sim/sim/noc/booksim/networks/tree4.cpp:126-208 : the calls of AddOutputChannel. *)
Definition t4_out_calls : list (nat * cid) :=
  flat_map (fun pos => map (fun port => (t4_router 2 pos, Ej (4 * pos + port))) (seq 0 4)) (seq 0 (4 ^ 2)) ++
  flat_map (fun pos => flat_map (fun port => [(t4_router 1 pos, Ch (t4_low pos port)); (t4_router 2 (4 * (pos / 2) + port), Ch (t4_low pos port + 1))]) (seq 0 4)) (seq 0 (2 * 4 ^ 1)) ++
  flat_map (fun pos => flat_map (fun port => [(t4_router 0 pos, Ch (t4_high pos port)); (t4_router 1 port, Ch (t4_high pos port + 1))]) (seq 0 (2 * 4))) (seq 0 (4 * 4 ^ 0)).
(** rad-sim/sim/noc/booksim/networks/tree4.cpp:126-208 : the inputs of the routers. *)
Definition t4_ins : list (list cid) := rows t4_size t4_in_calls.
(** rad-sim/sim/noc/booksim/networks/tree4.cpp:126-208 : the outputs of the routers. *)
Definition t4_outs : list (list cid) := rows t4_size t4_out_calls.
(** rad-sim/sim/noc/booksim/networks/tree4.cpp:63-212 (_ComputeSize, _BuildNet). *)
Definition tree4 (b : bcfg) (rd : bool) (cdelay obuf : Z) : netcfg := tree_net t4_size (4 ^ 3) t4_chans t4_deg t4_ins t4_outs b rd cdelay obuf.
(** rad-sim/sim/noc/booksim/routefunc.cpp:225-256 : the port at router [r]; [x] is RandomInt(1), [y] is RandomInt(gK-1). *)
Definition t4_port (r dest x y : nat) : Z :=
  let id := nth r t4_ids 0%Z in let d := Z.of_nat dest in
  let rH := (id / 16)%Z in let rP := (id mod 16)%Z in
  if Z.eqb rH 0 then (2 * (d / 16) + Z.of_nat x)%Z
  else if Z.eqb rH 1 then if Z.eqb (d / 4 / 4) (rP / 2) then ((d / 4) mod 4)%Z else (4 + Z.of_nat y)%Z
  else if Z.eqb (d / 4) rP then (d mod 4)%Z else (4 + Z.of_nat x)%Z.
(** rad-sim/sim/noc/booksim/routefunc.cpp:195-265 (tree4_nca) at a router. *)
Definition tree4_nca (r dest x y : nat) (b e : Z) : list oelem := [add_range (t4_port r dest x y) b e].
(** rad-sim/sim/noc/booksim/routefunc.cpp:155-182 : the first port and how many; [x] is RandomInt(1). *)
Definition t4_range (r dest x : nat) : Z * nat :=
  let id := nth r t4_ids 0%Z in let d := Z.of_nat dest in
  let rH := (id / 16)%Z in let rP := (id mod 16)%Z in
  if Z.eqb rH 0 then ((2 * (d / 16) + Z.of_nat x)%Z, 1)
  else if Z.eqb rH 1 then if Z.eqb (d / 4 / 4) (rP / 2) then (((d / 4) mod 4)%Z, 1) else (4%Z, 4)
  else if Z.eqb (d / 4) rP then ((d mod 4)%Z, 1) else (4%Z, 2).
(** rad-sim/sim/noc/booksim/routefunc.cpp:127-190 (tree4_anca) at a router; the calls of AddRange all have the same priority (outputset.cpp:51-61). *)
Definition tree4_anca (r dest x : nat) (b e : Z) : list oelem :=
  os_adds (map (fun i => add_range (fst (t4_range r dest x) + Z.of_nat i) b e) (seq 0 (snd (t4_range r dest x)))).
