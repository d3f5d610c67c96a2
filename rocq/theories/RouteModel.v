(** The mesh and torus of BookSim and their routing functions. *)
From Coq Require Import ZArith Bool List.
Import ListNotations.
Open Scope Z_scope.

(** rad-sim/sim/noc/booksim/misc_utils.cpp:31-40 : powi, not bounded. *)
Fixpoint powi (x : Z) (y : nat) : Z := match y with O => 1 | S y' => powi x y' * x end.

(** rad-sim/sim/noc/booksim/networks/kncube.cpp:190-203 : _LeftNode. *)
Definition left_node (k node : Z) (dim : nat) : Z :=
  let kd := powi k dim in
  let loc := (node / kd) mod k in
  if loc =? 0 then node + (k - 1) * kd else node - kd.
(** rad-sim/sim/noc/booksim/networks/kncube.cpp:205-218 : _RightNode. *)
Definition right_node (k node : Z) (dim : nat) : Z :=
  let kd := powi k dim in
  let loc := (node / kd) mod k in
  if loc =? k - 1 then node - (k - 1) * kd else node + kd.
(** rad-sim/sim/noc/booksim/networks/kncube.cpp:171-179 : _LeftChannel. *)
Definition left_channel (n : nat) (node : Z) (dim : nat) : Z := 2 * Z.of_nat n * node + (2 * Z.of_nat dim + 1).
(** rad-sim/sim/noc/booksim/networks/kncube.cpp:181-188 : _RightChannel. *)
Definition right_channel (n : nat) (node : Z) (dim : nat) : Z := 2 * Z.of_nat n * node + 2 * Z.of_nat dim.
(** rad-sim/sim/noc/booksim/networks/kncube.cpp:103-165 : the channels added to the inputs of the router of a node, in order.  The last one is
    the injection channel. *)
Definition in_channels (k : Z) (n : nat) (node : Z) : list Z :=
  flat_map (fun dim => [left_channel n (right_node k node dim) dim; right_channel n (left_node k node dim) dim]) (seq 0 n).
(** rad-sim/sim/noc/booksim/networks/kncube.cpp:141-165 : the channels added to the outputs.  The last one is the ejection channel. *)
Definition out_channels (n : nat) (node : Z) : list Z :=
  flat_map (fun dim => [right_channel n node dim; left_channel n node dim]) (seq 0 n).

(** rad-sim/sim/noc/booksim/routefunc.cpp:578-583 : the ascending loop with [m] rounds left. *)
Fixpoint dor_asc (k : Z) (m dim : nat) (cur dest : Z) : nat * Z * Z :=
  match m with
  | O => (dim, cur mod k, dest mod k)
  | S m' => if negb (cur mod k =? dest mod k) then (dim, cur mod k, dest mod k) else dor_asc k m' (S dim) (cur / k) (dest / k)
  end.
(** rad-sim/sim/noc/booksim/routefunc.cpp:571-577 : the descending loop from dimension [dim]. *)
Fixpoint dor_desc (k nodes : Z) (dim : nat) (cur dest : Z) : nat * Z * Z :=
  match dim with
  | O => (O, cur * k / nodes, dest * k / nodes)
  | S d => if negb (cur * k / nodes =? dest * k / nodes) then (dim, cur * k / nodes, dest * k / nodes)
           else dor_desc k nodes d ((cur * k) mod nodes) ((dest * k) mod nodes)
  end.
(** rad-sim/sim/noc/booksim/routefunc.cpp:562-591 : dor_next_mesh, with gK, gN and gNodes. *)
Definition dor_next_mesh (k : Z) (n : nat) (nodes : Z) (desc : bool) (cur dest : Z) : nat :=
  if cur =? dest then (2 * n)%nat
  else
    let '(dim, c, d) := if desc then dor_desc k nodes (n - 1) cur dest else dor_asc k (n - 1) 0 cur dest in
    if c <? d then (2 * dim)%nat else (2 * dim + 1)%nat.

(** rad-sim/sim/noc/booksim/routefunc.cpp:603-606 : the loop over dimensions, [m] left. *)
Fixpoint tor_dim (k : Z) (m dim : nat) (cur dest : Z) : nat * Z * Z :=
  match m with
  | O => (dim, cur, dest)
  | S m' => if negb (cur mod k =? dest mod k) then (dim, cur, dest) else tor_dim k m' (S dim) (cur / k) (dest / k)
  end.
(** rad-sim/sim/noc/booksim/routefunc.cpp:595-661 : dor_next_torus; [ph] is the partition before the call.  [r1], [r2] say whether the calls of
    RandomInt(1) on lines 616 and 641 return one.  The output port and the partition after the call. *)
Definition dor_next_torus (k : Z) (n : nat) (balance : bool) (r1 r2 : bool) (in_port : nat) (ph : Z) (cur dest : Z) : nat * Z :=
  let '(dim, c0, d0) := tor_dim k n 0 cur dest in
  if Nat.ltb dim n then
    if negb (Nat.eqb (Nat.div2 in_port) dim) then
      let c := c0 mod k in let d := d0 mod k in
      let dist2 := k - 2 * ((d - c + k) mod k) in
      let right := (0 <? dist2) || ((dist2 =? 0) && r1) in
      let out := if right then (2 * dim)%nat else (2 * dim + 1)%nat in
      let part :=
        if balance then
          if (right && (d <? c)) || (negb right && (c <? d)) then 1
          else if (right && (c <=? (k - 1) / 2) && ((k - 1) / 2 <? d)) || (negb right && ((k - 1) / 2 <? c) && (d <=? (k - 1) / 2)) then 0
          else if r2 then 1 else 0
        else if (right && (d <? c)) || (negb right && (d <? c)) then 1 else 0 in
      (out, part)
    else (Nat.lxor in_port 1, ph)
  else ((2 * n)%nat, ph).

(** rad-sim/sim/noc/booksim/outputset.hpp : an element of an OutputSet: port, first and last virtual channel, priority
    (rad-sim/sim/noc/booksim/outputset.cpp:51-61 : AddRange).  Port -1 stands for injection. *)
Record oelem := { o_port : Z; o_lo : Z; o_hi : Z; o_pri : Z }.
(** rad-sim/sim/noc/booksim/outputset.cpp:51-61 : an element with the default priority. *)
Definition add_range (p lo hi : Z) : oelem := {| o_port := p; o_lo := lo; o_hi := hi; o_pri := 0 |}.

(** rad-sim/sim/noc/booksim/routefunc.cpp:669-686 : the assert that the flit's channel [vc] is in the range [b], [e] of its type, or that it has
    none yet when it is injected. *)
Definition vc_assert (inject : bool) (vc b e : Z) : bool := ((b <=? vc) && (vc <=? e)) || (inject && (vc <? 0)).

(** The place of a head flit: the router, its input port, the flit's source, destination and virtual channel, and the range of its type
    (rad-sim/sim/noc/booksim/routefunc.cpp:665-686). *)
Record rin := { ri_cur : Z; ri_in : nat; ri_src : Z; ri_dest : Z; ri_vc : Z; ri_b : Z; ri_e : Z; ri_inject : bool }.

(** rad-sim/sim/noc/booksim/routefunc.cpp:665-703 : dim_order_mesh. *)
Definition dim_order_mesh (k : Z) (n : nat) (nodes : Z) (x : rin) : option (list oelem) :=
  if negb (vc_assert (ri_inject x) (ri_vc x) (ri_b x) (ri_e x)) then None
  else Some [add_range (if ri_inject x then -1 else Z.of_nat (dor_next_mesh k n nodes false (ri_cur x) (ri_dest x))) (ri_b x) (ri_e x)].

(** rad-sim/sim/noc/booksim/routefunc.cpp:707-756 : dim_order_ni_mesh. *)
Definition dim_order_ni_mesh (k : Z) (n : nat) (nodes : Z) (x : rin) : option (list oelem) :=
  if negb (vc_assert (ri_inject x) (ri_vc x) (ri_b x) (ri_e x)) then None
  else
    let p := if ri_inject x then -1 else Z.of_nat (dor_next_mesh k n nodes false (ri_cur x) (ri_dest x)) in
    if ri_inject x || negb (ri_cur x =? ri_dest x) then
      let v := (ri_e x - ri_b x + 1) / nodes in
      if v <=? 0 then None else let b := ri_b x + ri_dest x * v in Some [add_range p b (b + v - 1)]
    else Some [add_range p (ri_b x) (ri_e x)].

(** rad-sim/sim/noc/booksim/routefunc.cpp:760-814 : dim_order_pni_mesh. *)
Definition dim_order_pni_mesh (k : Z) (n : nat) (nodes : Z) (x : rin) : option (list oelem) :=
  if negb (vc_assert (ri_inject x) (ri_vc x) (ri_b x) (ri_e x)) then None
  else
    let p := dor_next_mesh k n nodes false (ri_cur x) (ri_dest x) in
    let pz := if ri_inject x then -1 else Z.of_nat p in
    if ri_inject x || negb (ri_cur x =? ri_dest x) then
      let c := (if ri_inject x then ri_dest x else Nat.iter (Nat.div2 p) (fun c => c / k) (ri_dest x)) mod k in
      let v := (ri_e x - ri_b x + 1) / k in
      if v <=? 0 then None else let b := ri_b x + c * v in Some [add_range pz b (b + v - 1)]
    else Some [add_range pz (ri_b x) (ri_e x)].

(** rad-sim/sim/noc/booksim/routefunc.cpp:495-554 : xy_yx_mesh; also rad-sim/sim/noc/booksim/routefunc.cpp:420-493 : adaptive_xy_yx_mesh.  [xy] is
    the choice made at injection: at random, or by comparing credits. *)
Definition xy_yx_mesh (k : Z) (n : nat) (nodes : Z) (xy : bool) (x : rin) : option (list oelem) :=
  if negb (vc_assert (ri_inject x) (ri_vc x) (ri_b x) (ri_e x)) then None
  else if ri_inject x then Some [add_range (-1) (ri_b x) (ri_e x)]
  else if ri_cur x =? ri_dest x then Some [add_range (Z.of_nat (2 * n)) (ri_b x) (ri_e x)]
  else
    let v := (ri_e x - ri_b x + 1) / 2 in
    if v <=? 0 then None
    else
      let c := if Nat.ltb (ri_in x) (2 * n) then ri_vc x <? ri_b x + v else xy in
      if c then Some [add_range (Z.of_nat (dor_next_mesh k n nodes false (ri_cur x) (ri_dest x))) (ri_b x) (ri_e x - v)]
      else Some [add_range (Z.of_nat (dor_next_mesh k n nodes true (ri_cur x) (ri_dest x))) (ri_b x + v) (ri_e x)].

(** rad-sim/sim/noc/booksim/outputset.hpp:58-62 : the elements of the set are compared by priority only, so that insert drops an element
    (rad-sim/sim/noc/booksim/outputset.cpp:51-61) when one of the same priority is present.  The functions above add one element. *)
Fixpoint os_insert (x : oelem) (l : list oelem) : list oelem :=
  match l with
  | [] => [x]
  | y :: r => if o_pri y <? o_pri x then x :: l else if o_pri x <? o_pri y then y :: os_insert x r else l
  end.
(** rad-sim/sim/noc/booksim/outputset.cpp:51-61 : several calls of AddRange on an empty set. *)
Definition os_adds (l : list oelem) : list oelem := fold_left (fun s x => os_insert x s) l [].

(** rad-sim/sim/noc/booksim/routefunc.cpp:1027-1067 : the adaptive outputs of min_adapt_mesh, from dimension [dim], [m] left. *)
Fixpoint adapt_outs (k : Z) (m dim : nat) (cur dest b e : Z) : list oelem :=
  match m with
  | O => []
  | S m' =>
      (if cur mod k =? dest mod k then []
       else [{| o_port := Z.of_nat (if cur mod k <? dest mod k then 2 * dim else 2 * dim + 1); o_lo := b + 1; o_hi := e; o_pri := 1 |}])
      ++ adapt_outs k m' (S dim) (cur / k) (dest / k) b e
  end.
(** rad-sim/sim/noc/booksim/routefunc.cpp:969-1068 : min_adapt_mesh.  The arguments of AddRange on line 1012 are port, first channel, last channel,
    priority. *)
Definition min_adapt_mesh (k : Z) (n : nat) (nodes : Z) (x : rin) : option (list oelem) :=
  if negb (vc_assert (ri_inject x) (ri_vc x) (ri_b x) (ri_e x)) then None
  else if ri_inject x then Some [add_range (-1) (ri_b x) (ri_e x)]
  else if ri_cur x =? ri_dest x then Some [add_range (Z.of_nat (2 * n)) (ri_b x) (ri_e x)]
  else
    let in_vc := if Nat.eqb (ri_in x) (2 * n) then ri_e x else ri_vc x in
    Some (os_adds ({| o_port := Z.of_nat (dor_next_mesh k n nodes false (ri_cur x) (ri_dest x)); o_lo := 0; o_hi := ri_b x; o_pri := ri_b x |}
                   :: if in_vc =? ri_b x then [] else adapt_outs k n 0 (ri_cur x) (ri_dest x) (ri_b x) (ri_e x))).

(** rad-sim/sim/noc/booksim/routefunc.cpp:1569-1636 : dim_order_torus, and with [balance] rad-sim/sim/noc/booksim/routefunc.cpp:1708-1775 :
    dim_order_bal_torus.  The result includes the partition stored in the flit. *)
Definition dim_order_torus (k : Z) (n : nat) (balance r1 r2 : bool) (ph : Z) (x : rin) : option (list oelem * Z) :=
  if negb (vc_assert (ri_inject x) (ri_vc x) (ri_b x) (ri_e x)) then None
  else if ri_inject x then Some ([add_range (-1) (ri_b x) (ri_e x)], ph)
  else
    let '(p, ph') := dor_next_torus k n balance r1 r2 (ri_in x) ph (ri_cur x) (ri_dest x) in
    if ri_cur x =? ri_dest x then Some ([add_range (Z.of_nat p) (ri_b x) (ri_e x)], ph')
    else
      let v := (ri_e x - ri_b x + 1) / 2 in
      if v <=? 0 then None
      else if ph' =? 0 then Some ([add_range (Z.of_nat p) (ri_b x) (ri_e x - v)], ph')
      else if balance && negb (ph' =? 1) then None
      else Some ([add_range (Z.of_nat p) (ri_b x + v) (ri_e x)], ph').

(** rad-sim/sim/noc/booksim/routefunc.cpp:820-841 : rand_min_intr_mesh; [rnd i d] is what RandomInt(d) returns in dimension [i]. *)
Fixpoint rand_min_intr (k : Z) (m dim : nat) (rnd : nat -> Z -> Z) (offset src dest : Z) : Z :=
  match m with
  | O => 0
  | S m' =>
      let dist := dest mod k - src mod k in
      offset * (if 0 <? dist then src mod k + rnd dim dist else dest mod k + rnd dim (- dist))
      + rand_min_intr k m' (S dim) rnd (offset * k) (src / k) (dest / k)
  end.
(** rad-sim/sim/noc/booksim/routefunc.cpp:845-905 : romm_mesh, and rad-sim/sim/noc/booksim/routefunc.cpp:1319-1379 : valiant_mesh.  [pick] is the
    intermediate node drawn at injection; [ph] and [intm] are stored in the flit. *)
Definition two_phase_mesh (k : Z) (n : nat) (nodes : Z) (pick ph intm : Z) (x : rin) : option (list oelem * Z * Z) :=
  if negb (vc_assert (ri_inject x) (ri_vc x) (ri_b x) (ri_e x)) then None
  else if ri_inject x then Some ([add_range (-1) (ri_b x) (ri_e x)], ph, intm)
  else
    let '(ph0, intm0) := if Nat.eqb (ri_in x) (2 * n) then (0, pick) else (ph, intm) in
    let ph1 := if (ph0 =? 0) && (ri_cur x =? intm0) then 1 else ph0 in
    let p := Z.of_nat (dor_next_mesh k n nodes false (ri_cur x) (if ph1 =? 0 then intm0 else ri_dest x)) in
    if ri_cur x =? ri_dest x then Some ([add_range p (ri_b x) (ri_e x)], ph1, intm0)
    else
      let v := (ri_e x - ri_b x + 1) / 2 in
      if v <=? 0 then None
      else if ph1 =? 0 then Some ([add_range p (ri_b x) (ri_e x - v)], ph1, intm0)
      else if ph1 =? 1 then Some ([add_range p (ri_b x + v) (ri_e x)], ph1, intm0)
      else None.

(** rad-sim/sim/noc/booksim/routefunc.cpp:845-905 : romm_mesh, with the numbers drawn by rand_min_intr_mesh. *)
Definition romm_mesh (k : Z) (n : nat) (nodes : Z) (rnd : nat -> Z -> Z) (st : Z * Z) (x : rin) : option (list oelem * (Z * Z)) :=
  match two_phase_mesh k n nodes (rand_min_intr k n 0 rnd 1 (ri_src x) (ri_dest x)) (fst st) (snd st) x with
  | Some (es, ph, intm) => Some (es, (ph, intm))
  | None => None
  end.
(** rad-sim/sim/noc/booksim/routefunc.cpp:1319-1379 : valiant_mesh, with the number drawn. *)
Definition valiant_mesh (k : Z) (n : nat) (nodes : Z) (pick : Z) (st : Z * Z) (x : rin) : option (list oelem * (Z * Z)) :=
  match two_phase_mesh k n nodes pick (fst st) (snd st) x with
  | Some (es, ph, intm) => Some (es, (ph, intm))
  | None => None
  end.

(** rad-sim/sim/noc/booksim/globals.hpp:43-49, rad-sim/sim/noc/booksim/main.cpp:82-86 : the global radix, dimension and number of nodes. *)
Record globals := { g_k : Z; g_n : nat; g_nodes : Z }.
(** rad-sim/sim/noc/booksim/networks/kncube.cpp:55-65, rad-sim/sim/noc/booksim/networks/network.cpp:128 : building a network sets the globals. *)
Definition build_net (g : globals) (cfg : Z * nat) : globals := {| g_k := fst cfg; g_n := snd cfg; g_nodes := powi (fst cfg) (snd cfg) |}.
(** rad-sim/sim/noc/radsim_noc.cpp:11-27 : the networks of a design are built one after the other, before any flit is routed. *)
Definition build_nets (g : globals) (cfgs : list (Z * nat)) : globals := fold_left build_net cfgs g.
(** rad-sim/sim/noc/booksim/routefunc.cpp:665-703 : dim_order_mesh reads the globals. *)
Definition dim_order_mesh_g (g : globals) (x : rin) : option (list oelem) := dim_order_mesh (g_k g) (g_n g) (g_nodes g) x.
