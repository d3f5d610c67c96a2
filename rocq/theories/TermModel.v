(** The nodes of the network: what the adapters and the NoC do at the terminals of the network (NetModel.v).  The flits an adapter has to send
    and the slots it frees come from outside. *)
From Coq Require Import ZArith Arith Bool List.
From Verif Require Import Fupd ArbiterModel AllocModel BufferModel RouteModel ChannelModel CreditModel IqRouterModel NetModel.
Import ListNotations.
Open Scope nat_scope.

(** rad-sim/sim/noc/radsim_noc.hpp:28-40 : the network, the credit trackers _buffer_state of the nodes, the flit each node has written to its injection channel since the
    last cycle (_input of rad-sim/sim/noc/booksim/channel.hpp:72), and the map _ejected_flits. *)
Record term (P : bpolicy) := mkT { tm_net : net P; tm_buf : nat -> bufs P; tm_inj : nat -> option flit; tm_ej : ejmap }.
Arguments mkT {P}. Arguments tm_net {P}. Arguments tm_buf {P}. Arguments tm_inj {P}. Arguments tm_ej {P}.
(** rad-sim/sim/noc/radsim_noc.cpp:26 and 41-58. *)
Definition term0 (P : bpolicy) (w : netcfg) : term P := mkT (net0 P w) (fun _ => bufs0 P) (fun _ => None) (fun _ => None).

(** What a cycle of the network gets from outside, rad-sim/sim/noc/radsim_noc.cpp:301-321: the time and the results of the allocators. *)
Record clk := { k_now : Z; k_va : nat -> list ask -> match_; k_sa : nat -> list ask -> match_ }.
(** The events at the terminals: the injection thread of a node, with the flit that waits to be sent (rad-sim/sim/noc/axis_slave_adapter.cpp:207-281,
    rad-sim/sim/noc/aximm_slave_adapter.cpp:374-454, rad-sim/sim/noc/aximm_master_adapter.cpp:565-647); a node reads a flit (rad-sim/sim/noc/axis_master_adapter.cpp:75); a node frees a slot of
    a virtual channel (rad-sim/sim/noc/axis_master_adapter.cpp:182); a cycle (rad-sim/sim/noc/radsim_noc.cpp:305-320). *)
Inductive tev := VInj (n : nat) (now : Z) (f : option flit) | VRead (n : nat) | VFree (n v : nat) | VTick (k : clk).
(** What they show: a flit sent, a flit read. rad-sim/sim/noc/booksim/networks/network.cpp:197-208. *)
Inductive tobs := Took (n : nat) (f : flit) | Got (n : nat) (f : flit).

Section Term.
(** [rf r i f]: what the routing function gives at router [r] and input [i], rad-sim/sim/noc/radsim_noc.cpp:28-37. *)
Context {P : bpolicy} (w : netcfg) (rf : nat -> nat -> flit -> list oelem).

(** rad-sim/sim/noc/axis_slave_adapter.cpp:253-261 : with lookahead the node computes the first route. *)
Definition first_route (n : nat) (f : flit) : option flit :=
  if w_rd w then Some f
  else match w_snk w (Inj n) with
       | Some (r, i) => Some {| f_id := f_id f; f_pid := f_pid f; f_head := f_head f; f_tail := f_tail f; f_vc := f_vc f; f_la := rf r i f |}
       | None => None
       end.
(** rad-sim/sim/noc/axis_slave_adapter.cpp:215-273 : the flit that waits is sent if the buffer has room and, for a head and with wait_for_tail_credit, the channel is available. *)
Definition offer (n : nat) (now : Z) (f : flit) (s : term P) : option (term P * list tobs) :=
  let b := tm_buf s n in
  let v := f_vc f in
  match po_full P now (bs_b b) v (bs_p b) with
  | None => None
  | Some full =>
      if negb full && (negb (f_head f) || negb (bc_wait (w_b w)) || available_for (bs_b b) v) then
        match first_route n f, (if f_head f then bs_take (w_b w) P v 0 b else Some b) with
        | Some g, Some b1 =>
            match bs_send (w_b w) P now v (f_tail f) b1 with
            | Some b2 => Some (mkT (tm_net s) (fupd (tm_buf s) n b2) (fupd (tm_inj s) n (Some g)) (tm_ej s), [Took n g])
            | None => None
            end
        | _, _ => None
        end
      else Some (s, [])
  end.
(** rad-sim/sim/noc/axis_slave_adapter.cpp:275-279 : then a credit is read and processed. *)
Definition take_credit (n : nat) (now : Z) (s : term P) : option (term P) :=
  match ch_out (n_c (tm_net s) (Inj n)) with
  | Some vs => match bs_credit (w_b w) P now vs (tm_buf s n) with
               | Some b => Some (mkT (tm_net s) (fupd (tm_buf s) n b) (tm_inj s) (tm_ej s))
               | None => None
               end
  | None => Some s
  end.
(** rad-sim/sim/noc/radsim_noc.cpp:305-320 : what a cycle reads. *)
Definition tick_of (k : clk) (s : term P) : tick :=
  {| t_now := k_now k; t_inj := tm_inj s; t_cred := fun d => if Nat.ltb d (w_nodes w) then option_map (fun v => [v]) (tm_ej s d) else None;
     t_va := k_va k; t_sa := k_sa k; t_rf := rf |}.
(** One event.  The asserts in rad-sim/sim/noc/booksim/networks/network.cpp:199 and 206 check the node. *)
Definition term_step (e : tev) (s : term P) : option (term P * list tobs) :=
  match e with
  | VInj n now f =>
      if negb (Nat.ltb n (w_nodes w)) then None
      else match (match f with Some f => offer n now f s | None => Some (s, []) end) with
           | Some (s1, o) => option_map (fun s2 => (s2, o)) (take_credit n now s1)
           | None => None
           end
  | VRead n => if Nat.ltb n (w_nodes w) then Some (s, match ch_out (n_f (tm_net s) (Ej n)) with Some f => [Got n f] | None => [] end) else None
  | VFree n v => Some (mkT (tm_net s) (tm_buf s) (tm_inj s) (ej_insert (tm_ej s) n v), [])
  | VTick k => match net_step w (tick_of k s) (tm_net s) with
               | Some (net, _) => Some (mkT net (tm_buf s) (fun _ => None) (fun _ => None), [])
               | None => None
               end
  end.
(** Several events, rad-sim/sim/noc/radsim_noc.cpp:260-321. *)
Fixpoint term_run (es : list tev) (s : term P) : option (term P * list tobs) :=
  match es with
  | [] => Some (s, [])
  | e :: r => match term_step e s with
              | Some (s1, o1) => match term_run r s1 with Some (s2, o2) => Some (s2, o1 ++ o2) | None => None end
              | None => None
              end
  end.
End Term.
