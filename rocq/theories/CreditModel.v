(** Ejection credits: the map shared by the ejection adapters and the NoC,
    rad-sim/sim/noc/radsim_noc.cpp:305-316. *)
From Coq Require Import ZArith Bool List.
From Verif Require Import Fupd.
Import ListNotations.

(** rad-sim/sim/noc/radsim_noc.hpp:33-34 : _ejected_flits, node to virtual channel. *)
Definition ejmap := nat -> option nat.

(** An event: an adapter consumes a flit (axis_master_adapter.cpp:182,
    aximm_master_adapter.cpp:206-209, aximm_slave_adapter.cpp:580-583), or a NoC clock edge. *)
Inductive cev := Consume (node vc : nat) | NocTick.

(** [std::map::insert] keeps an existing entry: rad-sim/sim/noc/axis_master_adapter.cpp:182. *)
Definition ej_insert (m : ejmap) (node vc : nat) : ejmap :=
  match m node with Some _ => m | None => fupd m node (Some vc) end.

(** rad-sim/sim/noc/radsim_noc.cpp:307-314 : the credits written at a NoC edge. *)
Fixpoint ej_credits (m : ejmap) (nodes : list nat) : list (nat * nat) :=
  match nodes with
  | [] => []
  | n :: r => match m n with Some vc => (n, vc) :: ej_credits m r | None => ej_credits m r end
  end.

(** One event, with the credits it writes.  [nn] is _num_noc_nodes;
    rad-sim/sim/noc/radsim_noc.cpp:306-315. *)
Definition c_step (nn : nat) (m : ejmap) (e : cev) : ejmap * list (nat * nat) :=
  match e with
  | Consume n v => (ej_insert m n v, [])
  | NocTick => (fun _ => None, ej_credits m (seq 0 nn))
  end.

(** rad-sim/sim/noc/radsim_noc.cpp:301-320 : all events. *)
Fixpoint c_run (nn : nat) (m : ejmap) (evs : list cev) : ejmap * list (nat * nat) :=
  match evs with
  | [] => (m, [])
  | e :: r => let '(m1, o1) := c_step nn m e in
              let '(m2, o2) := c_run nn m1 r in (m2, o1 ++ o2)
  end.
