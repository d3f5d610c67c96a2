(** The portal between the NoC of a device and the inter-device network: rad-sim/sim/portal.cpp. *)
From Coq Require Import ZArith Bool List.
From Verif Require Import InterRadModel.
Import ListNotations.

(** One direction: queue, and the tvalid/payload signals of the master port.  The signals not
    forwarded (tstrb, tkeep, tid) are left out. rad-sim/sim/portal.hpp:13-29. *)
Record pdir := { p_q : list txn; p_valid : bool; p_out : txn }.

(** Inputs of one direction at a clock edge: what the slave side drives (with its tready) and
    the ready signal of the receiver. rad-sim/sim/portal.hpp:35-38. *)
Record pin := { pi_valid : bool; pi_ready : bool; pi_txn : txn; pi_mready : bool }.

(** rad-sim/sim/portal.cpp:42-93 (NoC to network) and 95-139 (network to NoC): the same code on
    different ports.  Push, then pop, then present the front. *)
Definition pdir_tick (i : pin) (s : pdir) : pdir :=
  let q1 := if pi_valid i && pi_ready i then p_q s ++ [pi_txn i] else p_q s in
  let q2 := if p_valid s && pi_mready i then tl q1 else q1 in
  match q2 with
  | t :: _ => {| p_q := q2; p_valid := true; p_out := t |}
  | [] => {| p_q := []; p_valid := false;
             p_out := {| x_data := 0; x_user := x_user (p_out s); x_last := x_last (p_out s); x_dest := x_dest (p_out s) |} |}
  end.

(** Both directions; [out_*] is NoC to network, [in_*] network to NoC. rad-sim/sim/portal.hpp:27-38. *)
Record portal := { to_net : pdir; to_noc : pdir }.

(** rad-sim/sim/portal.cpp:22-33 : Assign drives tready low during reset, else high.
    rad-sim/sim/portal.cpp:36-38 with reset_signal_is: during reset the thread restarts, which
    only clears the valid signal toward the network. *)
Definition portal_tick (rst : bool) (a b : pin) (s : portal) : portal :=
  if rst then {| to_net := {| p_q := p_q (to_net s); p_valid := false; p_out := p_out (to_net s) |}; to_noc := to_noc s |}
  else {| to_net := pdir_tick a (to_net s); to_noc := pdir_tick b (to_noc s) |}.

(** The constructed portal: empty queues, signals low. rad-sim/sim/portal.cpp:3-12. *)
Definition pdir0 (t : txn) : pdir := {| p_q := []; p_valid := false; p_out := t |}.

(** What is seen at an edge of one direction: the transaction taken in, and the one handed over. rad-sim/sim/portal.cpp:42-60. *)
Definition took (i : pin) : list txn := if pi_valid i && pi_ready i then [pi_txn i] else [].
(** rad-sim/sim/portal.cpp:62-66. *)
Definition gave (i : pin) (s : pdir) : list txn := if p_valid s && pi_mready i then [p_out s] else [].

(** Several edges, rad-sim/sim/portal.cpp:42-93. *)
Fixpoint pdir_run (l : list pin) (s : pdir) : pdir * list txn * list txn :=
  match l with
  | [] => (s, [], [])
  | i :: r => match pdir_run r (pdir_tick i s) with (s', a, b) => (s', took i ++ a, gave i s ++ b) end
  end.

(** The whole portal over a list of edges (reset, inputs of both directions). rad-sim/sim/portal.cpp:36-140. *)
Definition pevent := (bool * pin * pin)%type.
(** rad-sim/sim/portal.cpp:36-140. *)
Fixpoint portal_run (l : list pevent) (s : portal) : portal * (list txn * list txn) * (list txn * list txn) :=
  match l with
  | [] => (s, ([], []), ([], []))
  | (rst, a, b) :: r =>
      match portal_run r (portal_tick rst a b s) with
      | (s', (ia, oa), (ib, ob)) =>
          (s', ((if rst then [] else took a) ++ ia, gave a (to_net s) ++ oa), ((if rst then [] else took b) ++ ib, gave b (to_noc s) ++ ob))
      end
  end.
