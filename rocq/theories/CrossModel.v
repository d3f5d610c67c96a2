(** The portals of all devices together with the network between them. *)
From Coq Require Import ZArith Bool List.
From Verif Require Import AxisFormatModel InterRadModel PortalModel.
Import ListNotations.

(** rad-sim/sim/radsim_inter_rad.cpp:46-53 (ConnectClusterInterfaces) : the port pairs that are
    connected.  [cs_out i] is the direction NoC to network of the portal of device [i], [cs_in i]
    the direction network to NoC.  Simplified: the portals and the network run on one clock. *)
Record csys := { cs_net : irst; cs_out : nat -> pdir; cs_in : nat -> pdir }.

(** What the NoCs do at an edge: the transaction handed to each portal, and whether the NoC takes
    what the portal offers; [ci_w] orders the two threads of the network. rad-sim/sim/portal.hpp:37-38. *)
Record cin := { ci_w : bool; ci_tx : nat -> option txn; ci_rdy : nat -> bool }.

(** A pin whose slave side shows [o], rad-sim/sim/portal.cpp:22-33 (tready is high outside reset). *)
Definition pin_of (t0 : txn) (o : option txn) (rdy : bool) : pin :=
  match o with
  | Some t => {| pi_valid := true; pi_ready := true; pi_txn := t; pi_mready := rdy |}
  | None => {| pi_valid := false; pi_ready := true; pi_txn := t0; pi_mready := rdy |}
  end.

(** The value of a signal nobody has driven. rad-sim/sim/radsim_inter_rad.cpp:20-23. *)
Definition txn0 : txn := {| x_data := 0; x_user := 0; x_last := false; x_dest := 0 |}.

(** What the portals show the network, rad-sim/sim/radsim_inter_rad.cpp:46-53. *)
Definition net_in (s : csys) : irin := fun i => if p_valid (cs_out s i) then Some (p_out (cs_out s i)) else None.

(** One edge of everything: each process reads the signals of before the edge. rad-sim/sim/portal.cpp:36-140 and rad-sim/sim/radsim_inter_rad.cpp:57-187. *)
Definition cstep (c : ircfg) (n : cin) (s : csys) : option (csys * list accept_ev) :=
  match edge c (ci_w n) (net_in s) (cs_net s) with
  | None => None
  | Some (net', e) =>
      Some ({| cs_net := net';
               cs_out := fun i => pdir_tick (pin_of txn0 (ci_tx n i) (i_ready (cs_net s) i)) (cs_out s i);
               cs_in := fun i => pdir_tick (pin_of txn0 (i_out (cs_net s) i) (ci_rdy n i)) (cs_in s i) |}, e)
  end.

(** All devices after construction, rad-sim/sim/radsim_inter_rad.cpp:7-34. *)
Definition csys0 : csys := {| cs_net := irst0; cs_out := fun _ => pdir0 txn0; cs_in := fun _ => pdir0 txn0 |}.

(** Seen at an edge: handshakes between portals and network, transactions taken from the NoC of
    each device, transactions handed to the NoC of each device. rad-sim/sim/portal.cpp:42-139. *)
Record cobs := { co_ev : list accept_ev; co_tk : nat -> list txn; co_hd : nat -> list txn }.

(** An execution, rad-sim/sim/main.cpp:50-52. *)
Fixpoint crun (c : ircfg) (l : list cin) (s : csys) : option (csys * list cobs) :=
  match l with
  | [] => Some (s, [])
  | n :: r =>
      match cstep c n s with
      | Some (s1, e) =>
          match crun c r s1 with
          | Some (s2, os) =>
              Some (s2, {| co_ev := e; co_tk := fun i => took (pin_of txn0 (ci_tx n i) (i_ready (cs_net s) i));
                           co_hd := fun i => gave (pin_of txn0 (i_out (cs_net s) i) (ci_rdy n i)) (cs_in s i) |} :: os)
          | None => None
          end
      | None => None
      end
  end.
