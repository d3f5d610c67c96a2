(** Delivery between devices, seen from the NoCs. *)
From Coq Require Import ZArith Bool List.
From Verif Require Import AxisFormatModel InterRadModel CrossModel.
Import ListNotations.

(** All transactions the NoC of device [i] handed to its portal, and all the portal handed to it. *)
Definition sent_by (i : nat) (os : list cobs) : list txn := flat_map (fun o => co_tk o i) os.
Definition got_by (i : nat) (os : list cobs) : list txn := flat_map (fun o => co_hd o i) os.
(** The handshakes into the network. *)
Definition serial (os : list cobs) : list accept_ev := flat_map co_ev os.
Definition of_source (i : nat) (ev : list accept_ev) : list txn :=
  flat_map (fun x => match x with (j, t, _) => if Nat.eqb j i then [t] else [] end) ev.
Definition kept_for (w : widths) (d : nat) (ev : list accept_ev) : list txn :=
  flat_map (fun x => match x with (_, t, k) => if k && Nat.eqb (Z.to_nat (dest_rad w (x_dest t))) d then [t] else [] end) ev.

(** [u] is what has to arrive when [t] was sent: same payload, same device, and the node on that
    device now stands in the local field. *)
Definition arrives_as (w : widths) (t u : txn) : Prop :=
  x_data u = x_data t /\ x_user u = x_user t /\ x_last u = x_last t /\
  dest_rad w (x_dest u) = dest_rad w (x_dest t) /\ dest_local w (x_dest u) = dest_remote w (x_dest t).
