(** What the properties of the output side of the AXI-MM adapters talk about. *)
From Coq Require Import ZArith Bool List.
From Verif Require Import Bits VcModel AximmFormatModel AximmInModel AximmOutModel.
Import ListNotations.
Local Open Scope Z_scope.

(** Number of a channel type among the types of its side. *)
Definition num (t : xtype) : nat := match t with AR => 0 | AW => 1 | W => 2 | R => 0 | B => 1 end.

Definition teqb (a b : xtype) : bool :=
  match a, b with AR, AR | AW, AW | W, W | R, R | B, B => true | _, _ => false end.
Definition of_type (t : xtype) (f : xflit) : bool := teqb (xf_type f) t.

(** A packet of type [t]: exactly its last flit is a tail, and it is not longer than the vector
    it is put back into. *)
Definition wf_xpacket (w : xwidths) (t : xtype) (p : list xflit) : Prop :=
  p <> [] /\ (forall j f, nth_error p j = Some f -> (xf_tail f = true <-> S j = length p)) /\
  (forall f, In f p -> xf_type f = t) /\
  Z.of_nat (length p - 1) * x_linkw w < xpayloadw w.

Definition ptype (p : list xflit) : xtype := match p with f :: _ => xf_type f | [] => AR end.
Definition is_type (t : xtype) (p : list xflit) : bool := teqb (ptype p) t.

(** What reaches the node: flits of the types of this side on virtual channels of their type;
    the flits of each type are the first flits of a sequence of packets, one after the other. *)
Definition good_xinput (c : ycfg) (input : list xflit) (ps : xtype -> list (list xflit)) : Prop :=
  (forall f, In f input -> out_type (y_side c) (xf_type f) = true /\
     fifo_of_vc c (xf_vc f) = Some (num (xf_type f))) /\
  forall t, Forall (wf_xpacket (y_w c) t) (ps t) /\
    (out_type (y_side c) t = false -> ps t = []) /\
    exists more, filter (of_type t) input ++ more = concat (ps t).

(** What the module must see for a packet. *)
Definition xcontents (w : xwidths) (p : list xflit) : xtxn :=
  let v := xreassemble w (map xf_payload p) in
  let pid := match p with f :: _ => xf_pid f | [] => 0 end in
  match ptype p with
  | AR => XAR (out_addr w pid v)
  | AW => XAW (out_addr w pid v)
  | W => XW (out_w w pid v)
  | R => XR (out_r w pid v)
  | B => XB (out_b w pid v)
  end.

(** The transactions shown at node edges, and those of them that the module took. *)
Definition shown (o : list yobs) : list xtxn :=
  flat_map (fun x => match x with YSeen t _ => [t] | _ => [] end) o.
Definition taken (o : list yobs) : list xtxn :=
  flat_map (fun x => match x with YSeen t true => [t] | _ => [] end) o.

Definition ok_yinstant (ev : yinstant) : Prop := NoDup (y_ths ev).

(** No ready signal falls: from one node edge to the next. [last]: the signals at the last edge. *)
Fixpoint steady (last : xtype -> bool) (evs : list yinstant) : Prop :=
  match evs with
  | [] => True
  | ev :: evs' =>
    if existsb (fun t => match t with TOu => true | _ => false end) (y_ths ev) then
      (forall t, last t = true -> y_rdy ev t = true) /\ steady (y_rdy ev) evs'
    else steady last evs'
  end.

(** A round: the NoC offers a flit at a NoC edge, the adapter clock ticks, and the module is
    ready on all channels at a node edge. *)
Inductive yrounds : nat -> list yinstant -> Prop :=
| yrounds_0 : forall evs, yrounds 0 evs
| yrounds_S : forall n seg evs,
    (exists ev, In ev seg /\ In TEj (y_ths ev) /\ y_avail ev = true) ->
    (exists ev, In ev seg /\ In TDe (y_ths ev)) ->
    (exists ev, In ev seg /\ In TOu (y_ths ev) /\ forall t, y_rdy ev t = true) ->
    yrounds n evs -> yrounds (S n) (seg ++ evs).
