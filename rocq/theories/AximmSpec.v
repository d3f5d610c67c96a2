(** What the properties of the AXI-MM adapters talk about. *)
From Coq Require Import ZArith Bool List.
From Verif Require Import Bits VcModel AddrModel AximmFormatModel.
Import ListNotations.
Local Open Scope Z_scope.

(** Widths for which the formats make sense: a request's address and control fields fit into
    the data field, and an id fits into the packet id. *)
Definition good_xw (c : xwidths) : Prop :=
  0 < x_linkw c /\ 77 <= x_maxdw c /\ 12 <= x_userw c /\ 0 < x_idw c <= x_pidw c.

(** The field values fit the channel. *)
Definition fits_addr (c : xwidths) (h : addr_ch) : Prop :=
  0 <= h_id h < 2 ^ x_idw c /\ 0 <= h_addr h < 2 ^ 64 /\ 0 <= h_len h < 256 /\
  0 <= h_size h < 8 /\ 0 <= h_burst h < 4 /\ 0 <= h_user h < 2 ^ x_userw c.
Definition fits_w (c : xwidths) (dw : Z) (w : w_ch) : Prop :=
  0 <= w_id w < 2 ^ x_idw c /\ 0 <= w_data w < 2 ^ dw /\ 0 <= w_user w < 2 ^ x_userw c.
Definition fits_r (c : xwidths) (dw : Z) (x : r_ch) : Prop :=
  0 <= r_id x < 2 ^ x_idw c /\ 0 <= r_data x < 2 ^ dw /\ 0 <= r_resp x < 4 /\
  0 <= r_user x < 2 ^ x_userw c.
Definition fits_b (c : xwidths) (x : b_ch) : Prop :=
  0 <= rb_id x < 2 ^ x_idw c /\ 0 <= rb_resp x < 4 /\ 0 <= rb_user x < 2 ^ x_userw c.

(** The packet id and the vector that the receiver rebuilds from the flits of a captured
    transaction. *)
Definition carry (c : xwidths) (dw : Z) (r : xregs) : option (Z * Z) :=
  option_map (fun p => (xpid c r, xreassemble c (xpayloads c dw (i_type r) p))) (xpack c r).

(** A request as it arrives: address, id and user are right; burst type, size and length are
    made of bits of the user field. *)
Definition arrives_as (h : addr_ch) : addr_ch :=
  {| h_id := h_id h; h_addr := h_addr h; h_user := h_user h;
     h_burst := 2 * (h_user h mod 2); h_size := (h_user h / 2) mod 8; h_len := (h_user h / 16) mod 256 |}.

From Verif Require Import AximmInModel.

(** The captured form of a transaction; [aw] is the destination for write data. *)
Definition capture_of (c : xcfg) (aw : Z) (t : xtxn) (sid : Z) : xregs :=
  match t with
  | XAR h => cap_addr (xc_w c) AR h sid regs0
  | XAW h => cap_addr (xc_w c) AW h sid regs0
  | XW x => cap_w (xc_w c) x aw sid regs0
  | XR x => cap_r (xc_w c) x sid regs0
  | XB x => cap_b (xc_w c) x sid regs0
  end.

(** The packet of one transaction. *)
Definition packet_of (c : xcfg) (aw : Z) (t : xtxn) (sid : Z) : list xflit :=
  match make_xflits c (capture_of c aw t sid) with Some l => l | None => [] end.

(** The node in the top bits of an address. *)
Definition node_of (c : xcfg) (addr : Z) : Z := addr / 2 ^ (64 - x_nodew (xc_w c)).

(** The destination of write data after transaction [t]. *)
Definition next_aw (c : xcfg) (aw : Z) (t : xtxn) : Z :=
  match t with XAW h => node_of c (h_addr h) | _ => aw end.

(** The packets of a sequence of transactions: write data follow the last write request. *)
Fixpoint packets (c : xcfg) (aw : Z) (l : list (xtxn * Z)) : list xflit :=
  match l with
  | [] => []
  | (t, sid) :: l' => packet_of c aw t sid ++ packets c (next_aw c aw t) l'
  end.

(** Handshakes and injected flits of an execution. *)
Definition accs (o : list xobs) : list (xtxn * Z) :=
  flat_map (fun x => match x with Acc t i => [(t, i)] | _ => [] end) o.
Definition injs (o : list xobs) : list xflit :=
  flat_map (fun x => match x with Inj f => [xb_flit f] | _ => [] end) o.

Definition kind (t : xtxn) : xtype :=
  match t with XAR _ => AR | XAW _ => AW | XW _ => W | XR _ => R | XB _ => B end.

(** A configuration that the adapters can work with. *)
Record good_xcfg (c : xcfg) : Prop := {
  gx_w : good_xw (xc_w c);
  gx_dw : 1 <= xc_dw c <= x_maxdw (xc_w c);
  gx_node : 0 < x_nodew (xc_w c) <= 64;
  gx_dest : x_nodew (xc_w c) <= x_destw (xc_w c);
  gx_ratio : 2 <= xc_ratio c <= 256;
  gx_flits : forall t, xnum_flits (xc_w c) (xc_dw c) t <= 255
}.

(** Addresses are 64-bit values. *)
Definition ok_offers (o : offers) : Prop :=
  (forall h, of_ar o = Some h -> 0 <= h_addr h < 2 ^ 64) /\
  (forall h, of_aw o = Some h -> 0 <= h_addr h < 2 ^ 64).

Definition has (t : xthread) (ev : xinstant) : bool :=
  existsb (fun u => match t, u with TNode, TNode | TAdapt, TAdapt | TNoc, TNoc => true | _, _ => false end)
    (x_ths ev).

Definition ok_xinstant (ev : xinstant) : Prop := NoDup (x_ths ev) /\ ok_offers (x_off ev).

(** The clocks: between two node edges there is an adapter edge (not at the same instant as
    either), and from one node edge (exclusive) to the next (inclusive) there are at most
    [ratio] adapter edges.  [st] is the number of adapter edges since the last node edge. *)
Fixpoint clocked (ratio : Z) (st : option Z) (evs : list xinstant) : Prop :=
  match evs with
  | [] => True
  | ev :: evs' =>
    let a := if has TAdapt ev then 1 else 0 in
    match st with
    | None => clocked ratio (if has TNode ev then Some 0 else None) evs'
    | Some k =>
        k + a <= ratio /\
        if has TNode ev then 1 <= k /\ clocked ratio (Some 0) evs'
        else clocked ratio (Some (k + a)) evs'
    end
  end.

(** Exactly [ratio] adapter edges from one node edge to the next. *)
Fixpoint clocked_exactly (ratio : Z) (st : option Z) (evs : list xinstant) : Prop :=
  match evs with
  | [] => True
  | ev :: evs' =>
    let a := if has TAdapt ev then 1 else 0 in
    match st with
    | None => clocked_exactly ratio (if has TNode ev then Some 0 else None) evs'
    | Some k =>
        if has TNode ev then k + a = ratio /\ clocked_exactly ratio (Some 0) evs'
        else k + a <= ratio /\ clocked_exactly ratio (Some (k + a)) evs'
    end
  end.

(** The write addresses among a sequence of transactions, and its finished bursts. *)
Definition aws (l : list (xtxn * Z)) : list addr_ch :=
  flat_map (fun x => match fst x with XAW h => [h] | _ => [] end) l.
Definition lasts (l : list (xtxn * Z)) : nat :=
  length (flat_map (fun x => match fst x with XW w => if w_last w then [w] else [] | _ => [] end) l).

(** No write address before the data of the burst before it are finished; [g]: a burst is open. *)
Fixpoint orderly (g : bool) (l : list (xtxn * Z)) : Prop :=
  match l with
  | [] => True
  | (t, _) :: l' =>
    match t with
    | XAW _ => g = false /\ orderly true l'
    | XW w => orderly (negb (w_last w)) l'
    | _ => orderly g l'
    end
  end.

(** A packet: head flit first, tail flit last, one type, id and destination, and the payloads of
    the captured transaction [r]. *)
Definition is_packet (c : xcfg) (t : xtype) (pid dest : Z) (pl : list Z) (pk : list xflit) : Prop :=
  pk <> [] /\
  (forall k f, nth_error pk k = Some f ->
     xf_head f = Nat.eqb k 0 /\ xf_tail f = Nat.eqb (S k) (length pk) /\ xf_type f = t /\
     xf_pid f = pid /\ xf_dest f = dest /\
     xf_vc f = trunc (xc_vcidw c) (fst (xc_vc c (type_num t)))) /\
  map xf_payload pk = pl.
