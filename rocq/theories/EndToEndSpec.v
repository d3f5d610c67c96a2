(** AXI-S senders, the NoC, and a receiver put together.  The adapters are the models of
    AxisSlaveModel.v and AxisMasterModel.v; the NoC is any that meets [noc]. *)
From Coq Require Import ZArith Bool List Lia.
From Verif Require Import Bits AxisFormatModel AxisSlaveModel AxisSlaveSpec AxisMasterModel AxisMasterSpec StreamSpec.
Import ListNotations.
Local Open Scope Z_scope.

(** The NoC may move a packet to another channel. *)
Definition set_vc (v : nat) (f : bflit) : bflit :=
  {| b_head := b_head f; b_tail := b_tail f; b_type := b_type f; b_vc := Z.of_nat v; b_src := b_src f;
     b_dst := b_dst f; b_iface := b_iface f; b_pid := b_pid f; b_data := b_data f |}.

(** Where a captured transaction goes. *)
Definition target (c : scfg) (e : entry) : bs_dest := to_booksim_dest (s_w c) (s_rad c) (s_portal c) (t_dest (e_txn e)).

(** Sender [k] sits on node [k] and uses the same header widths as the receiver. *)
Definition sender_ok (m : mcfg) (k : Z) (c : scfg) : Prop := good_scfg c /\ s_node c = k /\ s_w c = m_w m.

(** What the sending module may hand over for this receiver: fields within their widths, an
    existing interface that is at least as wide as the sending one. *)
Definition fits (m : mcfg) (c : scfg) (e : entry) : Prop :=
  0 <= t_user (e_txn e) < 2 ^ userw (m_w m) /\
  0 <= t_data (e_txn e) < 2 ^ s_dataw c (e_iface e) /\
  let i := Z.to_nat (trunc (ifacew (m_w m)) (t_tid (e_txn e))) in
  (i < m_nif m)%nat /\ s_dataw c (e_iface e) <= m_dataw m i.

(** The NoC.  [here]: the destinations that lead to this receiver; [lane k t id]: the channel on
    which the packet [id] of type [t] of sender [k] arrives.  The arriving flits [input] use existing
    channels, packets do not interleave on a channel, and what arrives on a channel from a
    sender is the first part of what that sender put in for this receiver and channel. *)
Definition bound (here : bs_dest -> bool) (lane : Z -> Z -> Z -> nat) (k : Z) (v : nat) (f : bflit) : bool :=
  here (b_dst f) && Nat.eqb (lane k (b_type f) (b_pid f)) v.
Definition noc (m : mcfg) (here : bs_dest -> bool) (lane : Z -> Z -> Z -> nat) (sent : Z -> list bflit) (input : list bflit) : Prop :=
  (forall f, In f input -> 0 <= b_vc f /\ (vcn f < m_nvc m)%nat) /\
  (forall v, wormhole b_tail b_src (filter (on_vc v) input)) /\
  (forall k v, prefix (filter (from b_src k) (filter (on_vc v) input)) (map (set_vc v) (filter (bound here lane k v) (sent k)))).
(** Nothing is left in the NoC. *)
Definition noc_empty (here : bs_dest -> bool) (lane : Z -> Z -> Z -> nat) (sent : Z -> list bflit) (input : list bflit) : Prop :=
  forall k v, filter (from b_src k) (filter (on_vc v) input) = map (set_vc v) (filter (bound here lane k v) (sent k)).

(** What the receiving module must see for a transaction: the same data, user bits and last
    flag; tid is the low part of the sent one; tdest as rebuilt by the receiver. *)
Definition received (m : mcfg) (cs : Z -> scfg) (x : Z * entry) : aout :=
  let t := e_txn (snd x) in
  {| a_data := t_data t; a_user := t_user t; a_last := t_last t;
     a_dest := from_booksim_dest (m_w m) (target (cs (fst x)) (snd x));
     a_tid := trunc (ifacew (m_w m)) (t_tid t) |}.
Definition to_iface (m : mcfg) (i : nat) (x : Z * entry) : bool :=
  Nat.eqb (Z.to_nat (trunc (ifacew (m_w m)) (t_tid (e_txn (snd x))))) i.

(** Transactions of sender [k] meant for this receiver over channel [v]. *)
Definition meant (here : bs_dest -> bool) (lane : Z -> Z -> Z -> nat) (cs : Z -> scfg) (k : Z) (v : nat) (e : entry) : bool :=
  here (target (cs k) e) && Nat.eqb (lane k (s_type (cs k) (e_iface e)) (e_id e)) v.
(** The part of a history that came from sender [k] over channel [v]. *)
Definition part (k : Z) (v : nat) (hist : list (nat * (Z * entry))) : list entry :=
  map (fun h => snd (snd h)) (filter (fun h => Nat.eqb (fst h) v && Z.eqb (fst (snd h)) k) hist).

Definition trace (c : scfg) (evs : list instant) : list obs := snd (s_run c evs (s_init c)).
Definition idle (c : scfg) (evs : list instant) : Prop :=
  let s := fst (s_run c evs (s_init c)) in infifo s = [] /\ injfifo s = [] /\ tobe s = None.
