(** Specification of what the AXI-S master adapter must deliver. *)
From Coq Require Import ZArith Bool List Lia.
From Verif Require Import Bits AxisFormatModel AxisSlaveModel AxisMasterModel.
Import ListNotations.
Local Open Scope Z_scope.

(** Virtual channel of a flit, as an index. *)
Definition vcn (f : bflit) : nat := Z.to_nat (b_vc f).
Definition on_vc (v : nat) (f : bflit) : bool := Nat.eqb (vcn f) v.

(** Interface named in the first flit of a packet. *)
Definition pkt_iface (c : mcfg) (p : list bflit) : nat :=
  match p with [] => O | f :: _ => Z.to_nat (trunc (ifacew (m_w c)) (b_iface f)) end.

(** A packet: exactly its last flit is a tail, all flits name one existing interface, and it
    is no longer than the receiving interface expects. *)
Definition wf_packet (c : mcfg) (p : list bflit) : Prop :=
  p <> [] /\ (pkt_iface c p < m_nif c)%nat /\ (length p <= m_nfl c (pkt_iface c p))%nat /\
  (forall j f, nth_error p j = Some f -> (b_tail f = true <-> S j = length p)) /\
  (forall f, In f p -> b_iface f = b_iface (hd f p)).

(** The same without the bound on the length. *)
Definition wf_wide (c : mcfg) (p : list bflit) : Prop :=
  p <> [] /\ (pkt_iface c p < m_nif c)%nat /\ (1 <= m_nfl c (pkt_iface c p))%nat /\
  (forall j f, nth_error p j = Some f -> (b_tail f = true <-> S j = length p)) /\
  (forall f, In f p -> b_iface f = b_iface (hd f p)).

(** The flits that reach the node, [input], interleave in any way per-channel sequences each
    of which is a prefix of the concatenated packets [ps v] sent on that channel. *)
Definition good_input (c : mcfg) (input : list bflit) (ps : nat -> list (list bflit)) : Prop :=
  (forall f, In f input -> 0 <= b_vc f /\ (vcn f < m_nvc c)%nat) /\
  forall v, Forall (wf_packet c) (ps v) /\ exists more, filter (on_vc v) input ++ more = concat (ps v).

Definition wide_input (c : mcfg) (input : list bflit) (ps : nat -> list (list bflit)) : Prop :=
  (forall f, In f input -> 0 <= b_vc f /\ (vcn f < m_nvc c)%nat) /\
  forall v, Forall (wf_wide c) (ps v) /\ exists more, filter (on_vc v) input ++ more = concat (ps v).

(** How many transfers of the receiving interface the flits of a packet fill: the smallest number
    of parts of at most [m_nfl] flits. *)
Definition transfers (c : mcfg) (p : list bflit) : nat := S (Nat.div (length p - 1) (m_nfl c (pkt_iface c p))).

(** What the module must see for a packet. *)
Definition spec_out (c : mcfg) (p : list bflit) : aout :=
  let r := unpack (m_w c) (reassemble (m_w c) (map b_data p)) in
  {| a_data := snd r; a_user := snd (fst r); a_last := fst (fst r);
     a_dest := match p with [] => 0 | f :: _ => from_booksim_dest (m_w c) (b_dst f) end;
     a_tid := match p with [] => 0 | f :: _ => trunc (ifacew (m_w c)) (b_iface f) end |}.

(** Transactions accepted by the module on interface [i]. *)
Definition delivers (i : nat) (o : list mobs) : list aout :=
  flat_map (fun x => match x with Deliver j a => if Nat.eqb j i then [a] else [] | _ => [] end) o.

(** Slots freed on channel [v]. *)
Definition frees (v : nat) (o : list mobs) : nat :=
  length (filter (fun x => match x with Free u => Nat.eqb u v | _ => false end) o).

Definition ok_minstant (ev : minstant) : Prop := NoDup (mths ev).

Definition good_mcfg (c : mcfg) : Prop :=
  (1 <= m_nvc c)%nat /\ (1 <= m_nif c)%nat.

(** A round: the NoC offers a flit at a NoC edge, the adapter clock ticks, and the module
    is ready on all interfaces at a node edge. *)
Inductive mrounds : nat -> list minstant -> Prop :=
| mrounds_0 : forall evs, mrounds 0 evs
| mrounds_S : forall n seg evs,
    (exists ev, In ev seg /\ In TEject (mths ev) /\ mavail ev = true) ->
    (exists ev, In ev seg /\ In TDepk (mths ev)) ->
    (exists ev, In ev seg /\ In TOut (mths ev) /\ forall i, mrdy ev i = true) ->
    mrounds n evs -> mrounds (S n) (seg ++ evs).
