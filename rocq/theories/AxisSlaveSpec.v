(** Specification of what an accepted AXI-S transaction becomes on the NoC. *)
From Coq Require Import ZArith Bool List Lia.
From Verif Require Import Bits AxisFormatModel AxisSlaveModel.
Import ListNotations.
Local Open Scope Z_scope.

(** The packet of an accepted transaction: one flit per slice of the payload, the first is
    the head, the last is the tail, all carry the same routing fields.
    Specification only; the flit fields are those of rad-sim/sim/noc/axis_slave_adapter.cpp:220-252. *)
Definition packet_of (c : scfg) (e : entry) : list bflit :=
  let t := e_txn e in
  let ps := flit_payloads (s_w c) (s_dataw c (e_iface e))
              (pack (s_w c) (t_last t) (t_user t) (t_data t)) in
  map (fun jp => {| b_head := Nat.eqb (fst jp) 0;
                    b_tail := Nat.eqb (S (fst jp)) (length ps);
                    b_type := s_type c (e_iface e);
                    b_vc := trunc (s_vcidw c) (s_vc_of c (s_type c (e_iface e)));
                    b_src := s_node c;
                    b_dst := to_booksim_dest (s_w c) (s_rad c) (s_portal c) (t_dest t);
                    b_iface := iface_of_tid (s_w c) (t_tid t);
                    b_pid := e_id e;
                    b_data := snd jp |})
      (combine (seq 0 (length ps)) ps).

(** Well-formed parameters: positive widths, each interface between 1 bit and the maximum. *)
Definition good_scfg (c : scfg) : Prop :=
  0 < linkw (s_w c) /\ 0 < maxdw (s_w c) /\ 0 <= userw (s_w c) /\
  (forall i, (i < s_nif c)%nat -> 1 <= s_dataw c i <= maxdw (s_w c)).

(** A concrete two-interface adapter used in examples: 512-bit and 64-bit interfaces on
    node 3 of device 0 with the widths of the repository. *)
Definition ex_scfg : scfg :=
  {| s_w := repo_widths; s_vcidw := 3; s_node := 3; s_rad := 0; s_portal := 16;
     s_nif := 2; s_dataw := fun i => match i with O => 512 | _ => 64 end;
     s_type := fun _ => 0; s_vc_of := fun _ => 0; s_depth := 16 |}.
Definition ex_txn (d : Z) : txn :=
  {| t_data := d; t_user := 5; t_last := true; t_dest := 9; t_tid := 1 |}.
Definition ex_inst (l : list thread) (i : option (nat * txn)) (id : Z) (b : bool) : instant :=
  {| ths := l;
     inp := fun k => match i with
                     | Some (j, t) => if Nat.eqb k j then Some t else None
                     | None => None
                     end;
     new_id := id; can := b |}.

(** [rounds n evs]: the schedule contains [n] consecutive stretches, in each of which the
    packetiser's clock ticks and the NoC takes a flit when one is offered. *)
Inductive rounds : nat -> list instant -> Prop :=
| rounds_0 : forall evs, rounds 0 evs
| rounds_S : forall n seg evs,
    (exists ev, In ev seg /\ In TPack (ths ev)) ->
    (exists ev, In ev seg /\ In TInj (ths ev) /\ can ev = true) ->
    rounds n evs -> rounds (S n) (seg ++ evs).
