(** What a placement file says, read without the parser. *)
From Coq Require Import ZArith Bool List String.
From Verif Require Import PlacementModel.
Import ListNotations.

(** The ports that a line puts on a node. *)
Definition line_ports (mods : string -> option mdesc) (l : line) : list string :=
  match l with
  | PortLine p _ _ _ => [p]
  | ModLine m _ _ axis =>
      match mods m with
      | None => []
      | Some d => if axis then m_axs d ++ m_axm d else m_mms d ++ m_mmm d
      end
  end.

Definition line_noc (l : line) : nat := match l with PortLine _ c _ _ | ModLine _ c _ _ => c end.
Definition line_node (l : line) : Z := match l with PortLine _ _ d _ | ModLine _ _ d _ => d end.
Definition line_axis (l : line) : bool := match l with PortLine _ _ _ a | ModLine _ _ _ a => a end.

(** The file puts port [p] on node [node] of NoC [noc], as an AXI-S ([axis]) or AXI-MM port. *)
Definition puts (mods : string -> option mdesc) (f : list line) (p : string) (noc : nat) (node : Z) (axis : bool) : Prop :=
  exists l, In l f /\ In p (line_ports mods l) /\ line_noc l = noc /\ line_node l = node /\ line_axis l = axis.

(** All ports named by the file, in order. *)
Definition all_ports (mods : string -> option mdesc) (f : list line) : list string := flat_map (line_ports mods) f.

(** The ports that the file puts on a node, in the order of the file. *)
Definition node_ports (mods : string -> option mdesc) (f : list line) (noc : nat) (node : Z) : list string :=
  flat_map (fun l => if Nat.eqb (line_noc l) noc && Z.eqb (line_node l) node then line_ports mods l else []) f.
