(** NoC placement files and the interface ids they give to ports. *)
From Coq Require Import ZArith Bool List String Ascii.
From Verif Require Import Fupd ZMap.
Import ListNotations.

(** rad-sim/sim/radsim_module.hpp:26-39 : the ordered port lists of a module. *)
Record mdesc := { m_axs : list string; m_axm : list string; m_mms : list string; m_mmm : list string }.

(** A placement line, already split into fields.  A line with a '.' names a port, the others a
    module: rad-sim/sim/design_context.cpp:97-109,156-168.  [l_axis] is [type == "axis"].
    Text to integer conversion is not modelled. *)
Inductive line :=
  | PortLine (p : string) (noc : nat) (node : Z) (axis : bool)
  | ModLine (m : string) (noc : nat) (node : Z) (axis : bool).

(** The members of RADSimDesignContext that the parser fills. rad-sim/sim/design_context.hpp:24-30. *)
Record pst := {
  placement : string -> option (nat * Z * nat);   (* _port_placement *)
  ports : nat -> list (Z * list string);          (* _node_id_ports_list *)
  ismm : nat -> list (Z * bool) }.                (* _node_id_is_aximm *)

(** An assignment to an entry of a hash table, rad-sim/sim/design_context.hpp:24. *)
Definition sfupd {A} (f : string -> A) (k : string) (x : A) : string -> A :=
  fun j => if String.eqb j k then x else f j.

(** rad-sim/sim/design_context.cpp:114-139 (and 179-196, 205-223) : place one AXI-S port.
    [None] is a failed assertion.  [setmm] tells whether the AXI-S mark is written at once. *)
Definition place_axis (noc : nat) (node : Z) (p : string) (s : pst) : option pst :=
  match mfind node (ismm s noc) with
  | Some true => None
  | _ => Some {| placement := sfupd (placement s) p (Some (noc, node, 0%nat));
                 ports := fupd (ports s) noc
                            (mset node (match mfind node (ports s noc) with
                                        | None => [p]
                                        | Some l => l ++ [p]
                                        end) (ports s noc));
                 ismm := ismm s |}
  end.

(** rad-sim/sim/design_context.cpp:138-139,226 : mark the node as AXI-S. *)
Definition mark (noc : nat) (node : Z) (b : bool) (s : pst) : pst :=
  {| placement := placement s; ports := ports s; ismm := fupd (ismm s) noc (mset node b (ismm s noc)) |}.

(** rad-sim/sim/design_context.cpp:111-112,140-158 : place an AXI-MM port named by itself. *)
Definition place_mm (noc : nat) (node : Z) (p : string) (s : pst) : option pst :=
  match mfind node (ismm s noc) with
  | Some _ => None
  | None => Some (mark noc node true
              {| placement := sfupd (placement s) p (Some (noc, node, 0%nat));
                 ports := fupd (ports s) noc (mset node [p] (ports s noc));
                 ismm := ismm s |})
  end.

(** rad-sim/sim/design_context.cpp:228-256 and 258-286 : one iteration of the AXI-MM loops of a
    module line. *)
Definition place_mm_mod (noc : nat) (node : Z) (p : string) (s : pst) : option pst :=
  match mfind node (ismm s noc) with
  | Some _ => None
  | None =>
      let s1 := {| placement := sfupd (placement s) p (Some (noc, node, 0%nat)); ports := ports s; ismm := ismm s |} in
      match mfind node (ports s noc) with
      | None => Some (mark noc node true
                  {| placement := placement s1; ports := fupd (ports s) noc (mset node [p] (ports s noc)); ismm := ismm s |})
      | Some l => Some {| placement := placement s1; ports := fupd (ports s) noc (mset node (l ++ [p]) (ports s noc)); ismm := ismm s |}
      end
  end.

(** A C++ loop whose body may fail. rad-sim/sim/design_context.cpp:179-196. *)
Fixpoint seqf {A S} (f : A -> S -> option S) (l : list A) (s : S) : option S :=
  match l with
  | [] => Some s
  | x :: r => match f x s with Some s' => seqf f r s' | None => None end
  end.

(** The loops run over the index but always read element 0:
    rad-sim/sim/design_context.cpp:231,261. *)
Definition zeroth (l : list string) : list string := List.map (fun _ => hd EmptyString l) l.

(** rad-sim/sim/design_context.cpp:96-295 : one line.  A NoC number beyond the vector and an
    undefined module give [None].  The std::set of module names and the base address (AddrModel)
    are left out. *)
Definition parse_line (nn : nat) (mods : string -> option mdesc) (l : line) (s : pst) : option pst :=
  match l with
  | PortLine p noc node axis =>
      if Nat.ltb noc nn then
        if axis then option_map (mark noc node false) (place_axis noc node p s) else place_mm noc node p s
      else None
  | ModLine m noc node axis =>
      if Nat.ltb noc nn then
        match mods m with
        | None => None
        | Some d =>
            if axis then
              match seqf (place_axis noc node) (m_axs d) s with
              | None => None
              | Some s1 => option_map (mark noc node false) (seqf (place_axis noc node) (m_axm d) s1)
              end
            else
              match seqf (place_mm_mod noc node) (zeroth (m_mms d)) s with
              | None => None
              | Some s1 => seqf (place_mm_mod noc node) (zeroth (m_mmm d)) s1
              end
        end
      else None
  end.

(** The freshly constructed context. rad-sim/sim/design_context.cpp:39-45. *)
Definition pst0 : pst := {| placement := fun _ => None; ports := fun _ => []; ismm := fun _ => [] |}.

(** rad-sim/sim/design_context.cpp:90-298 : ParseNoCPlacement. *)
Definition parse (nn : nat) (mods : string -> option mdesc) (f : list line) : option pst :=
  seqf (parse_line nn mods) f pst0.

(** rad-sim/sim/design_context.cpp:64-70 : GetModuleNameFromPortName. *)
Fixpoint module_name (p : string) : string :=
  match p with
  | EmptyString => EmptyString
  | String c r => if Ascii.eqb c "."%char then EmptyString else String c (module_name r)
  end.

(** rad-sim/sim/design_context.hpp : AdapterInfo; [a_slave] distinguishes the two tables. rad-sim/sim/radsim_utils.hpp:6-16. *)
Record ainfo := { a_slave : bool; a_noc : nat; a_node : Z; a_clks : Z * Z; a_names : list string; a_mm : bool }.

(** rad-sim/sim/design_context.cpp:374-399 : the loop over the ports of a node; [isl] is
    IsSlavePort ([None]: its assertion), the result holds the placement table and the names
    of the ports on the slave adapter and on the master adapter. *)
Fixpoint port_loop (isl : string -> option bool) (l : list string) (pl : string -> option (nat * Z * nat))
    (sn mn : list string) : option ((string -> option (nat * Z * nat)) * list string * list string) :=
  match l with
  | [] => Some (pl, sn, mn)
  | p :: r =>
      match isl p with
      | None => None
      | Some sl =>
          let id := if sl then List.length mn else List.length sn in
          let pl' := sfupd pl p (match pl p with Some (c, d, _) => Some (c, d, id) | None => Some (0%nat, 0%Z, id) end) in
          if sl then port_loop isl r pl' sn (mn ++ [p]) else port_loop isl r pl' (sn ++ [p]) mn
      end
  end.

(** rad-sim/sim/design_context.cpp:401-441 : the adapter record, if the node has ports in the
    direction; [None] is the assertion that an AXI-MM adapter has one port. *)
Definition mk_adapter (mmp : string -> bool) (slave : bool) (noc : nat) (node : Z) (clks : Z * Z) (names : list string)
  : option (list ainfo) :=
  match names with
  | [] => Some []
  | p :: r =>
      if mmp p && negb (Nat.eqb (List.length names) 1) then None
      else Some [{| a_slave := slave; a_noc := noc; a_node := node; a_clks := clks; a_names := names; a_mm := mmp p |}]
  end.

(** rad-sim/sim/design_context.cpp:360-442 : one node. [clk] is _module_clk_settings. *)
Definition build_node (isl : string -> option bool) (mmp : string -> bool) (clk : string -> Z * Z) (noc : nat)
    (x : Z * list string) (s : (string -> option (nat * Z * nat)) * list ainfo)
  : option ((string -> option (nat * Z * nat)) * list ainfo) :=
  let clks := clk (module_name (hd EmptyString (snd x))) in
  match port_loop isl (snd x) (fst s) [] [] with
  | None => None
  | Some (pl, sn, mn) =>
      match mk_adapter mmp true noc (fst x) clks sn, mk_adapter mmp false noc (fst x) clks mn with
      | Some a, Some b => Some (pl, snd s ++ a ++ b)
      | _, _ => None
      end
  end.

(** rad-sim/sim/design_context.cpp:358-443 : the loop over NoCs and nodes. *)
Definition build (nn : nat) (isl : string -> option bool) (mmp : string -> bool) (clk : string -> Z * Z) (s : pst)
  : option ((string -> option (nat * Z * nat)) * list ainfo) :=
  seqf (fun noc s' => seqf (build_node isl mmp clk noc) (ports s noc) s') (seq 0 nn) (placement s, []).
