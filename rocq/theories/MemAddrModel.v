(** Memory addresses: the translation of the memory controller and the decoding of the DRAM simulator. *)
From Coq Require Import ZArith Bool List String Ascii.
Import ListNotations.
Local Open Scope Z_scope.

(** rad-sim/sim/dram/DRAMsim3/src/configuration.cc:88-152 : the parameters read from the configuration that matter here.
    They are [int]s; the results of products are taken to be in range. *)
Record memcfg := {
  mc_channels : Z; mc_ranks : Z; mc_bankgroups : Z; mc_banks : Z; mc_rows : Z; mc_columns : Z;
  mc_BL : Z; mc_bus : Z; mc_mapping : string }.

(** configuration.cc:353-359 : the six names of fields. *)
Inductive fld := CH | RA | BG | BA | RO | CO.
(** configuration.cc:353-359 : equality of names. *)
Definition fld_eqb (a b : fld) : bool :=
  match a, b with CH, CH | RA, RA | BG, BG | BA, BA | RO, RO | CO, CO => true | _, _ => false end.
(** configuration.cc:353-359,380 : the name a token stands for, if any. *)
Definition fld_of (t : string) : option fld :=
  if String.eqb t "ch" then Some CH else if String.eqb t "ra" then Some RA else if String.eqb t "bg" then Some BG
  else if String.eqb t "ba" then Some BA else if String.eqb t "ro" then Some RO else if String.eqb t "co" then Some CO else None.

(** configuration.cc:369-373, rad-sim/sim/dram/mem_controller.cpp:119-123 : the tokens, of two characters each. *)
Fixpoint tokens (s : string) : list string :=
  match s with
  | EmptyString => []
  | String a EmptyString => [String a EmptyString]
  | String a (String b r) => String a (String b EmptyString) :: tokens r
  end.

(** rad-sim/sim/dram/DRAMsim3/src/common.cc:50-57 : LogBase2.  An [int] is halved at most 31 times. *)
Fixpoint log_base2 (fuel : nat) (n : Z) : Z :=
  match fuel with
  | O => 0
  | S k => if 1 <? n then log_base2 k (Z.quot n 2) + 1 else 0
  end.
(** common.cc:50-57, for a 32-bit [int]. *)
Definition LogBase2 (n : Z) : Z := log_base2 32 n.

(** configuration.cc:347-359 : the widths of the fields in the DRAM simulator. *)
Definition dwidth (c : memcfg) (f : fld) : Z :=
  match f with
  | CH => LogBase2 (mc_channels c) | RA => LogBase2 (mc_ranks c) | BG => LogBase2 (mc_bankgroups c)
  | BA => LogBase2 (mc_banks c) | RO => LogBase2 (mc_rows c) | CO => LogBase2 (mc_columns c) - LogBase2 (mc_BL c)
  end.
(** configuration.cc:349-350 : shift_bits. *)
Definition shift_bits (c : memcfg) : Z := LogBase2 (Z.quot (mc_bus c) 8 * mc_BL c).

(** configuration.cc:375-386 : the loop over the fields from the last; [m] is the map field_pos, a later entry replacing an earlier one. *)
Fixpoint field_positions (w : fld -> Z) (back : list string) (pos : Z) (m : fld -> option Z) : option (fld -> option Z) :=
  match back with
  | [] => Some m
  | t :: r => match fld_of t with
              | None => None
              | Some f => field_positions w r (pos + w f) (fun g => if fld_eqb g f then Some pos else m g)
              end
  end.
(** configuration.cc:395-400 : [(1 << w) - 1] in [int] is undefined unless 0 <= w < 31. *)
Definition int_mask (w : Z) : option Z := if (0 <=? w) && (w <? 31) then Some (Z.shiftl 1 w - 1) else None.
(** configuration.cc:353-400 : every field gets a position and a mask. *)
Record decoder := { d_shift : Z; d_pos : fld -> Z; d_mask : fld -> Z }.
(** configuration.cc:388-400 : position and mask of one field; [at] throws if there is none. *)
Definition at_field (w : fld -> Z) (m : fld -> option Z) (f : fld) : option (Z * Z) :=
  match m f, int_mask (w f) with Some p, Some k => Some (p, k) | _, _ => None end.
(** configuration.cc:346-401 : SetAddressMapping. *)
Definition SetAddressMapping (c : memcfg) : option decoder :=
  if negb (Nat.eqb (String.length (mc_mapping c)) 12) then None else
  match field_positions (dwidth c) (rev (tokens (mc_mapping c))) 0 (fun _ => None) with
  | None => None
  | Some m =>
    match at_field (dwidth c) m CH, at_field (dwidth c) m RA, at_field (dwidth c) m BG, at_field (dwidth c) m BA, at_field (dwidth c) m RO, at_field (dwidth c) m CO with
    | Some ch, Some ra, Some bg, Some ba, Some ro, Some co =>
      let get f := match f with CH => ch | RA => ra | BG => bg | BA => ba | RO => ro | CO => co end in
      Some {| d_shift := shift_bits c; d_pos := fun f => fst (get f); d_mask := fun f => snd (get f) |}
    | _, _, _, _, _, _ => None
    end
  end.
(** configuration.cc:34-43 : AddressMapping, one field of the result; rad-sim/sim/dram/DRAMsim3/src/dram_system.cc:27-30 : GetChannel for [CH]. *)
Definition dram_field (d : decoder) (hex_addr : Z) (f : fld) : Z :=
  Z.land (Z.shiftr (Z.shiftr hex_addr (d_shift d)) (d_pos d f)) (d_mask d f).

(** mem_controller.cpp:97-118 : the widths of the fields in the controller.  [(int)log2(n)] of a positive [int] is exact. *)
Definition cwidth (c : memcfg) (f : fld) : Z :=
  match f with
  | CH => Z.log2 (mc_channels c) | RA => Z.log2 (mc_ranks c) | BG => Z.log2 (mc_bankgroups c)
  | BA => Z.log2 (mc_banks c) | RO => Z.log2 (mc_rows c)
  | CO => Z.log2 (Z.shiftl 1 (Z.log2 (mc_columns c) - Z.log2 (mc_BL c)))
  end.
(** mem_controller.cpp:117-118 : the width of "bl". *)
Definition cbl (c : memcfg) : Z := Z.log2 (Z.quot (mc_BL c * mc_bus c) 8).
(** mem_controller.cpp:119-123 : the tokens; one that is no field has width 0 and value 0 (operator[] inserts it). *)
Definition cfields (c : memcfg) : list (option fld) := map fld_of (tokens (mc_mapping c)).

(** mem_controller.cpp:305-318 : take a field from the low end of the working address: its value and the rest. *)
Definition take_field (w addr : Z) : option (Z * Z) :=
  match int_mask w with Some k => Some (Z.land addr k, Z.shiftr addr w) | None => None end.
(** mem_controller.cpp:304-318 : the values of the fields, "bl" first. *)
Definition split_addr (c : memcfg) (addr : Z) : option (Z * (fld -> Z)) :=
  match take_field (cbl c) addr with None => None | Some (bl, a1) =>
  match take_field (cwidth c CO) a1 with None => None | Some (co, a2) =>
  match take_field (cwidth c BA) a2 with None => None | Some (ba, a3) =>
  match take_field (cwidth c RO) a3 with None => None | Some (ro, a4) =>
  match take_field (cwidth c BG) a4 with None => None | Some (bg, a5) =>
  match take_field (cwidth c RA) a5 with None => None | Some (ra, a6) =>
  match take_field (cwidth c CH) a6 with None => None | Some (ch, _) =>
    Some (bl, fun f => match f with CH => ch | RA => ra | BG => bg | BA => ba | RO => ro | CO => co end)
  end end end end end end end.
(** 64-bit arithmetic: mem_controller.cpp:300 (uint64_t translated_addr). *)
Definition u64 (x : Z) : Z := x mod 2 ^ 64.
(** mem_controller.cpp:321-329 : one field is appended. *)
Definition put_field (w : fld -> Z) (v : fld -> Z) (ch : Z) (acc : Z) (t : option fld) : Z :=
  match t with
  | None => acc
  | Some f => u64 (u64 (Z.shiftl acc (w f)) + match f with CH => ch | _ => v f end)
  end.
(** mem_controller.cpp:298-332 : AddressMapping. *)
Definition translate (c : memcfg) (addr channel_id : Z) : option Z :=
  match split_addr c addr with
  | None => None
  | Some (bl, v) =>
    let t := fold_left (put_field (cwidth c) v channel_id) (cfields c) 0 in
    Some (u64 (u64 (Z.shiftl t (cbl c)) + bl))
  end.
(** mem_controller.cpp:335-344 : the bits below the channel. *)
Fixpoint skip_bits (w : fld -> Z) (back : list (option fld)) (n : Z) : Z :=
  match back with
  | [] => n
  | Some CH :: _ => n
  | Some f :: r => skip_bits w r (n + w f)
  | None :: r => skip_bits w r n
  end.
(** mem_controller.cpp:334-348 : ChannelFromAddr.  A shift by 64 or more is undefined. *)
Definition channel_of_addr (c : memcfg) (addr : Z) : option Z :=
  let s := skip_bits (cwidth c) (rev (cfields c)) (cbl c) in
  match int_mask (cwidth c CH) with
  | Some k => if s <? 64 then Some (Z.land (Z.shiftr addr s) k) else None
  | None => None
  end.
