(** What the property of memory addresses speaks about. *)
From Coq Require Import ZArith Bool List String.
From Verif Require Import MemAddrModel.
Import ListNotations.
Local Open Scope Z_scope.

(** The sizes are positive [int]s and the bus is a number of bytes wide. *)
Record sizes_ok (c : memcfg) : Prop := {
  so_ch : 0 < mc_channels c < 2 ^ 31; so_ra : 0 < mc_ranks c < 2 ^ 31; so_bg : 0 < mc_bankgroups c < 2 ^ 31;
  so_ba : 0 < mc_banks c < 2 ^ 31; so_ro : 0 < mc_rows c < 2 ^ 31; so_co : 0 < mc_columns c < 2 ^ 31;
  so_bl : 0 < mc_BL c < 2 ^ 31; so_bus : 0 < mc_bus c; so_byte : (8 | mc_bus c);
  so_burst : mc_BL c * mc_bus c / 8 < 2 ^ 31 }.

(** The bits of a burst, and of each field. *)
Definition burst_bits (c : memcfg) : Z := Z.log2 (mc_BL c * mc_bus c / 8).
Definition bits (c : memcfg) (f : fld) : Z :=
  match f with
  | CH => Z.log2 (mc_channels c) | RA => Z.log2 (mc_ranks c) | BG => Z.log2 (mc_bankgroups c) | BA => Z.log2 (mc_banks c)
  | RO => Z.log2 (mc_rows c) | CO => Z.log2 (mc_columns c) - Z.log2 (mc_BL c)
  end.
(** How many a field can name. *)
Definition field_count (c : memcfg) (f : fld) : Z :=
  match f with
  | CH => mc_channels c | RA => mc_ranks c | BG => mc_bankgroups c | BA => mc_banks c
  | RO => mc_rows c | CO => mc_columns c
  end.
(** The bits of an address within a channel, and of an address of the whole memory. *)
Definition module_bits (c : memcfg) : Z := burst_bits c + bits c CO + bits c BA + bits c RO + bits c BG + bits c RA.
Definition total_bits (c : memcfg) : Z := module_bits c + bits c CH.

(** A module address, from the low end: burst, column, bank, row, bank group, rank. *)
Definition module_low (c : memcfg) (f : fld) : Z :=
  match f with
  | CO => burst_bits c
  | BA => burst_bits c + bits c CO
  | RO => burst_bits c + bits c CO + bits c BA
  | BG => burst_bits c + bits c CO + bits c BA + bits c RO
  | RA => burst_bits c + bits c CO + bits c BA + bits c RO + bits c BG
  | CH => module_bits c
  end.
Definition module_field (c : memcfg) (addr : Z) (f : fld) : Z := (addr / 2 ^ module_low c f) mod 2 ^ bits c f.
