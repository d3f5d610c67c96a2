(** The knob file parser and the knob tables: rad-sim/sim/radsim_config.cpp. *)
From Coq Require Import ZArith Bool List String.
Import ListNotations.
Local Open Scope string_scope.
Local Open Scope list_scope.

(** The six tables of each scope, rad-sim/sim/radsim_config.hpp:15-28. *)
Inductive kkind := KInt | KDbl | KStr | KInts | KDbls | KStrs.
(** The values of these tables, rad-sim/sim/radsim_config.hpp:15-28. *)
Inductive kval (D : Type) :=
| VInt (x : Z) | VDbl (x : D) | VStr (x : string) | VInts (x : list Z) | VDbls (x : list D) | VStrs (x : list string).
Arguments VInt {D}. Arguments VDbl {D}. Arguments VStr {D}. Arguments VInts {D}. Arguments VDbls {D}. Arguments VStrs {D}.

(** A hash table is a function; a vector of hash tables has [k_rads] entries (ResizeAll,
    rad-sim/sim/radsim_config.cpp:11-18). *)
Record knobs (D : Type) := {
  k_rads : nat;
  k_shared : kkind -> string -> option (kval D);
  k_per : nat -> kkind -> string -> option (kval D) }.
Arguments k_rads {D}. Arguments k_shared {D}. Arguments k_per {D}.

(** Equality of table names, rad-sim/sim/radsim_config.hpp:15-28. *)
Definition kkind_eqb (a b : kkind) : bool :=
  match a, b with
  | KInt, KInt | KDbl, KDbl | KStr, KStr | KInts, KInts | KDbls, KDbls | KStrs, KStrs => true
  | _, _ => false
  end.

(** rad-sim/sim/radsim_config.cpp:21-53 : the Add...Shared functions. *)
Definition add_shared {D} (k : kkind) (key : string) (v : kval D) (s : knobs D) : knobs D :=
  {| k_rads := k_rads s;
     k_shared := fun k' key' => if kkind_eqb k' k && String.eqb key' key then Some v else k_shared s k' key';
     k_per := k_per s |}.

(** rad-sim/sim/radsim_config.cpp:55-86 : the Add...PerRad functions; a device that does not exist
    is an index out of range (undefined). *)
Definition add_per {D} (k : kkind) (key : string) (v : kval D) (rad : Z) (s : knobs D) : option (knobs D) :=
  if (rad <? 0)%Z || (Z.of_nat (k_rads s) <=? rad)%Z then None
  else Some {| k_rads := k_rads s; k_shared := k_shared s;
               k_per := fun r k' key' => if Nat.eqb r (Z.to_nat rad) && kkind_eqb k' k && String.eqb key' key then Some v else k_per s r k' key' |}.

(** The chain of comparisons of rad-sim/sim/radsim_config.cpp:360-458. *)
Inductive kclass := CSharedStr | CRadStr | CSharedInt | CRadInt | CRadInts | CSharedDbl | CRadDbls | CTraces | CRadStrs | CSkip.
(** A chain of [||], rad-sim/sim/radsim_config.cpp:360-458. *)
Definition one_of (p : string) (l : list string) : bool := existsb (String.eqb p) l.
(** rad-sim/sim/radsim_config.cpp:360-458. *)
Definition classify (p : string) : option kclass :=
  if one_of p ["radsim_root_dir"; "cluster_topology"] then Some CSharedStr
  else if one_of p ["radsim_user_design_root_dir"; "design_name"] then Some CRadStr
  else if one_of p ["telemetry_log_verbosity"; "num_rads"; "inter_rad_latency_cycles"; "inter_rad_fifo_num_slots"; "inter_rad_bw_accept_cycles"; "inter_rad_bw_total_cycles"] then Some CSharedInt
  else if one_of p ["noc_num_nocs"; "dram_num_controllers"] then Some CRadInt
  else if one_of p ["noc_payload_width"; "noc_vcs"; "noc_num_nodes"; "noc_adapters_fifo_size"; "noc_adapters_obuff_size"; "dram_queue_sizes"] then Some CRadInts
  else if one_of p ["sim_driver_period"] then Some CSharedDbl
  else if one_of p ["noc_clk_period"; "noc_adapters_clk_period"; "design_clk_periods"; "dram_clk_periods"] then Some CRadDbls
  else if one_of p ["telemetry_traces"] then Some CTraces
  else if one_of p ["design_noc_placement"; "noc_adapters_in_arbiter"; "noc_adapters_out_arbiter"; "noc_adapters_vc_mapping"; "dram_config_files"] then Some CRadStrs
  else if one_of p ["cluster_configs"] then Some CSkip
  else None.

(** All elements converted, or the conversion throws. rad-sim/sim/radsim_config.cpp:395-440. *)
Fixpoint conv {A} (f : string -> option A) (l : list string) : option (list A) :=
  match l with
  | [] => Some []
  | w :: r => match f w, conv f r with Some x, Some y => Some (x :: y) | _, _ => None end
  end.

(** rad-sim/sim/radsim_config.cpp:343-463 : one line, given as its words; a word that is not there
    reads as the empty string.  [stoi] and [stod] stand for the library functions, [None] for an
    exception. *)
Definition parse_line {D} (stoi : string -> option Z) (stod : string -> option D) (line : list string) (s : knobs D) : option (knobs D) :=
  let p := hd "" line in
  let w1 := hd "" (tl line) in
  let w2 := hd "" (tl (tl line)) in
  let rest := tl (tl line) in
  let with_rad f := match stoi w1 with Some r => f r | None => None end in
  match classify p with
  | None => None
  | Some CSharedStr => Some (add_shared KStr p (VStr w1) s)
  | Some CRadStr => with_rad (fun r => add_per KStr p (VStr w2) r s)
  | Some CSharedInt => match stoi w1 with Some v => Some (add_shared KInt p (VInt v) s) | None => None end
  | Some CRadInt => with_rad (fun r => match stoi w2 with Some v => add_per KInt p (VInt v) r s | None => None end)
  | Some CRadInts => with_rad (fun r => match conv stoi rest with Some v => add_per KInts p (VInts v) r s | None => None end)
  | Some CSharedDbl => match stod w1 with Some v => Some (add_shared KDbl p (VDbl v) s) | None => None end
  | Some CRadDbls => with_rad (fun r => match conv stod rest with Some v => add_per KDbls p (VDbls v) r s | None => None end)
  | Some CTraces =>
      Some (add_shared KInt "telemetry_num_traces" (VInt (Z.of_nat (List.length (tl line)))) (add_shared KStrs p (VStrs (tl line)) s))
  | Some CRadStrs => with_rad (fun r => add_per KStrs p (VStrs rest) r s)
  | Some CSkip => Some s
  end.

(** rad-sim/sim/radsim_config.cpp:349 : the loop over lines. *)
Fixpoint parse_file {D} (stoi : string -> option Z) (stod : string -> option D) (f : list (list string)) (s : knobs D) : option (knobs D) :=
  match f with
  | [] => Some s
  | l :: r => match parse_line stoi stod l s with Some s1 => parse_file stoi stod r s1 | None => None end
  end.

(** rad-sim/sim/main.cpp:21 and rad-sim/sim/radsim_config.cpp:11-18. *)
Definition knobs0 (D : Type) (n : nat) : knobs D := {| k_rads := n; k_shared := fun _ _ => None; k_per := fun _ _ _ => None |}.

(** rad-sim/sim/radsim_config.cpp:88-166 and 168-270 : the Get functions; [None] is exit(1), or an
    index out of range for a device that does not exist. *)
Definition get_shared {D} (s : knobs D) (k : kkind) (key : string) : option (kval D) := k_shared s k key.
(** rad-sim/sim/radsim_config.cpp:168-270. *)
Definition get_per {D} (s : knobs D) (k : kkind) (key : string) (r : nat) : option (kval D) :=
  if Nat.ltb r (k_rads s) then k_per s r k key else None.
