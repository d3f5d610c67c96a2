(** C22 : configuration knobs. *)
From Coq Require Import ZArith Bool List String Ascii.
From Verif Require Import KnobsModel KnobsSpec KnobsProofs.
Import ListNotations.
Local Open Scope string_scope.
Local Open Scope list_scope.

(** C22. A knob of a device reads the same when all lines about other devices and other knobs are
    left out of the file. *)
Theorem C22_isolated : forall (D : Type) stoi stod n f (s : knobs D) k key r, parse_file stoi stod f (knobs0 D n) = Some s ->
  exists s', parse_file stoi stod (filter (names_rad stoi key r) f) (knobs0 D n) = Some s' /\ get_per s' k key r = get_per s k key r.
Proof. intros D stoi stod. exact (isolated stoi stod). Qed.
Print Assumptions C22_isolated.

(** C22. The same for knobs shared by all devices. *)
Theorem C22_shared_isolated : forall (D : Type) stoi stod n f (s : knobs D) k key, parse_file stoi stod f (knobs0 D n) = Some s ->
  exists s', parse_file stoi stod (filter (names_shared key) f) (knobs0 D n) = Some s' /\ get_shared s' k key = get_shared s k key.
Proof. intros D stoi stod. exact (isolated_shared stoi stod). Qed.
Print Assumptions C22_shared_isolated.

(** C22. The last line about a knob decides: after it the getter of the right type returns the
    value on that line. *)
Theorem C22_last_write : forall (D : Type) stoi (stod : string -> option D) n f s p ws,
  parse_file stoi stod (f ++ [p :: ws]) (knobs0 D n) = Some s ->
  (forall c, classify p = Some c -> match c with
    | CSharedStr => get_shared s KStr p = Some (VStr (hd "" ws))
    | CSharedInt => exists v, stoi (hd "" ws) = Some v /\ get_shared s KInt p = Some (VInt v)
    | CSharedDbl => exists v, stod (hd "" ws) = Some v /\ get_shared s KDbl p = Some (VDbl v)
    | CTraces => get_shared s KStrs p = Some (VStrs ws) /\ get_shared s KInt "telemetry_num_traces" = Some (VInt (Z.of_nat (List.length ws)))
    | CSkip => True
    | _ => exists r, stoi (hd "" ws) = Some (Z.of_nat r) /\ (r < n)%nat /\
        match c with
        | CRadStr => get_per s KStr p r = Some (VStr (hd "" (tl ws)))
        | CRadInt => exists v, stoi (hd "" (tl ws)) = Some v /\ get_per s KInt p r = Some (VInt v)
        | CRadInts => exists v, conv stoi (tl ws) = Some v /\ get_per s KInts p r = Some (VInts v)
        | CRadDbls => exists v, conv stod (tl ws) = Some v /\ get_per s KDbls p r = Some (VDbls v)
        | _ => get_per s KStrs p r = Some (VStrs (tl ws))
        end
    end).
Proof. intros D stoi stod. exact (last_write stoi stod). Qed.
Print Assumptions C22_last_write.

(** Decimal digits, for the examples. *)
Fixpoint digits (s : string) (acc : Z) : option Z :=
  match s with
  | EmptyString => Some acc
  | String c r => let v := (Z.of_nat (nat_of_ascii c) - 48)%Z in if (0 <=? v)%Z && (v <=? 9)%Z then digits r (acc * 10 + v)%Z else None
  end.
Definition ex_stoi (s : string) : option Z := match s with EmptyString => None | _ => digits s 0 end.
Definition ex_file : list (list string) :=
  [["num_rads"; "2"]; ["noc_num_nocs"; "0"; "1"]; ["noc_num_nodes"; "0"; "16"]; ["noc_num_nodes"; "1"; "25"; "9"];
   ["telemetry_traces"; "a"; "b"]; ["sim_driver_period"; "5"]; ["noc_num_nodes"; "0"; "36"]; ["design_name"; "1"; "mult"]].

Example C22_isolated_ex : exists s, parse_file ex_stoi ex_stoi ex_file (knobs0 Z 2) = Some s /\
  get_per s KInts "noc_num_nodes" 0 = Some (VInts [36%Z]) /\ get_per s KInts "noc_num_nodes" 1 = Some (VInts [25%Z; 9%Z]) /\
  filter (names_rad ex_stoi "noc_num_nodes" 0) ex_file = [["noc_num_nodes"; "0"; "16"]; ["noc_num_nodes"; "0"; "36"]].
Proof. eexists. split; [reflexivity|]. vm_compute. auto. Qed.

Example C22_shared_isolated_ex : exists s, parse_file ex_stoi ex_stoi ex_file (knobs0 Z 2) = Some s /\
  get_shared s KInt "telemetry_num_traces" = Some (VInt 2%Z) /\ filter (names_shared "telemetry_num_traces") ex_file = [["telemetry_traces"; "a"; "b"]].
Proof. eexists. split; [reflexivity|]. vm_compute. auto. Qed.

Example C22_last_write_ex : classify "noc_num_nodes" = Some CRadInts /\
  exists s, parse_file ex_stoi ex_stoi (ex_file ++ [["noc_num_nodes"; "1"; "7"]]) (knobs0 Z 2) = Some s /\ get_per s KInts "noc_num_nodes" 1 = Some (VInts [7%Z]).
Proof. split; [reflexivity|]. eexists. split; reflexivity. Qed.
