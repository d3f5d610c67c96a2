(** Which lines of a knob file concern a knob. *)
From Coq Require Import ZArith Bool List String.
Import ListNotations.
Local Open Scope string_scope.

(** Lines that name the knob [key] and device [r]. *)
Definition names_rad (stoi : string -> option Z) (key : string) (r : nat) (line : list string) : bool :=
  match line with
  | p :: ws => String.eqb p key && match stoi (hd "" ws) with Some z => (z =? Z.of_nat r)%Z | None => false end
  | _ => false
  end.

(** Lines that name the shared knob [key]; the number of traces comes with the traces. *)
Definition names_shared (key : string) (line : list string) : bool :=
  match line with
  | p :: _ => String.eqb p key || (String.eqb p "telemetry_traces" && String.eqb key "telemetry_num_traces")
  | [] => false
  end.
