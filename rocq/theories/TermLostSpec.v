(** What the property of lost credits speaks about. *)
From Coq Require Import ZArith Arith Bool List.
From Verif Require Import Fupd BufferModel RouteModel ChannelModel IqRouterModel NetModel TermModel AxisFormatModel AxisSlaveModel AxisMasterModel FlitCode SysModel.
Import ListNotations.
Open Scope nat_scope.

(** How often node [n] freed a slot of channel [v] when it had freed another one since the last cycle of the network already; [full] says whether it had at the start. *)
Fixpoint lost (n v : nat) (full : bool) (es : list tev) : nat :=
  match es with
  | [] => 0
  | VTick _ :: r => lost n v false r
  | VFree m u :: r => if Nat.eqb m n then (if full && Nat.eqb u v then 1 else 0) + lost n v true r else lost n v full r
  | _ :: r => lost n v full r
  end.

(** What the adapters of a system and the cycles do at the terminals of the network, in order. *)
Section Evs.
Context {P : bpolicy} (w : netcfg) (rf : nat -> nat -> flit -> list oelem) (cs : Z -> scfg) (ms : nat -> mcfg).
Definition act_evs (g : ginst) (a : act) (s : sys P) (o : list sobs) : list tev :=
  match a with
  | AS n TInj => [VInj n (g_now g n) (option_map (fun f => net_flit (to_bflit (cs (Z.of_nat n)) f)) (waiting (y_sl s n)))]
  | AS _ _ => []
  | AM n TEject => [VRead n]
  | AM n _ => flat_map (fun x => match x with YM _ (Free v) => [VFree n v] | _ => [] end) o
  | ATick => [VTick (g_clk g)]
  end.
Fixpoint acts_evs (g : ginst) (rdy : nat -> option nat) (l : list act) (s : sys P) : list tev :=
  match l with
  | [] => []
  | a :: r => match do_act w rf cs ms g rdy a s with Some (s1, o1) => act_evs g a s o1 ++ acts_evs g rdy r s1 | None => [] end
  end.
Definition inst_evs (g : ginst) (s : sys P) : list tev := acts_evs g (fun n => granted cs g n (y_sl s n)) (g_acts g) (mkY (y_t s) (fun n => settled cs g n (y_sl s n)) (y_ma s)).
Fixpoint sys_evs (gs : list ginst) (s : sys P) : list tev :=
  match gs with
  | [] => []
  | g :: r => inst_evs g s ++ match sys_step w rf cs ms g s with Some (s1, _) => sys_evs r s1 | None => [] end
  end.
End Evs.
