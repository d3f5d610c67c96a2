(** The DRAM simulator as the memory controller uses it. *)
From Coq Require Import ZArith Bool List.
From Verif Require Import DramBankModel DramCtrlModel MemCtrlModel.
Import ListNotations.
Local Open Scope Z_scope.

(** rad-sim/sim/dram/DRAMsim3/src/memory_system.cc:25, 57-64 and dram_system.cc:119-161 : WillAcceptTransaction, AddTransaction and ClockTick of one
    channel; ClockTick calls back with the address of each transaction that is done. *)
Definition sim_dram (c : kcfg) : dram :=
  {| dr := ctrl; d_will := fun s _ w => will_accept c s w; d_add := dram_add c;
     d_tick := fun s => match dram_tick c s with
                        | None => None
                        | Some (s', l, _) => Some (s', map (fun t => (t_addr t, t_write t)) l)
                        end |}.
