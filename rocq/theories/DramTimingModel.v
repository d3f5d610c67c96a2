(** The tables of delays of the DRAM simulator, from its timing parameters. *)
From Coq Require Import ZArith Bool List.
From Verif Require Import DramBankModel.
Import ListNotations.
Local Open Scope Z_scope.

(** rad-sim/sim/dram/DRAMsim3/src/configuration.cc:291-338 : the parameters used by the tables; sums are taken to be in the range of [int].
    [p_split_rcd] is IsGDDR() || IsHBM(), [p_ppd] is IsGDDR() || protocol == LPDDR4. *)
Record params := {
  p_burst : Z; p_ccd_l : Z; p_ccd_s : Z; p_rtrs : Z; p_AL : Z; p_CL : Z; p_CWL : Z; p_rtp : Z; p_rp : Z; p_wtr_l : Z; p_wtr_s : Z;
  p_wr : Z; p_tppd : Z; p_rrd_l : Z; p_rrd_s : Z; p_ras : Z; p_rcd : Z; p_rcdrd : Z; p_rcdwr : Z; p_refi : Z; p_rfc : Z; p_rfcb : Z;
  p_ckesr : Z; p_xs : Z; p_bgs : Z; p_split_rcd : bool; p_ppd : bool }.

(** configuration.cc:335-338 : read_delay and write_delay. *)
Definition read_delay (p : params) : Z := p_AL p + p_CL p + p_burst p.
(** configuration.cc:335-338 : write_delay. *)
Definition write_delay (p : params) : Z := p_AL p + p_CWL p + p_burst p.

(** rad-sim/sim/dram/DRAMsim3/src/timing.cc:7-264 : the constructor. *)
Definition make_timing (p : params) : timing :=
  let one := p_bgs p =? 1 in
  let read_to_read_l := Z.max (p_burst p) (if one then p_ccd_s p else p_ccd_l p) in
  let read_to_read_s := Z.max (p_burst p) (p_ccd_s p) in
  let read_to_read_o := p_burst p + p_rtrs p in
  let read_to_write := p_AL p + p_CL p + p_burst p - (p_AL p + p_CWL p) + p_rtrs p in
  let read_to_write_o := read_delay p + p_burst p + p_rtrs p - write_delay p in
  let read_to_precharge := p_AL p + p_rtp p in
  let readp_to_act := p_AL p + p_burst p + p_rtp p + p_rp p in
  let write_to_read_l := write_delay p + (if one then p_wtr_s p else p_wtr_l p) in
  let write_to_read_s := write_delay p + p_wtr_s p in
  let write_to_read_o := write_delay p + p_burst p + p_rtrs p - read_delay p in
  let write_to_write_l := Z.max (p_burst p) (if one then p_ccd_s p else p_ccd_l p) in
  let write_to_write_s := Z.max (p_burst p) (p_ccd_s p) in
  let write_to_write_o := p_burst p in
  let write_to_precharge := p_AL p + p_CWL p + p_burst p + p_wr p in
  let precharge_to_activate := p_rp p in
  let read_to_activate := read_to_precharge + precharge_to_activate in
  let write_to_activate := write_to_precharge + precharge_to_activate in
  let activate_to_activate := p_ras p + p_rp p in
  let activate_to_activate_l := if one then p_rrd_s p else p_rrd_l p in
  let activate_to_read := if p_split_rcd p then p_rcdrd p else p_rcd p - p_AL p in
  let activate_to_write := if p_split_rcd p then p_rcdwr p else p_rcd p - p_AL p in
  let activate_to_refresh := p_ras p + p_rp p in
  let rds l w := [(READ, l); (WRITE, w); (READ_PRE, l); (WRITE_PRE, w)] in
  {| t_same_bank := fun t => match t with
       | READ => rds read_to_read_l read_to_write ++ [(PRE, read_to_precharge)]
       | WRITE => rds write_to_read_l write_to_write_l ++ [(PRE, write_to_precharge)]
       | READ_PRE => [(ACT, readp_to_act); (REF, read_to_activate); (REF_BANK, read_to_activate); (SREF_ENTER, read_to_activate)]
       | WRITE_PRE => [(ACT, write_to_activate); (REF, write_to_activate); (REF_BANK, write_to_activate); (SREF_ENTER, write_to_activate)]
       | ACT => (ACT, activate_to_activate) :: rds activate_to_read activate_to_write ++ [(PRE, p_ras p)]
       | PRE => [(ACT, precharge_to_activate); (REF, precharge_to_activate); (REF_BANK, precharge_to_activate); (SREF_ENTER, precharge_to_activate)]
       | _ => []
       end;
     t_same_group := fun t => match t with
       | READ | READ_PRE => rds read_to_read_l read_to_write
       | WRITE | WRITE_PRE => rds write_to_read_l write_to_write_l
       | ACT => [(ACT, activate_to_activate_l); (REF_BANK, activate_to_refresh)]
       | PRE => if p_ppd p then [(PRE, p_tppd p)] else []
       | REF_BANK => [(ACT, p_rfc p); (REF_BANK, p_refi p)]
       | _ => []
       end;
     t_same_rank_bg := fun t => match t with
       | READ | READ_PRE => rds read_to_read_s read_to_write
       | WRITE | WRITE_PRE => rds write_to_read_s write_to_write_s
       | ACT => [(ACT, p_rrd_s p); (REF_BANK, activate_to_refresh)]
       | PRE => if p_ppd p then [(PRE, p_tppd p)] else []
       | REF_BANK => [(ACT, p_rfc p); (REF_BANK, p_refi p)]
       | _ => []
       end;
     t_ranks := fun t => match t with
       | READ | READ_PRE => rds read_to_read_o read_to_write_o
       | WRITE | WRITE_PRE => rds write_to_read_o write_to_write_o
       | _ => []
       end;
     t_rank := fun t => match t with
       | REF_BANK => [(ACT, p_rfcb p); (REF, p_rfcb p); (REF_BANK, p_rfcb p); (SREF_ENTER, p_rfcb p)]
       | REF => [(ACT, p_rfc p); (REF, p_rfc p); (SREF_ENTER, p_rfc p)]
       | SREF_ENTER => [(SREF_EXIT, p_ckesr p)]
       | SREF_EXIT => [(ACT, p_xs p); (REF, p_xs p); (REF_BANK, p_xs p); (SREF_ENTER, p_xs p)]
       | _ => []
       end |}.
