(** The controller of a DRAM channel: command queues, refresh and transactions.
    Files are in rad-sim/sim/dram/DRAMsim3/src. *)
From Coq Require Import ZArith Bool List.
From Verif Require Import DramBankModel.
Import ListNotations.
Local Open Scope Z_scope.

(** configuration.h:27-32 (RefreshPolicy). *)
Inductive rpolicy := RANK_SIMULTANEOUS | RANK_STAGGERED | BANK_STAGGERED.
(** configuration.cc:215-247, 88-114, 291-338 : the parameters of the controller; [k_decode] is AddressMapping (configuration.cc:34-43). *)
Record kcfg := {
  k_g : geom; k_decode : Z -> addr; k_per_bank : bool; k_cmdq : Z; k_transq : Z; k_unified : bool; k_close_page : bool;
  k_policy : rpolicy; k_refi : Z; k_refib : Z; k_selfref : bool; k_sref_threshold : Z; k_dual : bool; k_read_delay : Z }.

(** common.h:107-124 : Transaction. *)
Record trans := { t_addr : Z; t_added : Z; t_complete : Z; t_write : bool }.

(** command_queue.h:46-58, refresh.h:18-24, controller.h:48-86 : the state of the controller.  The clocks of controller, command queue
    and refresh start at 0 and advance together.  Statistics are left out. *)
Record ctrl := {
  s_clk : Z; s_ch : chan;
  s_q : Z -> list cmd; s_qidx : Z; s_inref : bool; s_refidx : list Z; s_rank_empty : Z -> bool;
  s_nrank : Z; s_nbg : Z; s_nbank : Z; s_idle : Z -> Z;
  s_uq : list trans; s_rq : list trans; s_wq : list trans; s_prd : list trans; s_pwr : list trans; s_ret : list trans; s_drain : Z }.
(** controller.cc:12-43, command_queue.cc:5-34, refresh.cc:4-19 : the constructors. *)
Definition ctrl0 : ctrl :=
  {| s_clk := 0; s_ch := chan0; s_q := fun _ => []; s_qidx := 0; s_inref := false; s_refidx := []; s_rank_empty := fun _ => true;
     s_nrank := 0; s_nbg := 0; s_nbank := 0; s_idle := fun _ => 0;
     s_uq := []; s_rq := []; s_wq := []; s_prd := []; s_pwr := []; s_ret := []; s_drain := 0 |}.

(** Assignments to members (controller.cc, command_queue.cc): the channel state, here channel_state_ (controller.h:53). *)
Definition with_ch (s : ctrl) (x : chan) : ctrl :=
  {| s_clk := s_clk s; s_ch := x; s_q := s_q s; s_qidx := s_qidx s; s_inref := s_inref s; s_refidx := s_refidx s; s_rank_empty := s_rank_empty s;
     s_nrank := s_nrank s; s_nbg := s_nbg s; s_nbank := s_nbank s; s_idle := s_idle s;
     s_uq := s_uq s; s_rq := s_rq s; s_wq := s_wq s; s_prd := s_prd s; s_pwr := s_pwr s; s_ret := s_ret s; s_drain := s_drain s |}.
(** command_queue.h:46-58 : the command queues and what goes with them. *)
Definition with_q (s : ctrl) (q : Z -> list cmd) (idx : Z) (inref : bool) (ri : list Z) (re : Z -> bool) : ctrl :=
  {| s_clk := s_clk s; s_ch := s_ch s; s_q := q; s_qidx := idx; s_inref := inref; s_refidx := ri; s_rank_empty := re;
     s_nrank := s_nrank s; s_nbg := s_nbg s; s_nbank := s_nbank s; s_idle := s_idle s;
     s_uq := s_uq s; s_rq := s_rq s; s_wq := s_wq s; s_prd := s_prd s; s_pwr := s_pwr s; s_ret := s_ret s; s_drain := s_drain s |}.
(** refresh.h:22 : next_rank_, next_bg_, next_bank_. *)
Definition with_next (s : ctrl) (r g b : Z) : ctrl :=
  {| s_clk := s_clk s; s_ch := s_ch s; s_q := s_q s; s_qidx := s_qidx s; s_inref := s_inref s; s_refidx := s_refidx s; s_rank_empty := s_rank_empty s;
     s_nrank := r; s_nbg := g; s_nbank := b; s_idle := s_idle s;
     s_uq := s_uq s; s_rq := s_rq s; s_wq := s_wq s; s_prd := s_prd s; s_pwr := s_pwr s; s_ret := s_ret s; s_drain := s_drain s |}.
(** controller.h:62-72 : the queues of transactions. *)
Definition with_trans (s : ctrl) (uq rq wq prd pwr ret : list trans) (dr : Z) : ctrl :=
  {| s_clk := s_clk s; s_ch := s_ch s; s_q := s_q s; s_qidx := s_qidx s; s_inref := s_inref s; s_refidx := s_refidx s; s_rank_empty := s_rank_empty s;
     s_nrank := s_nrank s; s_nbg := s_nbg s; s_nbank := s_nbank s; s_idle := s_idle s;
     s_uq := uq; s_rq := rq; s_wq := wq; s_prd := prd; s_pwr := pwr; s_ret := ret; s_drain := dr |}.
(** controller.cc:146, channel_state.h:41 : clk_ and rank_idle_cycles. *)
Definition with_clk (s : ctrl) (clk : Z) (idle : Z -> Z) : ctrl :=
  {| s_clk := clk; s_ch := s_ch s; s_q := s_q s; s_qidx := s_qidx s; s_inref := s_inref s; s_refidx := s_refidx s; s_rank_empty := s_rank_empty s;
     s_nrank := s_nrank s; s_nbg := s_nbg s; s_nbank := s_nbank s; s_idle := idle;
     s_uq := s_uq s; s_rq := s_rq s; s_wq := s_wq s; s_prd := s_prd s; s_pwr := s_pwr s; s_ret := s_ret s; s_drain := s_drain s |}.

(** ** Refresh *)
(** refresh.cc:12-18 : refresh_interval_.  Dividing by no ranks is undefined. *)
Definition refresh_interval (c : kcfg) : option Z :=
  match k_policy c with
  | RANK_SIMULTANEOUS => Some (k_refi c)
  | BANK_STAGGERED => Some (k_refib c)
  | RANK_STAGGERED => if g_ranks (k_g c) =? 0 then None else Some (Z.quot (k_refi c) (g_ranks (k_g c)))
  end.
(** refresh.cc:62-82 : IterateNext. *)
Definition iterate_next (c : kcfg) (s : ctrl) : ctrl :=
  let g := k_g c in
  match k_policy c with
  | RANK_STAGGERED => with_next s ((s_nrank s + 1) mod g_ranks g) (s_nbg s) (s_nbank s)
  | BANK_STAGGERED =>
    let bg := (s_nbg s + 1) mod g_bgs g in
    if bg =? 0 then
      let ba := (s_nbank s + 1) mod g_bpg g in
      if ba =? 0 then with_next s ((s_nrank s + 1) mod g_ranks g) bg ba else with_next s (s_nrank s) bg ba
    else with_next s (s_nrank s) bg (s_nbank s)
  | RANK_SIMULTANEOUS => s
  end.
(** channel_state.cc:47,64 : refresh_q_.emplace_back. *)
Definition with_refq (x : chan) (q : list cmd) : chan :=
  {| ch_bank := ch_bank x; ch_sref := ch_sref x; ch_refq := q; ch_faw := ch_faw x; ch_32aw := ch_32aw x |}.
(** refresh.cc:29-60 : InsertRefresh. *)
Definition insert_refresh (c : kcfg) (s : ctrl) : ctrl :=
  match k_policy c with
  | RANK_SIMULTANEOUS =>
    match find (fun i => negb (ch_sref (s_ch s) i)) (zseq (g_ranks (k_g c))) with
    | Some i => with_ch s (with_refq (s_ch s) (rank_need_refresh i true (ch_refq (s_ch s))))
    | None => s
    end
  | RANK_STAGGERED =>
    iterate_next c (if ch_sref (s_ch s) (s_nrank s) then s
                    else with_ch s (with_refq (s_ch s) (rank_need_refresh (s_nrank s) true (ch_refq (s_ch s)))))
  | BANK_STAGGERED =>
    iterate_next c (if ch_sref (s_ch s) (s_nrank s) then s
                    else with_ch s (with_refq (s_ch s) (bank_need_refresh (s_nrank s) (s_nbg s) (s_nbank s) true (ch_refq (s_ch s)))))
  end.
(** refresh.cc:21-27 : ClockTick; the interval is converted to [uint64_t], and 0 is undefined. *)
Definition refresh_tick (c : kcfg) (s : ctrl) : option ctrl :=
  match refresh_interval c with
  | None => None
  | Some i => if i =? 0 then None
              else Some (if (s_clk s mod u64 i =? 0) && (0 <? s_clk s) then insert_refresh c s else s)
  end.

(** ** Command queues *)
(** command_queue.cc:16-21 : num_queues_. *)
Definition num_queues (c : kcfg) : Z := if k_per_bank c then g_banks (k_g c) * g_ranks (k_g c) else g_ranks (k_g c).
(** command_queue.cc:164-171 : GetQueueIndex. *)
Definition queue_index (c : kcfg) (a : addr) : Z :=
  if k_per_bank c then a_rank a * g_banks (k_g c) + a_bg a * g_bpg (k_g c) + a_bank a else a_rank a.
(** command_queue.cc:82-84, 93-96 : the same bank. *)
Definition same_bank (a b : addr) : bool := (a_rank a =? a_rank b) && (a_bg a =? a_bg b) && (a_bank a =? a_bank b).
(** command_queue.cc:77-110 : ArbitratePrecharge; [prev] are the commands before [c], [rest] those behind it. *)
Definition arbitrate_precharge (x : chan) (prev : list cmd) (c : cmd) (rest : list cmd) : bool :=
  let a := c_addr c in
  if existsb (fun p => same_bank (c_addr p) a) prev then false
  else
    let b := ch_bank x (a_rank a) (a_bg a) (a_bank a) in
    let hits := existsb (fun p => (a_row (c_addr p) =? b_row b) && same_bank (c_addr p) a) (c :: rest) in
    negb hits || (4 <=? b_hits b).
(** command_queue.cc:218-230 : HasRWDependency. *)
Definition rw_dependency (prev : list cmd) (c : cmd) : bool :=
  existsb (fun p => is_read (c_type p) && (a_row (c_addr p) =? a_row (c_addr c)) && (a_col (c_addr p) =? a_col (c_addr c)) &&
                    (a_bank (c_addr p) =? a_bank (c_addr c)) && (a_bg (c_addr p) =? a_bg (c_addr c))) prev.
(** command_queue.cc:178-196 : GetFirstReadyInQueue, from the iterator on. *)
Fixpoint first_ready (g : geom) (x : chan) (clk : Z) (prev rest : list cmd) : option (option cmd) :=
  match rest with
  | [] => Some None
  | c :: r =>
    match chan_ready g x c clk with
    | None => None
    | Some None => first_ready g x clk (prev ++ [c]) r
    | Some (Some rc) =>
      if (match c_type rc with PRE => negb (arbitrate_precharge x prev c r) | _ => is_write (c_type rc) && rw_dependency prev c end)
      then first_ready g x clk (prev ++ [c]) r
      else Some (Some rc)
    end
  end.
(** command_queue.cc:201 : the command to erase. *)
Definition same_cmd (c d : cmd) : bool := (c_hex c =? c_hex d) && ctype_eqb (c_type c) (c_type d).
(** command_queue.cc:198-208 : EraseRWCommand; [None]: exit. *)
Definition erase_rw (c : kcfg) (q : Z -> list cmd) (x : cmd) : option (Z -> list cmd) :=
  let i := queue_index c (c_addr x) in
  if existsb (same_cmd x) (q i) then Some (set_z q i (erase_first (same_cmd x) (q i))) else None.
(** command_queue.cc:138-144 : GetNextQueue. *)
Definition next_queue (c : kcfg) (i : Z) : Z := if i + 1 =? num_queues c then 0 else i + 1.
(** command_queue.cc:37-52 : the loop of GetCommandToIssue. *)
Fixpoint command_loop (c : kcfg) (x : chan) (clk : Z) (inref : bool) (ri : list Z) (n : nat) (q : Z -> list cmd) (i : Z) : option ((Z -> list cmd) * Z * option cmd) :=
  match n with
  | O => Some (q, i, None)
  | S n' =>
    let i' := next_queue c i in
    if inref && existsb (Z.eqb i') ri then command_loop c x clk inref ri n' q i'
    else match first_ready (k_g c) x clk [] (q i') with
         | None => None
         | Some None => command_loop c x clk inref ri n' q i'
         | Some (Some y) =>
           if is_rw (c_type y) then match erase_rw c q y with None => None | Some q' => Some (q', i', Some y) end
           else Some (q, i', Some y)
         end
  end.
(** command_queue.cc:36-54 : GetCommandToIssue. *)
Definition get_command (c : kcfg) (s : ctrl) : option (ctrl * option cmd) :=
  match command_loop c (s_ch s) (s_clk s) (s_inref s) (s_refidx s) (Z.to_nat (num_queues c)) (s_q s) (s_qidx s) with
  | None => None
  | Some (q, i, y) => Some (with_q s q i (s_inref s) (s_refidx s) (s_rank_empty s), y)
  end.
(** command_queue.cc:146-162 : GetRefQIndices. *)
Definition ref_indices (c : kcfg) (r : cmd) : list Z :=
  match c_type r with
  | REF => if k_per_bank c then filter (fun i => Z.quot i (g_banks (k_g c)) =? a_rank (c_addr r)) (zseq (num_queues c)) else [a_rank (c_addr r)]
  | _ => [queue_index c (c_addr r)]
  end.
(** command_queue.cc:56-75 : FinishRefresh; the queue of refreshes is not empty. *)
Definition finish_refresh (c : kcfg) (s : ctrl) (ref : cmd) : option (ctrl * option cmd) :=
  let s1 := if s_inref s then s else with_q s (s_q s) (s_qidx s) true (ref_indices c ref ++ s_refidx s) (s_rank_empty s) in
  match chan_ready (k_g c) (s_ch s1) ref (s_clk s1) with
  | None => None
  | Some None => Some (s1, None)
  | Some (Some y) =>
    Some (if is_refresh (c_type y) then with_q s1 (s_q s1) (s_qidx s1) false [] (s_rank_empty s1) else s1, Some y)
  end.
(** command_queue.cc:112-115 : WillAcceptCommand. *)
Definition will_accept_cmd (c : kcfg) (s : ctrl) (a : addr) : bool := Z.of_nat (length (s_q s (queue_index c a))) <? k_cmdq c.
(** command_queue.cc:117-124 : QueueEmpty. *)
Definition queue_empty (c : kcfg) (s : ctrl) : bool := forallb (fun i => match s_q s i with [] => true | _ => false end) (zseq (num_queues c)).
(** command_queue.cc:127-136 : AddCommand. *)
Definition add_command (c : kcfg) (s : ctrl) (y : cmd) : ctrl :=
  let i := queue_index c (c_addr y) in
  if Z.of_nat (length (s_q s i)) <? k_cmdq c
  then with_q s (set_z (s_q s) i (s_q s i ++ [y])) (s_qidx s) (s_inref s) (s_refidx s) (set_z (s_rank_empty s) (a_rank (c_addr y)) false)
  else s.

(** ** The controller *)
(** controller.cc:151-159 : WillAcceptTransaction; the capacity of the queues is what was reserved. *)
Definition will_accept (c : kcfg) (s : ctrl) (w : bool) : bool :=
  Z.of_nat (length (if k_unified c then s_uq s else if w then s_wq s else s_rq s)) <? k_transq c.
(** controller.cc:171 : complete_cycle is set. *)
Definition completes (t : trans) (clk : Z) : trans := {| t_addr := t_addr t; t_added := t_added t; t_complete := clk; t_write := t_write t |}.
(** controller.cc:167, 178, 185, 237, 250 : count and find in a multimap. *)
Definition has_addr (a : Z) (l : list trans) : bool := existsb (fun t => t_addr t =? a) l.
(** controller.cc:161-195 : AddTransaction. *)
Definition add_trans (c : kcfg) (s : ctrl) (a : Z) (w : bool) : ctrl :=
  let t := {| t_addr := a; t_added := s_clk s; t_complete := 0; t_write := w |} in
  let done := completes t (s_clk s + 1) in
  if w then
    if has_addr a (s_pwr s) then with_trans s (s_uq s) (s_rq s) (s_wq s) (s_prd s) (s_pwr s) (s_ret s ++ [done]) (s_drain s)
    else with_trans s (if k_unified c then s_uq s ++ [t] else s_uq s) (s_rq s) (if k_unified c then s_wq s else s_wq s ++ [t])
           (s_prd s) (s_pwr s ++ [t]) (s_ret s ++ [done]) (s_drain s)
  else if has_addr a (s_pwr s) then with_trans s (s_uq s) (s_rq s) (s_wq s) (s_prd s) (s_pwr s) (s_ret s ++ [done]) (s_drain s)
  else if has_addr a (s_prd s) then with_trans s (s_uq s) (s_rq s) (s_wq s) (s_prd s ++ [t]) (s_pwr s) (s_ret s) (s_drain s)
  else with_trans s (if k_unified c then s_uq s ++ [t] else s_uq s) (if k_unified c then s_rq s else s_rq s ++ [t]) (s_wq s)
         (s_prd s ++ [t]) (s_pwr s) (s_ret s) (s_drain s).
(** controller.cc:268-278 : TransToCommand. *)
Definition trans_cmd (c : kcfg) (t : trans) : cmd :=
  {| c_type := if k_close_page c then if t_write t then WRITE_PRE else READ_PRE else if t_write t then WRITE else READ;
     c_addr := k_decode c (t_addr t); c_hex := t_addr t |}.
(** controller.cc:210-226 : the loop of ScheduleTransaction: the transaction found and the queue without it, or [None]. *)
Fixpoint find_trans (c : kcfg) (s : ctrl) (prev rest : list trans) : option (trans * list trans) :=
  match rest with
  | [] => None
  | t :: r => if will_accept_cmd c s (c_addr (trans_cmd c t)) then Some (t, prev ++ r) else find_trans c s (prev ++ [t]) r
  end.
(** controller.cc:199-206 : when to start draining the write buffer. *)
Definition drain_start (c : kcfg) (s : ctrl) : Z :=
  let n := Z.of_nat (length (s_wq s)) in
  if (s_drain s =? 0) && negb (k_unified c) && ((k_transq c <=? n) || ((8 <? n) && queue_empty c s)) then n else s_drain s.
(** controller.cc:197-227 : ScheduleTransaction. *)
Definition schedule (c : kcfg) (s : ctrl) : ctrl :=
  let d := drain_start c s in
  if k_unified c then
    match find_trans c s [] (s_uq s) with
    | None => s
    | Some (t, q) => add_command c (with_trans s q (s_rq s) (s_wq s) (s_prd s) (s_pwr s) (s_ret s) d) (trans_cmd c t)
    end
  else if 0 <? d then
    match find_trans c s [] (s_wq s) with
    | None => with_trans s (s_uq s) (s_rq s) (s_wq s) (s_prd s) (s_pwr s) (s_ret s) d
    | Some (t, q) =>
      if is_write (c_type (trans_cmd c t)) then
        if has_addr (t_addr t) (s_prd s) then with_trans s (s_uq s) (s_rq s) (s_wq s) (s_prd s) (s_pwr s) (s_ret s) 0
        else add_command c (with_trans s (s_uq s) (s_rq s) q (s_prd s) (s_pwr s) (s_ret s) (d - 1)) (trans_cmd c t)
      else add_command c (with_trans s (s_uq s) (s_rq s) q (s_prd s) (s_pwr s) (s_ret s) d) (trans_cmd c t)
    end
  else
    match find_trans c s [] (s_rq s) with
    | None => with_trans s (s_uq s) (s_rq s) (s_wq s) (s_prd s) (s_pwr s) (s_ret s) d
    | Some (t, q) =>
      if is_write (c_type (trans_cmd c t)) then
        if has_addr (t_addr t) (s_prd s) then with_trans s (s_uq s) (s_rq s) (s_wq s) (s_prd s) (s_pwr s) (s_ret s) 0
        else add_command c (with_trans s (s_uq s) q (s_wq s) (s_prd s) (s_pwr s) (s_ret s) (d - 1)) (trans_cmd c t)
      else add_command c (with_trans s (s_uq s) q (s_wq s) (s_prd s) (s_pwr s) (s_ret s) d) (trans_cmd c t)
    end.
(** controller.cc:229-266 : IssueCommand; the reads of one address are taken in the order of arrival; [None]: exit. *)
Definition issue (c : kcfg) (s : ctrl) (y : cmd) : option ctrl :=
  let s1 :=
    if is_read (c_type y) then
      if has_addr (c_hex y) (s_prd s) then
        Some (with_trans s (s_uq s) (s_rq s) (s_wq s) (filter (fun t => negb (t_addr t =? c_hex y)) (s_prd s)) (s_pwr s)
                (s_ret s ++ map (fun t => completes t (u64 (s_clk s + k_read_delay c))) (filter (fun t => t_addr t =? c_hex y) (s_prd s))) (s_drain s))
      else None
    else if is_write (c_type y) then
      if has_addr (c_hex y) (s_pwr s) then
        Some (with_trans s (s_uq s) (s_rq s) (s_wq s) (s_prd s) (erase_first (fun t => t_addr t =? c_hex y) (s_pwr s)) (s_ret s) (s_drain s))
      else None
    else Some s in
  match s1 with
  | None => None
  | Some s1 => match chan_issue (k_g c) y (s_clk s1) (s_ch s1) with None => None | Some x => Some (with_ch s1 x) end
  end.

(** controller.cc:91-106 : the cycles that each rank has been idle. *)
Definition idle_cycles (c : kcfg) (s : ctrl) : Z -> Z :=
  fun i => if in_range (g_ranks (k_g c)) i && negb (ch_sref (s_ch s) i)
           then if all_idle (k_g c) (s_ch s) i then s_idle s i + 1 else 0 else s_idle s i.
(** controller.cc:109-141 : idle ranks enter and leave self-refresh; the result is the state and the command issued. *)
Fixpoint self_refresh (c : kcfg) (s : ctrl) (ranks : list Z) : option (ctrl * list cmd) :=
  match ranks with
  | [] => Some (s, [])
  | i :: r =>
    let ask t := chan_ready (k_g c) (s_ch s) {| c_type := t; c_addr := {| a_rank := i; a_bg := -1; a_bank := -1; a_row := -1; a_col := -1 |}; c_hex := -1 |} (s_clk s) in
    let try t :=
      match ask t with
      | None => None
      | Some None => self_refresh c s r
      | Some (Some y) => match issue c s y with None => None | Some s' => Some (s', [y]) end
      end in
    if ch_sref (s_ch s) i
    then if negb (s_rank_empty s i) then try SREF_EXIT else self_refresh c s r
    else if s_rank_empty s i && (k_sref_threshold c <=? s_idle s i) then try SREF_ENTER else self_refresh c s r
  end.
(** controller.cc:76-89 : issue a command and, with dual commands, perhaps a second. *)
Definition issue_cmds (c : kcfg) (s : ctrl) (y : cmd) : option (ctrl * list cmd) :=
  match issue c s y with
  | None => None
  | Some s1 =>
    if k_dual c then
      match get_command c s1 with
      | None => None
      | Some (s2, None) => Some (s2, [y])
      | Some (s2, Some z) =>
        if negb (Bool.eqb (is_rw (c_type z)) (is_rw (c_type y)))
        then match issue c s2 z with None => None | Some s3 => Some (s3, [y; z]) end
        else Some (s2, [y])
      end
    else Some (s1, [y])
  end.
(** controller.cc:69-74 : the first command of the cycle. *)
Definition pick (c : kcfg) (s : ctrl) : option (ctrl * option cmd) :=
  match ch_refq (s_ch s) with
  | ref :: _ => match finish_refresh c s ref with
                | None => None
                | Some (s1, Some y) => Some (s1, Some y)
                | Some (s1, None) => get_command c s1
                end
  | [] => get_command c s
  end.
(** controller.cc:65-149 : ClockTick; also the commands issued. *)
Definition clock_tick (c : kcfg) (s : ctrl) : option (ctrl * list cmd) :=
  match refresh_tick c s with None => None | Some s0 =>
  match pick c s0 with None => None | Some (s1, y) =>
  match (match y with None => Some (s1, []) | Some y => issue_cmds c s1 y end) with None => None | Some (s2, l) =>
  let s3 := with_clk s2 (s_clk s2) (idle_cycles c s2) in
  match (if k_selfref c && (match y with None => true | _ => false end) then self_refresh c s3 (zseq (g_ranks (k_g c))) else Some (s3, [])) with
  | None => None
  | Some (s4, l') =>
    let s5 := schedule c s4 in
    Some (with_clk s5 (s_clk s5 + 1) (s_idle s5), l ++ l')
  end end end end.

(** controller.cc:45-63 : ReturnDoneTrans. *)
Fixpoint return_done (clk : Z) (q : list trans) : option (trans * list trans) :=
  match q with
  | [] => None
  | t :: r => if t_complete t <=? clk then Some (t, r)
              else match return_done clk r with None => None | Some (x, r') => Some (x, t :: r') end
  end.
(** dram_system.cc:147-156 : the loop that returns what is done; each round removes one. *)
Fixpoint drain (n : nat) (clk : Z) (q : list trans) : list trans * list trans :=
  match n with
  | O => ([], q)
  | S n' => match return_done clk q with
            | None => ([], q)
            | Some (t, q') => let '(l, q'') := drain n' clk q' in (t :: l, q'')
            end
  end.
(** dram_system.cc:144-161 : ClockTick for one channel: what is returned, then the controller.  The results are the transactions returned and
    the commands issued. *)
Definition dram_tick (c : kcfg) (s : ctrl) : option (ctrl * list trans * list cmd) :=
  let '(l, q) := drain (length (s_ret s)) (s_clk s) (s_ret s) in
  match clock_tick c (with_trans s (s_uq s) (s_rq s) (s_wq s) (s_prd s) (s_pwr s) q (s_drain s)) with
  | None => None
  | Some (s', y) => Some (s', l, y)
  end.
(** dram_system.cc:125-142 : AddTransaction; [None]: the assertion that the controller accepts fails. *)
Definition dram_add (c : kcfg) (s : ctrl) (a : Z) (w : bool) : option ctrl :=
  if will_accept c s w then Some (add_trans c s a w) else None.
