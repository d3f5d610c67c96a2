(** The banks of a DRAM channel: commands, bank states, timing and activation windows.
    Files are in rad-sim/sim/dram/DRAMsim3/src. *)
From Coq Require Import ZArith Bool List.
Import ListNotations.
Local Open Scope Z_scope.

(** common.h:54-66 : CommandType; SIZE, no command, is [None] of an option. *)
Inductive ctype := READ | READ_PRE | WRITE | WRITE_PRE | ACT | PRE | REF_BANK | REF | SREF_ENTER | SREF_EXIT.
(** common.h:54-66 : equality of command types. *)
Definition ctype_eqb (a b : ctype) : bool :=
  match a, b with
  | READ, READ | READ_PRE, READ_PRE | WRITE, WRITE | WRITE_PRE, WRITE_PRE | ACT, ACT | PRE, PRE
  | REF_BANK, REF_BANK | REF, REF | SREF_ENTER, SREF_ENTER | SREF_EXIT, SREF_EXIT => true
  | _, _ => false
  end.
(** common.h:10-33 : Address, without the channel. *)
Record addr := { a_rank : Z; a_bg : Z; a_bank : Z; a_row : Z; a_col : Z }.
(** common.h:68-103 : Command. *)
Record cmd := { c_type : ctype; c_addr : addr; c_hex : Z }.
(** common.h:75-78 : IsRefresh. *)
Definition is_refresh (t : ctype) : bool := match t with REF | REF_BANK => true | _ => false end.
(** common.h:79-82 : IsRead. *)
Definition is_read (t : ctype) : bool := match t with READ | READ_PRE => true | _ => false end.
(** common.h:83-86 : IsWrite. *)
Definition is_write (t : ctype) : bool := match t with WRITE | WRITE_PRE => true | _ => false end.
(** common.h:87 : IsReadWrite. *)
Definition is_rw (t : ctype) : bool := is_read t || is_write t.
(** common.h:88-92 : IsRankCMD. *)
Definition is_rank (t : ctype) : bool := match t with REF | SREF_ENTER | SREF_EXIT => true | _ => false end.

(** bankstate.h:14 : State; PD and SIZE are never entered. *)
Inductive bstate := OPEN | CLOSED | SREF.
(** bankstate.h:29-41 : BankState. *)
Record bank := { b_state : bstate; b_timing : ctype -> Z; b_row : Z; b_hits : Z }.
(** bankstate.cc:5-19 : the constructor. *)
Definition bank0 : bank := {| b_state := CLOSED; b_timing := fun _ => 0; b_row := -1; b_hits := 0 |}.

(** bankstate.cc:23-85 : the command that a command requires in the state of the bank; [None]: AbruptExit. *)
Definition required (b : bank) (c : cmd) : option ctype :=
  match b_state b, c_type c with
  | CLOSED, (READ | READ_PRE | WRITE | WRITE_PRE) => Some ACT
  | CLOSED, (REF | REF_BANK | SREF_ENTER) => Some (c_type c)
  | CLOSED, _ => None
  | OPEN, (READ | READ_PRE | WRITE | WRITE_PRE) => if a_row (c_addr c) =? b_row b then Some (c_type c) else Some PRE
  | OPEN, (REF | REF_BANK | SREF_ENTER) => Some PRE
  | OPEN, _ => None
  | SREF, (READ | READ_PRE | WRITE | WRITE_PRE) => Some SREF_EXIT
  | SREF, _ => None
  end.
(** bankstate.cc:22-94 : GetReadyCommand; [None]: AbruptExit, [Some None]: no command. *)
Definition bank_ready (b : bank) (c : cmd) (clk : Z) : option (option cmd) :=
  match required b c with
  | None => None
  | Some t => Some (if b_timing b t <=? clk then Some {| c_type := t; c_addr := c_addr c; c_hex := c_hex c |} else None)
  end.
(** bankstate.cc:96-165 : UpdateState; [None]: AbruptExit. *)
Definition bank_update (b : bank) (c : cmd) : option bank :=
  match b_state b, c_type c with
  | OPEN, (READ | WRITE) => Some {| b_state := OPEN; b_timing := b_timing b; b_row := b_row b; b_hits := b_hits b + 1 |}
  | OPEN, (READ_PRE | WRITE_PRE | PRE) => Some {| b_state := CLOSED; b_timing := b_timing b; b_row := -1; b_hits := 0 |}
  | OPEN, _ => None
  | CLOSED, (REF | REF_BANK) => Some b
  | CLOSED, ACT => Some {| b_state := OPEN; b_timing := b_timing b; b_row := a_row (c_addr c); b_hits := b_hits b |}
  | CLOSED, SREF_ENTER => Some {| b_state := SREF; b_timing := b_timing b; b_row := b_row b; b_hits := b_hits b |}
  | CLOSED, _ => None
  | SREF, SREF_EXIT => Some {| b_state := CLOSED; b_timing := b_timing b; b_row := b_row b; b_hits := b_hits b |}
  | SREF, _ => None
  end.
(** bankstate.cc:167-171 : UpdateTiming. *)
Definition bank_delay (b : bank) (t : ctype) (time : Z) : bank :=
  {| b_state := b_state b; b_timing := fun u => if ctype_eqb u t then Z.max (b_timing b u) time else b_timing b u;
     b_row := b_row b; b_hits := b_hits b |}.

(** timing.h:12-20 : the tables of delays. *)
Record timing := {
  t_same_bank : ctype -> list (ctype * Z); t_same_group : ctype -> list (ctype * Z); t_same_rank_bg : ctype -> list (ctype * Z);
  t_ranks : ctype -> list (ctype * Z); t_rank : ctype -> list (ctype * Z) }.

(** configuration.h:42-98 : the numbers of ranks, bank groups and banks of a group, the timing and the activation windows. *)
Record geom := { g_ranks : Z; g_bgs : Z; g_bpg : Z; g_t : timing; g_faw : Z; g_32aw : Z; g_gddr : bool }.

(** channel_state.h:43-51 : the state of a channel; rank_idle_cycles is kept with the controller. *)
Record chan := { ch_bank : Z -> Z -> Z -> bank; ch_sref : Z -> bool; ch_refq : list cmd; ch_faw : Z -> list Z; ch_32aw : Z -> list Z }.
(** channel_state.cc:4-22 : the constructor. *)
Definition chan0 : chan :=
  {| ch_bank := fun _ _ _ => bank0; ch_sref := fun _ => false; ch_refq := []; ch_faw := fun _ => []; ch_32aw := fun _ => [] |}.

(** channel_state.cc:80-81 : the values of a loop variable from 0. *)
Definition zseq (n : Z) : list Z := map Z.of_nat (seq 0 (Z.to_nat n)).
(** channel_state.cc:80-81 : the banks of a rank in the order of the loops. *)
Definition rank_banks (g : geom) : list (Z * Z) := flat_map (fun j => map (fun k => (j, k)) (zseq (g_bpg g))) (zseq (g_bgs g)).
(** configuration.cc:97 : banks. *)
Definition g_banks (g : geom) : Z := g_bgs g * g_bpg g.
(** channel_state.cc:104 : indices are in range. *)
Definition in_range (n x : Z) : bool := (0 <=? x) && (x <? n).
(** channel_state.cc:104 : the address names a bank. *)
Definition in_geom (g : geom) (a : addr) : bool := in_range (g_ranks g) (a_rank a) && in_range (g_bgs g) (a_bg a) && in_range (g_bpg g) (a_bank a).

(** channel_state.cc:24-33 : IsAllBankIdleInRank. *)
Definition all_idle (g : geom) (s : chan) (r : Z) : bool :=
  forallb (fun jk => match b_state (ch_bank s r (fst jk) (snd jk)) with OPEN => false | _ => true end) (rank_banks g).

(** channel_state.cc:297-304 and 306-314 : IsFAWReady and Is32AWReady. *)
Definition window_ready (n : nat) (w : list Z) (clk : Z) : bool :=
  match w with [] => true | x :: _ => negb ((clk <? x) && Nat.leb n (length w)) end.
(** channel_state.cc:271-280 : ActivationWindowOk. *)
Definition act_ok (g : geom) (s : chan) (r clk : Z) : bool :=
  let ok := window_ready 4 (ch_faw s r) clk in
  if g_gddr g then if ok then window_ready 32 (ch_32aw s r) clk else false else ok.

(** channel_state.cc:78-101 : the loop of GetReadyCommand over the banks of a rank; [n] is num_ready, [last] is ready_cmd. *)
Fixpoint rank_ready (g : geom) (s : chan) (c : cmd) (clk : Z) (l : list (Z * Z)) (n : Z) (last : option cmd) : option (option cmd) :=
  match l with
  | [] => Some (if n =? g_banks g then last else None)
  | (j, k) :: r =>
    match bank_ready (ch_bank s (a_rank (c_addr c)) j k) c clk with
    | None => None
    | Some None => rank_ready g s c clk r n None
    | Some (Some rc) =>
      if ctype_eqb (c_type rc) (c_type c) then rank_ready g s c clk r (n + 1) (Some rc)
      else Some (Some {| c_type := c_type rc; c_addr := {| a_rank := a_rank (c_addr c); a_bg := j; a_bank := k; a_row := -1; a_col := -1 |}; c_hex := c_hex rc |})
    end
  end.
(** channel_state.cc:76-115 : GetReadyCommand; an index out of range is undefined. *)
Definition chan_ready (g : geom) (s : chan) (c : cmd) (clk : Z) : option (option cmd) :=
  if is_rank (c_type c) then
    if in_range (g_ranks g) (a_rank (c_addr c)) then rank_ready g s c clk (rank_banks g) 0 None else None
  else if in_geom g (c_addr c) then
    match bank_ready (ch_bank s (a_rank (c_addr c)) (a_bg (c_addr c)) (a_bank (c_addr c))) c clk with
    | Some (Some rc) =>
      if ctype_eqb (c_type rc) ACT && negb (act_ok g s (a_rank (c_addr rc)) clk) then Some None else Some (Some rc)
    | r => r
    end
  else None.

(** channel_state.cc:137 : assignment to an element of bank_states_. *)
Definition set_bank (f : Z -> Z -> Z -> bank) (r j k : Z) (b : bank) : Z -> Z -> Z -> bank :=
  fun r' j' k' => if (r' =? r) && (j' =? j) && (k' =? k) then b else f r' j' k'.
(** channel_state.cc:119-123 : UpdateState on each bank of the rank. *)
Fixpoint update_banks (c : cmd) (l : list (Z * Z)) (f : Z -> Z -> Z -> bank) : option (Z -> Z -> Z -> bank) :=
  match l with
  | [] => Some f
  | (j, k) :: r => match bank_update (f (a_rank (c_addr c)) j k) c with
                   | None => None
                   | Some b => update_banks c r (set_bank f (a_rank (c_addr c)) j k b)
                   end
  end.
(** channel_state.cc:50-56, 65-71 : erase the first entry that matches. *)
Fixpoint erase_first {A} (p : A -> bool) (l : list A) : list A :=
  match l with [] => [] | x :: r => if p x then r else x :: erase_first p r end.
(** channel_state.cc:44-59 : BankNeedRefresh. *)
Definition bank_need_refresh (r j k : Z) (need : bool) (q : list cmd) : list cmd :=
  if need then q ++ [{| c_type := REF_BANK; c_addr := {| a_rank := r; a_bg := j; a_bank := k; a_row := -1; a_col := -1 |}; c_hex := -1 |}]
  else erase_first (fun c => (a_rank (c_addr c) =? r) && (a_bg (c_addr c) =? j) && (a_bank (c_addr c) =? k)) q.
(** channel_state.cc:61-74 : RankNeedRefresh. *)
Definition rank_need_refresh (r : Z) (need : bool) (q : list cmd) : list cmd :=
  if need then q ++ [{| c_type := REF; c_addr := {| a_rank := r; a_bg := -1; a_bank := -1; a_row := -1; a_col := -1 |}; c_hex := -1 |}]
  else erase_first (fun c => a_rank (c_addr c) =? r) q.
(** channel_state.cc:128,130 : assignment to an element. *)
Definition set_z {A} (f : Z -> A) (r : Z) (v : A) : Z -> A := fun x => if x =? r then v else f x.
(** channel_state.cc:117-138 : UpdateState. *)
Definition chan_update (g : geom) (c : cmd) (s : chan) : option chan :=
  let a := c_addr c in
  if is_rank (c_type c) then
    match update_banks c (rank_banks g) (ch_bank s) with
    | None => None
    | Some f => Some {| ch_bank := f;
        ch_sref := match c_type c with SREF_ENTER => set_z (ch_sref s) (a_rank a) true | SREF_EXIT => set_z (ch_sref s) (a_rank a) false | _ => ch_sref s end;
        ch_refq := if is_refresh (c_type c) then rank_need_refresh (a_rank a) false (ch_refq s) else ch_refq s;
        ch_faw := ch_faw s; ch_32aw := ch_32aw s |}
    end
  else match bank_update (ch_bank s (a_rank a) (a_bg a) (a_bank a)) c with
    | None => None
    | Some b => Some {| ch_bank := set_bank (ch_bank s) (a_rank a) (a_bg a) (a_bank a) b; ch_sref := ch_sref s;
        ch_refq := if is_refresh (c_type c) then bank_need_refresh (a_rank a) (a_bg a) (a_bank a) false (ch_refq s) else ch_refq s;
        ch_faw := ch_faw s; ch_32aw := ch_32aw s |}
    end.

(** [uint64_t] arithmetic: channel_state.cc:193 ([clk] plus a delay, which may be negative). *)
Definition u64 (x : Z) : Z := x mod 2 ^ 64.
(** channel_state.cc:192-195 : the inner loop over a list of delays. *)
Definition bank_delays (l : list (ctype * Z)) (clk : Z) (b : bank) : bank := fold_left (fun b td => bank_delay b (fst td) (u64 (clk + snd td))) l b.
(** channel_state.cc:188-263 : the loops over the banks that a helper applies to; each bank of the channel is touched at most once,
    so that the loops are the same as applying the delays to every bank selected by [p]. *)
Definition delay_where (g : geom) (p : Z -> Z -> Z -> bool) (l : list (ctype * Z)) (clk : Z) (f : Z -> Z -> Z -> bank) : Z -> Z -> Z -> bank :=
  fun r j k => if in_range (g_ranks g) r && in_range (g_bgs g) j && in_range (g_bpg g) k && p r j k then bank_delays l clk (f r j k) else f r j k.
(** channel_state.cc:283-286, 288-293 : one window of activation times. *)
Definition window_push (w : list Z) (clk len : Z) : list Z :=
  (match w with [] => [] | x :: r => if x <=? clk then r else w end) ++ [u64 (clk + len)].
(** channel_state.cc:282-295 : UpdateActivationTimes. *)
Definition act_times (g : geom) (r clk : Z) (s : chan) : chan :=
  {| ch_bank := ch_bank s; ch_sref := ch_sref s; ch_refq := ch_refq s;
     ch_faw := set_z (ch_faw s) r (window_push (ch_faw s r) clk (g_faw g));
     ch_32aw := if g_gddr g then set_z (ch_32aw s) r (window_push (ch_32aw s r) clk (g_32aw g)) else ch_32aw s |}.
(** channel_state.cc:151-175 : the four updates for a command to a bank. *)
Definition bank_cmd_delays (g : geom) (c : cmd) (clk : Z) (f : Z -> Z -> Z -> bank) : Z -> Z -> Z -> bank :=
  let a := c_addr c in let t := c_type c in
  delay_where g (fun r _ _ => negb (r =? a_rank a)) (t_ranks (g_t g) t) clk
  (delay_where g (fun r j _ => (r =? a_rank a) && negb (j =? a_bg a)) (t_same_rank_bg (g_t g) t) clk
  (delay_where g (fun r j k => (r =? a_rank a) && (j =? a_bg a) && negb (k =? a_bank a)) (t_same_group (g_t g) t) clk
  (delay_where g (fun r j k => (r =? a_rank a) && (j =? a_bg a) && (k =? a_bank a)) (t_same_bank (g_t g) t) clk f))).
(** channel_state.cc:177-182 : the update for a command to a rank. *)
Definition rank_cmd_delays (g : geom) (c : cmd) (clk : Z) (f : Z -> Z -> Z -> bank) : Z -> Z -> Z -> bank :=
  delay_where g (fun r _ _ => r =? a_rank (c_addr c)) (t_rank (g_t g) (c_type c)) clk f.
(** channel_state.cc:140-186 : UpdateTiming. *)
Definition chan_timing (g : geom) (c : cmd) (clk : Z) (s : chan) : chan :=
  let s1 := if ctype_eqb (c_type c) ACT then act_times g (a_rank (c_addr c)) clk s else s in
  {| ch_bank := (if is_rank (c_type c) then rank_cmd_delays else bank_cmd_delays) g c clk (ch_bank s1);
     ch_sref := ch_sref s1; ch_refq := ch_refq s1; ch_faw := ch_faw s1; ch_32aw := ch_32aw s1 |}.
(** channel_state.cc:265-269 : UpdateTimingAndStates. *)
Definition chan_issue (g : geom) (c : cmd) (clk : Z) (s : chan) : option chan :=
  match chan_update g c s with None => None | Some s' => Some (chan_timing g c clk s') end.
