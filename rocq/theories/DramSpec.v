(** What the properties of the DRAM simulator speak about: runs, the commands issued and the transactions returned. *)
From Coq Require Import ZArith Bool List.
From Verif Require Import DramBankModel DramCtrlModel.
Import ListNotations.
Local Open Scope Z_scope.

(** ** Runs *)
(** A transaction offered, which is added if it will be accepted, or a cycle. *)
Inductive dop := DOffer (a : Z) (w : bool) | DTick.
(** The transactions accepted, with the cycle; those returned; the commands issued, with the cycle. *)
Record hist := { h_added : list (Z * Z * bool); h_ret : list trans; h_cmds : list (Z * cmd) }.
Definition hist0 : hist := {| h_added := []; h_ret := []; h_cmds := [] |}.
Definition dstep (c : kcfg) (o : dop) (s : ctrl) (h : hist) : option (ctrl * hist) :=
  match o with
  | DOffer a w =>
    if will_accept c s w then
      match dram_add c s a w with
      | None => None
      | Some s' => Some (s', {| h_added := h_added h ++ [(a, s_clk s, w)]; h_ret := h_ret h; h_cmds := h_cmds h |})
      end
    else Some (s, h)
  | DTick =>
    match dram_tick c s with
    | None => None
    | Some (s', r, y) => Some (s', {| h_added := h_added h; h_ret := h_ret h ++ r; h_cmds := h_cmds h ++ map (fun y => (s_clk s, y)) y |})
    end
  end.
Fixpoint drun_from (c : kcfg) (os : list dop) (s : ctrl) (h : hist) : option (ctrl * hist) :=
  match os with
  | [] => Some (s, h)
  | o :: r => match dstep c o s h with None => None | Some (s', h') => drun_from c r s' h' end
  end.
Definition drun (c : kcfg) (os : list dop) : option (ctrl * hist) := drun_from c os ctrl0 hist0.

(** ** Configurations *)
Record geom_ok (g : geom) : Prop := { go_ranks : 0 < g_ranks g; go_bgs : 0 < g_bgs g; go_bpg : 0 < g_bpg g }.
(** Addresses decode to banks (C42), and refreshes come at an interval. *)
Record cfg_ok (c : kcfg) : Prop := {
  co_geom : geom_ok (k_g c); co_decode : forall a, in_geom (k_g c) (k_decode c a) = true;
  co_int : forall i, refresh_interval c = Some i -> i <> 0 }.

(** ** The state of a bank according to the commands *)
Inductive status := Closed | Opened (row : Z) | Asleep.
(** The command concerns the bank. *)
Definition concerns (c : cmd) (r j k : Z) : bool :=
  (a_rank (c_addr c) =? r) && (is_rank (c_type c) || ((a_bg (c_addr c) =? j) && (a_bank (c_addr c) =? k))).
Definition next_status (c : cmd) (x : status) : status :=
  match c_type c with
  | ACT => Opened (a_row (c_addr c))
  | READ_PRE | WRITE_PRE | PRE | SREF_EXIT => Closed
  | SREF_ENTER => Asleep
  | READ | WRITE | REF | REF_BANK => x
  end.
Definition status_of (l : list (Z * cmd)) (r j k : Z) : status :=
  fold_left (fun x tc => if concerns (snd tc) r j k then next_status (snd tc) x else x) l Closed.
Definition legal (c : cmd) (x : status) : Prop :=
  match c_type c with
  | READ | READ_PRE | WRITE | WRITE_PRE => x = Opened (a_row (c_addr c))
  | ACT | REF | REF_BANK | SREF_ENTER => x = Closed
  | PRE => exists r, x = Opened r
  | SREF_EXIT => x = Asleep
  end.
Definition bank_in (g : geom) (r j k : Z) : Prop := 0 <= r < g_ranks g /\ 0 <= j < g_bgs g /\ 0 <= k < g_bpg g.

(** ** Delays *)
(** The delays that a command imposes on a bank according to the tables that UpdateTiming consults. *)
Definition delays_on (t : timing) (c : cmd) (r j k : Z) : list (ctype * Z) :=
  let a := c_addr c in
  if is_rank (c_type c) then if r =? a_rank a then t_rank t (c_type c) else []
  else if r =? a_rank a then
    if j =? a_bg a then if k =? a_bank a then t_same_bank t (c_type c) else t_same_group t (c_type c)
    else t_same_rank_bg t (c_type c)
  else t_ranks t (c_type c).
(** The banks for which a command waits. *)
Definition waits_for (c : cmd) (r j k : Z) : Prop :=
  r = a_rank (c_addr c) /\ (c_type c = REF \/ c_type c = SREF_ENTER \/ j = a_bg (c_addr c) /\ k = a_bank (c_addr c)).

(** The activations of a rank. *)
Definition activations (r : Z) (l : list (Z * cmd)) : list Z :=
  map fst (filter (fun tc => ctype_eqb (c_type (snd tc)) ACT && (a_rank (c_addr (snd tc)) =? r)) l).

(** ** Refresh *)
(** The bank, in the order of bank group, bank, rank, that is the x-th. *)
Definition nth_bank (g : geom) (x : Z) : Z * Z * Z := (x / (g_bgs g * g_bpg g), x mod g_bgs g, (x / g_bgs g) mod g_bpg g).

(** ** Transactions *)
(** The entries for an address among transactions and among commands waiting. *)
Definition entries (c : kcfg) (s : ctrl) (w : bool) (a : Z) : nat :=
  length (filter (fun t => Bool.eqb (t_write t) w && (t_addr t =? a)) (s_uq s ++ s_rq s ++ s_wq s)) +
  length (filter (fun y => Bool.eqb (is_write (c_type y)) w && (c_hex y =? a)) (flat_map (s_q s) (zseq (num_queues c)))).
(** A read or write takes the channel for at least a cycle. *)
Definition gap_in (u : ctype) (l : list (ctype * Z)) : Prop := exists d, In (u, d) l /\ 1 <= d < 2 ^ 31.
Definition rw_gap (g : geom) : Prop :=
  forall t u, is_rw t = true -> is_rw u = true ->
    (t = READ \/ t = WRITE -> gap_in u (t_same_bank (g_t g) t)) /\
    (1 < g_bpg g -> gap_in u (t_same_group (g_t g) t)) /\
    (1 < g_bgs g -> gap_in u (t_same_rank_bg (g_t g) t)) /\
    (1 < g_ranks g -> gap_in u (t_ranks (g_t g) t)).
(** What identifies a transaction. *)
Definition key (t : trans) : Z * Z * bool := (t_addr t, t_added t, t_write t).

(** The refreshes due at a cycle when no rank is asleep: every interval the next rank or the next bank. *)
Definition ref_rank (r : Z) : cmd := {| c_type := REF; c_addr := {| a_rank := r; a_bg := -1; a_bank := -1; a_row := -1; a_col := -1 |}; c_hex := -1 |}.
Definition ref_bank (x : Z * Z * Z) : cmd :=
  let '(r, j, k) := x in {| c_type := REF_BANK; c_addr := {| a_rank := r; a_bg := j; a_bank := k; a_row := -1; a_col := -1 |}; c_hex := -1 |}.
Definition due (c : kcfg) (i t : Z) : list cmd :=
  if (0 <? t) && (t mod i =? 0) then
    match k_policy c with
    | RANK_SIMULTANEOUS => [ref_rank 0]
    | RANK_STAGGERED => [ref_rank ((t / i - 1) mod g_ranks (k_g c))]
    | BANK_STAGGERED => [ref_bank (nth_bank (k_g c) ((t / i - 1) mod (g_ranks (k_g c) * (g_bgs (k_g c) * g_bpg (k_g c)))))]
    end
  else [].
(** The refreshes that were issued, in order. *)
Definition ref_key (y : cmd) : ctype * addr := (c_type y, c_addr y).
Definition refreshes (l : list (Z * cmd)) : list (ctype * addr) := map ref_key (filter (fun y => is_refresh (c_type y)) (map snd l)).
(** What is asked for in the n refresh intervals after the m-th. *)
Definition round (c : kcfg) (i m n : Z) : list cmd := flat_map (due c i) (map (fun x => (m + 1 + x) * i) (zseq n)).
Definition all_ranks (g : geom) : list Z := zseq (g_ranks g).
Definition all_banks (g : geom) : list (Z * Z * Z) :=
  flat_map (fun r => flat_map (fun j => map (fun k => (r, j, k)) (zseq (g_bpg g))) (zseq (g_bgs g))) (zseq (g_ranks g)).
