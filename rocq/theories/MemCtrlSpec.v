(** What the memory controller is supposed to do, in terms of the requests, responses and stores observed. *)
From Coq Require Import ZArith Bool List Permutation.
From Verif Require Import MemCtrlModel.
Import ListNotations.
Local Open Scope Z_scope.

(** Executions of a channel: one element for each clock edge, saying which thread runs first and what the inputs are. *)
Fixpoint mrun_from (X : dram) (c : mcfg) (es : list (bool * minp)) (s : mst X) (l : list mev) : option (mst X * list mev) :=
  match es with
  | [] => Some (s, l)
  | (o, i) :: r => match edge X c o i s with None => None | Some (s', e) => mrun_from X c r s' (l ++ e) end
  end.
Definition mrun (X : dram) (c : mcfg) (mem : Z -> option Z) (d : dr X) (es : list (bool * minp)) : option (mst X * list mev) :=
  mrun_from X c es (mst0 X c mem d) [].

(** Write addresses, write data, read requests, responses and stores in the order in which they happened. *)
Definition aws (l : list mev) : list (Z * bool) := flat_map (fun e => match e with EvAW a b => [(a, b)] | _ => [] end) l.
Definition ws (l : list mev) : list (Z * Z) := flat_map (fun e => match e with EvW u d => [(u, d)] | _ => [] end) l.
Definition ars (l : list mev) : list (Z * Z * bool) := flat_map (fun e => match e with EvAR u a b => [(u, a, b)] | _ => [] end) l.
Definition bs (l : list mev) : list Z := flat_map (fun e => match e with EvB u => [u] | _ => [] end) l.
Definition rs (l : list mev) : list (Z * Z * bool) := flat_map (fun e => match e with EvR u d b => [(u, d, b)] | _ => [] end) l.
Definition stores (l : list mev) : list (Z * Z) := flat_map (fun e => match e with EvStore a d => [(a, d)] | _ => [] end) l.
(** The writes: the i-th address with the i-th data. *)
Definition writes (l : list mev) : list (Z * bool * (Z * Z)) := combine (aws l) (ws l).
Definition w_addr (x : Z * bool * (Z * Z)) : Z := fst (fst x).
Definition w_last (x : Z * bool * (Z * Z)) : bool := snd (fst x).
Definition w_user (x : Z * bool * (Z * Z)) : Z := fst (snd x).
Definition w_data (x : Z * bool * (Z * Z)) : Z := snd (snd x).
(** User and last flag of a read request or response. *)
Definition ul (x : Z * Z * bool) : Z * bool := (fst (fst x), snd x).
(** What is at an address after some stores: the data of the last one to the address, else the initial contents, else 0. *)
Definition value (mem : Z -> option Z) (st : list (Z * Z)) (a : Z) : Z :=
  match find (fun x => fst x =? a) (rev st) with
  | Some x => snd x
  | None => match mem a with Some d => d | None => 0 end
  end.

(** ** The DRAM *)
Definition rd_of (l : list (Z * bool)) : list Z := map fst (filter (fun x => negb (snd x)) l).
Definition wr_of (l : list (Z * bool)) : list Z := map fst (filter snd l).
(** It holds some reads and a sequence of writes.  What it accepts is added, and a cycle returns some of its reads in any order and the
    first of its writes.  It does not end the process. *)
Record dram_ok (X : dram) (d0 : dr X) (inv : dr X -> Prop) (rd wr : dr X -> list Z) : Prop := {
  do_init : inv d0 /\ rd d0 = [] /\ wr d0 = [];
  do_read : forall d a, inv d -> d_will X d a false = true ->
    exists d', d_add X d a false = Some d' /\ inv d' /\ Permutation (rd d') (a :: rd d) /\ wr d' = wr d;
  do_write : forall d a, inv d -> d_will X d a true = true ->
    exists d', d_add X d a true = Some d' /\ inv d' /\ Permutation (rd d') (rd d) /\ wr d' = wr d ++ [a];
  do_tick : forall d, inv d -> exists d' l, d_tick X d = Some (d', l) /\ inv d' /\ Permutation (rd d) (rd_of l ++ rd d') /\ wr d = wr_of l ++ wr d' }.

(** ** The other end of the channel *)
(** Write data are offered only for write addresses that were taken at earlier edges. *)
Definition announced (X : dram) (c : mcfg) (mem : Z -> option Z) (d : dr X) (es : list (bool * minp)) : Prop :=
  forall es1 o i es2 s l, es = es1 ++ (o, i) :: es2 -> mrun X c mem d es1 = Some (s, l) -> i_wvalid i = true -> (length (ws l) < length (aws l))%nat.

(** The number of words stored before each read request. *)
Fixpoint arsn_from (n : nat) (l : list mev) : list (Z * Z * bool * nat) :=
  match l with
  | [] => []
  | EvAR u a b :: r => (u, a, b, n) :: arsn_from n r
  | EvStore _ _ :: r => arsn_from (S n) r
  | _ :: r => arsn_from n r
  end.
(** The writes stored so far: as many as there are stores. *)
Definition stored (l : list mev) : list (Z * bool * (Z * Z)) := firstn (length (stores l)) (writes l).

(** ** A DRAM for examples: it keeps what it gets and returns everything at every [p]-th cycle *)
Definition batch (p : nat) : dram :=
  {| dr := nat * list (Z * bool); d_will := fun _ _ _ => true; d_add := fun d a w => Some (fst d, snd d ++ [(a, w)]);
     d_tick := fun d => Some (match fst d with O => ((pred p, []), snd d) | S k => ((k, snd d), []) end) |}.
