(** What the properties of the credit tracker speak about: counts in the history of events. *)
From Coq Require Import ZArith Arith Bool List.
From Verif Require Import Fupd BufferModel.
Import ListNotations.
Open Scope Z_scope.

(** The flits sent on a channel, the credits received for it, and whether a packet is under way on it:
    the channel was allocated and the tail was not sent since. *)
Fixpoint sent (v : nat) (h : list (Z * bev)) : Z :=
  match h with [] => 0 | (_, ESend w _) :: r => (if Nat.eqb w v then 1 else 0) + sent v r | _ :: r => sent v r end.
Fixpoint credited (v : nat) (h : list (Z * bev)) : Z :=
  match h with [] => 0 | (_, ECredit vs) :: r => Z.of_nat (count_occ Nat.eq_dec vs v) + credited v r | _ :: r => credited v r end.
Definition busy_step (v : nat) (now : bool) (e : Z * bev) : bool :=
  match e with
  | (_, ETake w _) => if Nat.eqb w v then true else now
  | (_, ESend w tail) => if Nat.eqb w v then negb tail else now
  | _ => now
  end.
Definition busy (v : nat) (h : list (Z * bev)) : bool := fold_left (busy_step v) h false.
Definition total (f : nat -> Z) (n : nat) : Z := fold_right Z.add 0 (map f (seq 0 n)).

(** What the user of the tracker keeps to: it allocates a channel that is reported available, sends
    flits of the packet under way on a channel that is reported not full, and hands in credits only
    for flits that were sent. *)
Definition legal (c : bcfg) (P : bpolicy) (h : list (Z * bev)) (s : bufs P) (e : Z * bev) : Prop :=
  match e with
  | (_, ETake v tag) => (v < bc_vcs c)%nat /\ 0 <= tag /\ available_for (bs_b s) v = true
  | (t, ESend v _) => (v < bc_vcs c)%nat /\ busy v h = true /\ po_full P t (bs_b s) v (bs_p s) = Some false
  | (_, ECredit vs) => NoDup vs /\ Forall (fun v => (v < bc_vcs c)%nat /\ credited v h < sent v h) vs
  end.
Fixpoint lawful_from (c : bcfg) (P : bpolicy) (h : list (Z * bev)) (es : list (Z * bev)) (s : bufs P) : Prop :=
  match es with
  | [] => True
  | e :: r => legal c P h s e /\ forall s', bs_step c P e s = Some s' -> lawful_from c P (h ++ [e]) r s'
  end.
Definition lawful (c : bcfg) (P : bpolicy) (es : list (Z * bev)) : Prop := lawful_from c P [] es (bufs0 P).

(** The tracker agrees with the history. *)
Definition tracks (c : bcfg) (P : bpolicy) (h : list (Z * bev)) (s : bufs P) : Prop :=
  b_occ (bs_b s) = total (fun v => sent v h - credited v h) (bc_vcs c) /\
  forall v, (v < bc_vcs c)%nat ->
    b_vocc (bs_b s) v = sent v h - credited v h /\ 0 <= b_vocc (bs_b s) v /\
    (available_for (bs_b s) v = true <-> busy v h = false /\ (bc_wait c = true -> sent v h = credited v h)) /\
    forall t, exists f, po_full P t (bs_b s) v (bs_p s) = Some f.

(** The slots of the private buffer of channel [v] that are in use or may be kept for a packet under
    way on an empty channel are fewer than it has. *)
Definition has_room (vcs : nat) (sc : shcfg) (h : list (Z * bev)) (v : nat) : Prop :=
  total (fun w => if Nat.eqb (sc_map sc w) (sc_map sc v)
                  then sent w h - credited w h + (if busy w h && (sent w h =? credited w h) then 1 else 0) else 0) vcs < sc_psize sc (sc_map sc v).
