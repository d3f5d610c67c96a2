(** What the matrix-vector engine of the MLP design is to compute: the instructions one after the other, without pipeline, FIFOs and clock. *)
From Coq Require Import ZArith Arith Bool List.
From Verif Require Import StreamSpec MvmModel.
Import ListNotations.
Open Scope nat_scope.

(** The number with sign that the low 32 bits stand for. *)
Definition wrap (x : Z) : Z := ((x + 2 ^ 31) mod 2 ^ 32 - 2 ^ 31)%Z.

(** Element [i] of the vector on a data bus: 32 bits, the highest is the sign. *)
Definition word (x : Z) (i : nat) : Z := wrap (Z.shiftr x (32 * Z.of_nat i)).
Definition words (n : nat) (x : Z) : list Z := map (word x) (seq 0 n).

(** Sum of products. *)
Fixpoint inner (a b : list Z) : Z := match a, b with x :: r, y :: q => (x * y + inner r q)%Z | _, _ => 0%Z end.

(** A released result with its receiver. *)
Definition result := (list Z * Z * Z)%type.

(** State of the instruction level: next instruction, vectors not yet used, results kept, the newest first, with the slot they are in. *)
Record istate := { k_pc : nat; k_ins : list (list Z); k_reds : list (list Z); k_kept : list (nat * list Z) }.
Definition start (ins reds : list (list Z)) : istate := {| k_pc := 0; k_ins := ins; k_reds := reds; k_kept := [] |}.

Definition slot (a : nat) (l : list (nat * list Z)) : option (list Z) :=
  match find (fun p => fst p =? a) l with Some (_, v) => Some v | None => None end.

Inductive outcome := Wait | Fault | Go (s : istate) (o : list result).

Section Engine.
(** Native dimension, depth of the memories, instructions, and the weights: [weights d a] is the row of dot product [d] at address [a]. *)
Variables (n depth : nat) (prog : list inst) (weights : list (list (list Z))).

(** The product with the block of weights at address [a], plus a vector, plus a vector kept. *)
Definition product (a : nat) (x red : list Z) (kept : option (list Z)) : list Z :=
  map (fun d => wrap (inner x (nth a (nth d weights []) []) + nth d red 0%Z + match kept with Some v => nth d v 0%Z | None => 0%Z end)%Z) (seq 0 n).

Definition istep (s : istate) : outcome :=
  match nth_error prog (k_pc s) with
  | None => Fault
  | Some i =>
    if depth <=? i_raddr i then Fault
    else if negb (i_en i) then Wait
    else if i_jump i then Go {| k_pc := i_raddr i; k_ins := k_ins s; k_reds := k_reds s; k_kept := k_kept s |} []
    else
      match k_ins s, (if i_reduce i then match k_reds s with [] => None | r :: q => Some (r, q) end else Some (repeat 0%Z n, k_reds s)) with
      | x :: xs, Some (r, q) =>
        if depth <=? i_accum i then Fault
        else
          match i_accum_en i, slot (i_accum i) (k_kept s) with
          | true, None => Fault
          | b, o =>
            let y := product (i_raddr i) x r (if b then o else None) in
            Go {| k_pc := S (k_pc s); k_ins := if i_last i then xs else x :: xs; k_reds := q; k_kept := (i_accum i, y) :: k_kept s |}
               (if i_release i then [(y, i_layer i, i_mvm i)] else [])
          end
      | _, _ => Wait
      end
  end.

(** A number of instructions, and the results they release. *)
Inductive runs (s : istate) : nat -> list result -> istate -> Prop :=
| runs_none : runs s 0 [] s
| runs_one k os s' o s'' : runs s k os s' -> istep s' = Go s'' o -> runs s (S k) (os ++ o) s''.

Definition faulty (s : istate) : Prop := exists k os s', runs s k os s' /\ istep s' = Fault.
End Engine.

(** The vectors among the transactions received: kind 3 for input, kind 2 for partial results; the kind is in bits 13 to 15 of the user bits. *)
Definition of_kind (k : Z) (t : Z * Z) : bool := (Z.land (Z.shiftr (fst t) 13) 7 =? k)%Z.
Definition vectors (n : nat) (k : Z) (rx : list (Z * Z)) : list (list Z) := map (fun t => words n (snd t)) (filter (of_kind k) rx).

(** A result as transaction of an engine of layer [layer] (counted from 0; a receiver's layer is counted from 1): the elements in 32 bits each,
    for an engine of the same layer a partial result, else an input. *)
Definition packed (v : list Z) : Z := fold_right (fun x r => x mod 2 ^ 32 + 2 ^ 32 * r)%Z 0%Z v.
Definition as_sent (layer : nat) (r : result) : Z * Z * (Z * Z) :=
  let '(v, l, m) := r in (packed v, ((if l =? Z.of_nat layer + 1 then 2 else 3) * 2 ^ 13)%Z, (l, m)).

(** A result that cannot be told from an empty output FIFO by its data. *)
Definition null (n : nat) (r : result) : Prop := r = (repeat 0%Z n, 0%Z, 0%Z).

(** What is assumed of an engine: the native dimension is not 0, the latencies are not 0, the output FIFO is larger than the pipeline and four more, reading and writing the register
    files take equally long, instruction memory and register files have the depth of the memories, every word has the native dimension. *)
Record fits (P : mparams) (prog : list inst) (weights : list (list (list Z))) : Prop := {
  f_dim : 0 < m_dim P; f_rd : 0 < m_rd P; f_comp : 0 < m_comp P; f_wr : m_wr P = m_rd P; f_size : m_comp P + m_rd P + 4 < m_fifo P;
  f_prog : length prog = m_depth P; f_some : 0 < m_depth P;
  f_inst : Forall (fun i => (-16 <= i_layer i < 16 /\ 0 <= i_mvm i < 32)%Z) prog; f_layer : (Z.of_nat (m_layer P) < 2 ^ 31)%Z;
  f_files : length weights = m_dim P; f_words : Forall (fun m => length m = m_depth P /\ Forall (fun r => length r = m_dim P) m) weights }.

(** No instruction and no weight is received: kinds 1 and 4. *)
Definition data_only (e : env) : Prop := of_kind 1 (e_tuser e, e_tdata e) = false /\ of_kind 4 (e_tuser e, e_tdata e) = false.

(** The instruction level with the vectors received. *)
Definition begun (n : nat) (rx : list (Z * Z)) : istate := start (vectors n 3 rx) (vectors n 2 rx).

(** The receiver of the results is ready and nothing is offered to the engine. *)
Definition quiet (e : env) : Prop := e_valid e = false /\ e_ready e = true.
