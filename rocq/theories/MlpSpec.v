(** What the MLP design is to compute. *)
From Coq Require Import ZArith Arith Bool List.
From Verif Require Import StreamSpec MvmModel MvmSpec MlpModel.
Import ListNotations.
Open Scope nat_scope.

Fixpoint sum (f : nat -> Z) (k : nat) : Z := match k with 0 => 0%Z | S k' => (sum f k' + f k')%Z end.

(** Block [b] of a vector, in numbers of 32 bits. *)
Definition block (n : nat) (v : nat -> Z) (b : nat) : list Z := map (fun e => wrap (v (b * n + e))) (seq 0 n).

(** Elements of the input and of the outputs of the layers: one matrix after the other. *)
Definition width (D : design) (l : nat) : nat := nth l (d_input D :: d_hidden D) 0.
Fixpoint activation (D : design) (x : nat -> Z) (l r : nat) : Z :=
  if r <? width D l then match l with 0 => x r | S k => sum (fun c => d_weights D k r c * activation D x k c)%Z (width D k) end else 0%Z.

(** The number of blocks of [n] elements that [d] elements need, a multiple of [k]. *)
Definition blocks (n d k : nat) : nat := (d + n * k - 1) / (n * k) * k.
(** Engines that share the results of layer [l]: those of the next layer; for the last layer the script takes those of the first. *)
Definition receivers (D : design) (l : nat) : nat := if l =? layers D - 1 then mvms D 0 else mvms D (l + 1).
(** What engine [m] of layer [l] is to add to element [r] of the product: the columns in its blocks, every block [b] with [b mod k = m] for [k] engines. *)
Definition share (n : nat) (D : design) (l m : nat) (x : nat -> Z) (r : nat) : Z :=
  if r <? width D (S l) then sum (fun c => if (c / n) mod mvms D l =? m then (d_weights D l r c * x c)%Z else 0%Z) (width D l) else 0%Z.

(** Where block [j] of the results of engine [m] of layer [l] goes: to the next engine of the layer; from the last engine in turn to the engines of the next layer; from the last layer to the collector. *)
Definition target (D : design) (l m j : nat) : Z * Z :=
  if m + 1 <? mvms D l then (Z.of_nat (l + 1), Z.of_nat (m + 1))
  else if l + 1 <? layers D then (Z.of_nat (l + 2), Z.of_nat (j mod mvms D (l + 1))) else (0, 0)%Z.

(** A design the script is made for: numbers are not 0, the destinations fit in their 5 bits. *)
Record proper (D : design) : Prop := {
  pr_some : d_hidden D <> []; pr_layers : length (d_hidden D) <= 14; pr_mvms : length (d_mvms D) = length (d_hidden D);
  pr_counts : Forall (fun k => 0 < k <= 32) (d_mvms D); pr_input : 0 < d_input D; pr_hidden : Forall (fun h => 0 < h) (d_hidden D) }.

(** The transactions among those sent that go to engine [m] of layer [l] (counted from 1), as they are received. *)
Definition sent_to (l m : Z) (out : list sent) : list (Z * Z) :=
  map (fun t => let '(data, user, _) := t in (user, data)) (filter (fun t => let '(_, _, (l', m')) := t in (l' =? l)%Z && (m' =? m)%Z) out).

(** What engine [m] of layer [l] has received and sent: the transactions of a kind received are a prefix of those that the engine before, or the dispatcher, has sent to it.
    The network between them keeps the order of a sender (C84); the cycles in which transactions arrive are open. *)
Record connected (n : nat) (D : design) (rx : nat -> nat -> list (Z * Z)) (out : nat -> nat -> list sent) : Prop := {
  cn_in : forall m, m < mvms D 0 -> prefix (filter (of_kind 3) (rx 0 m)) (map (fun v => (3 * 2 ^ 13, packed v)%Z) (input_mif n D m));
  cn_next : forall l m, l + 1 < layers D -> m < mvms D (l + 1) -> prefix (filter (of_kind 3) (rx (l + 1) m)) (sent_to (Z.of_nat (l + 2)) (Z.of_nat m) (out l (mvms D l - 1)));
  cn_sum : forall l m, l < layers D -> m + 1 < mvms D l -> prefix (filter (of_kind 2) (rx l (m + 1))) (sent_to (Z.of_nat (l + 1)) (Z.of_nat (m + 1)) (out l m));
  cn_first : forall l, l < layers D -> filter (of_kind 2) (rx l 0) = [] }.

(** Everything sent has been received. *)
Record delivered (n : nat) (D : design) (rx : nat -> nat -> list (Z * Z)) (out : nat -> nat -> list sent) : Prop := {
  de_in : forall m, m < mvms D 0 -> filter (of_kind 3) (rx 0 m) = map (fun v => (3 * 2 ^ 13, packed v)%Z) (input_mif n D m);
  de_next : forall l m, l + 1 < layers D -> m < mvms D (l + 1) -> filter (of_kind 3) (rx (l + 1) m) = sent_to (Z.of_nat (l + 2)) (Z.of_nat m) (out l (mvms D l - 1));
  de_sum : forall l m, l < layers D -> m + 1 < mvms D l -> filter (of_kind 2) (rx l (m + 1)) = sent_to (Z.of_nat (l + 1)) (Z.of_nat (m + 1)) (out l m);
  de_first : forall l, l < layers D -> filter (of_kind 2) (rx l 0) = [] }.

(** An execution of engine [m] of layer [l] with memories as generated. *)
Definition with_layer (P : mparams) (l : nat) : mparams :=
  {| m_dim := m_dim P; m_fifo := m_fifo P; m_comp := m_comp P; m_depth := m_depth P; m_rd := m_rd P; m_wr := m_wr P; m_layer := l |}.
Definition executed (P : mparams) (D : design) (l m : nat) (e : env) (es : list env) (out : list sent) (rx : list (Z * Z)) (final : option mstate) : Prop :=
  Forall data_only (e :: es) /\
  exists prog s, load_insts (m_depth P) (inst_mif (m_dim P) D l m) = Some prog /\ mvm0 (with_layer P l) prog (matrix_memory (m_dim P) D (m_depth P) l m) e = Some s /\ cycles (with_layer P l) s es = (out, rx, final).

(** Constants as in the repository, or others that fit together; the memories are large enough. *)
Record sized (P : mparams) (D : design) : Prop := {
  sz_dim : 0 < m_dim P; sz_rd : 0 < m_rd P; sz_comp : 0 < m_comp P; sz_wr : m_wr P = m_rd P; sz_fifo : m_comp P + m_rd P + 4 < m_fifo P;
  sz_words : forall l, l < layers D -> blocks (m_dim P) (width D l) (mvms D l) / mvms D l * blocks (m_dim P) (width D (S l)) (receivers D l) + 1 <= m_depth P }.

(** The outputs that are expected, in blocks: the products, in numbers of 32 bits. *)
Definition expected (n : nat) (D : design) : list (list Z) :=
  flat_map (fun t => map (block n (activation D (d_test D t) (layers D))) (seq 0 (blocks n (width D (layers D)) (mvms D 0)))) (seq 0 (d_tests D)).
