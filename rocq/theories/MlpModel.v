(** The script that generates the contents of the memories, the test inputs and the expected outputs of the MLP design,
    rad-sim/example-designs/mlp/compiler/gen_testcase.py, and the functions that read them. *)
From Coq Require Import ZArith Arith Bool List.
From Verif Require Import MvmModel.
Import ListNotations.
Open Scope nat_scope.

(** The arguments of the script, rad-sim/example-designs/mlp/compiler/gen_testcase.py:17-32, the constant num_test_inputs (line 9), and
    the random numbers: weights by layer, row and column (line 49) and test inputs by test and position (line 146). *)
Record design := { d_hidden : list nat; d_input : nat; d_mvms : list nat; d_weights : nat -> nat -> nat -> Z; d_tests : nat; d_test : nat -> nat -> Z }.

Section Script.
(** native_dim, rad-sim/example-designs/mlp/compiler/gen_testcase.py:8. *)
Variable n : nat.
Variable D : design.

(** ** Dimensions *)
(** rad-sim/example-designs/mlp/compiler/gen_testcase.py:17-32. *)
Definition layers : nat := length (d_hidden D).
(** num_mvms[l], rad-sim/example-designs/mlp/compiler/gen_testcase.py:27-31. *)
Definition mvms (l : nat) : nat := nth l (d_mvms D) 1.
(** hidden_dims[l], rad-sim/example-designs/mlp/compiler/gen_testcase.py:21-25. *)
Definition hidden (l : nat) : nat := nth l (d_hidden D) 0.
(** num_mvms_out, rad-sim/example-designs/mlp/compiler/gen_testcase.py:38-41. *)
Definition mvms_out (l : nat) : nat := if l =? layers - 1 then mvms 0 else mvms (l + 1).
(** layer_input_dim, rad-sim/example-designs/mlp/compiler/gen_testcase.py:42-45. *)
Definition inputs_of (l : nat) : nat := if l =? 0 then d_input D else hidden (l - 1).
(** The next multiple of the native dimension times a number of engines, rad-sim/example-designs/mlp/compiler/gen_testcase.py:46-47.  The script computes it in doubles,
    which makes no difference for numbers below 2^48. *)
Definition padded (d k : nat) : nat := (d + n * k - 1) / (n * k) * (n * k).
(** rad-sim/example-designs/mlp/compiler/gen_testcase.py:46. *)
Definition dimx (l : nat) : nat := padded (inputs_of l) (mvms l).
(** rad-sim/example-designs/mlp/compiler/gen_testcase.py:47. *)
Definition dimy (l : nat) : nat := padded (hidden l) (mvms_out l).
(** limx of the instructions, rad-sim/example-designs/mlp/compiler/gen_testcase.py:98. *)
Definition limx (l : nat) : nat := dimx l / n / mvms l.
(** rad-sim/example-designs/mlp/compiler/gen_testcase.py:99, likewise 64. *)
Definition limy (l : nat) : nat := dimy l / n.

(** ** Weights *)
(** padded_weights[l][r][c], rad-sim/example-designs/mlp/compiler/gen_testcase.py:48-49. *)
Definition weight (l r c : nat) : Z := if (r <? hidden l) && (c <? inputs_of l) then d_weights D l r c else 0%Z.
(** A line of a weight file, rad-sim/example-designs/mlp/compiler/gen_testcase.py:74-76. *)
Definition weight_line (l d i j : nat) : vec := map (fun e => weight l (j * n + d) (i * n + e)) (seq 0 n).
(** What of the loop over [i] goes to file [d] of engine [m]; [idx] is mvm_idx; rad-sim/example-designs/mlp/compiler/gen_testcase.py:71-80. *)
Fixpoint weight_lines (l m d todo i idx : nat) : list vec :=
  match todo with
  | 0 => []
  | S t => (if idx =? m then map (weight_line l d i) (seq 0 (limy l)) else []) ++ weight_lines l m d t (i + 1) (if idx =? mvms l - 1 then 0 else idx + 1)
  end.
(** rad-sim/example-designs/mlp/compiler/gen_testcase.py:60-85. *)
Definition weight_mif (l m d : nat) : list vec := weight_lines l m d (dimx l / n) 0 0.

(** ** Instructions *)
(** dest_layer and dest_mvm, rad-sim/example-designs/mlp/compiler/gen_testcase.py:104-112. *)
Definition dest (l m j : nat) : Z * Z :=
  if (l =? layers - 1) && (m =? mvms l - 1) then (0, 0)%Z
  else if m =? mvms l - 1 then (Z.of_nat (l + 2), Z.of_nat (j mod mvms (l + 1)))
  else (Z.of_nat (l + 1), Z.of_nat (m + 1)).
(** A line of an instruction file, rad-sim/example-designs/mlp/compiler/gen_testcase.py:113-131. *)
Definition inst_line (l m i j : nat) : inst :=
  {| i_en := true; i_jump := false; i_reduce := negb ((m =? 0) || (i <? limx l - 1)); i_accum := j; i_accum_en := negb (i =? 0); i_release := i =? limx l - 1;
     i_raddr := i * limy l + j; i_last := j =? limy l - 1; i_layer := fst (dest l m j); i_mvm := snd (dest l m j) |}.
(** The last line, rad-sim/example-designs/mlp/compiler/gen_testcase.py:132. *)
Definition jump_line : inst :=
  {| i_en := true; i_jump := true; i_reduce := false; i_accum := 0; i_accum_en := false; i_release := false; i_raddr := 0; i_last := false; i_layer := 0; i_mvm := 0 |}.
(** rad-sim/example-designs/mlp/compiler/gen_testcase.py:100-133. *)
Definition inst_mif (l m : nat) : list inst := flat_map (fun i => map (inst_line l m i) (seq 0 (limy l))) (seq 0 (limx l)) ++ [jump_line].

(** ** Tests *)
(** test_inputs[t][c], rad-sim/example-designs/mlp/compiler/gen_testcase.py:144-146. *)
Definition test (t c : nat) : Z := if c <? d_input D then d_test D t c else 0%Z.
(** The file of dispatcher [m], rad-sim/example-designs/mlp/compiler/gen_testcase.py:147-156. *)
Definition input_mif (m : nat) : list vec :=
  flat_map (fun t => flat_map (fun c => if c mod mvms 0 =? m then [map (fun e => test t (c * n + e)) (seq 0 n)] else []) (seq 0 (padded (d_input D) (mvms 0) / n))) (seq 0 (d_tests D)).

(** Numbers of 64 bits, which numpy computes with; rad-sim/example-designs/mlp/compiler/gen_testcase.py:160. *)
Definition int64 (x : Z) : Z := ((x + 2 ^ 63) mod 2 ^ 64 - 2 ^ 63)%Z.
(** One element of np.dot, rad-sim/example-designs/mlp/compiler/gen_testcase.py:160, 163. *)
Fixpoint dot64 (f g : nat -> Z) (k : nat) : Z := match k with 0 => 0%Z | S k' => int64 (dot64 f g k' + f k' * g k') end.
(** Row [r] of test_outputs for test [t] after layer [l], rad-sim/example-designs/mlp/compiler/gen_testcase.py:159-163. *)
Fixpoint outputs (l t r : nat) : Z := match l with 0 => dot64 (weight 0 r) (test t) (dimx 0) | S l' => dot64 (weight l r) (outputs l' t) (dimx l) end.
(** golden_outputs.mif, rad-sim/example-designs/mlp/compiler/gen_testcase.py:165-174. *)
Definition golden_mif : list vec :=
  flat_map (fun t => map (fun c => map (fun e => outputs (layers - 1) t (c * n + e)) (seq 0 n)) (seq 0 (limy (layers - 1)))) (seq 0 (d_tests D)).

(** ** Reading the files *)
(** A line as read: the destination is kept in 5 bits; rad-sim/example-designs/mlp/modules/mvm.cpp:10-38. *)
Definition parsed (i : inst) : inst :=
  {| i_en := i_en i; i_jump := i_jump i; i_reduce := i_reduce i; i_accum := i_accum i; i_accum_en := i_accum_en i; i_release := i_release i; i_raddr := i_raddr i;
     i_last := i_last i; i_layer := int5 (i_layer i); i_mvm := uint5 (i_mvm i) |}.
(** ParseInstructions, rad-sim/example-designs/mlp/modules/mvm.cpp:3-40 and 62.  [None]: more lines than the memory has words. *)
Definition load_insts (depth : nat) (lines : list inst) : option (list inst) :=
  if length lines <=? depth then Some (map parsed lines ++ repeat inst0 (depth - length lines)) else None.
(** parse_register_file_contents_from_file, rad-sim/example-designs/mlp/modules/register_file.hpp:46-70 and register_file.cpp:21-26. *)
Definition load_words (depth : nat) (lines : list vec) : list vec := firstn depth (map (map int32) lines) ++ repeat (repeat 0%Z n) (depth - length lines).
(** The register files of an engine, rad-sim/example-designs/mlp/modules/mvm.cpp:73-94. *)
Definition matrix_memory (depth l m : nat) : list (list vec) := map (fun d => load_words depth (weight_mif l m d)) (seq 0 n).
End Script.
