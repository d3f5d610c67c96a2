(** The matrix-vector engine of the MLP example design with its FIFOs and register files,
    rad-sim/example-designs/mlp/modules/mvm.cpp, fifo.cpp, register_file.cpp, instructions.cpp.

    The modules have one clock.  Clocked threads read the values that signals had before the edge.
    After the edge the combinational process runs as often as a signal of its sensitivity list has
    changed; a process that is not woken leaves its outputs as they are. *)
From Coq Require Import ZArith Arith Bool List.
Import ListNotations.
Open Scope nat_scope.

(** data_vector<dtype>, rad-sim/example-designs/mlp/modules/sim_utils.hpp:23-42. *)
Notation vec := (list Z).

(** data_vector<dtype>::operator==, rad-sim/example-designs/mlp/modules/sim_utils.cpp:32-37. *)
Definition vec_eqb (a b : vec) : bool := if list_eq_dec Z.eq_dec a b then true else false.

(** sc_int<32>: the low 32 bits, read as a number with sign;
    rad-sim/example-designs/mlp/modules/mvm.cpp:194-200. *)
Definition int32 (x : Z) : Z := (let y := x mod 2 ^ 32 in if y <? 2 ^ 31 then y else y - 2 ^ 32)%Z.

(** sc_int<5> and sc_uint<5>, rad-sim/example-designs/mlp/modules/instructions.hpp:15-16. *)
Definition int5 (x : Z) : Z := (let y := x mod 32 in if y <? 16 then y else y - 32)%Z.
(** sc_uint<5>, rad-sim/example-designs/mlp/modules/instructions.hpp:16. *)
Definition uint5 (x : Z) : Z := (x mod 32)%Z.

(** The macros NATIVE_DIM, FIFO_SIZE, COMPUTE_LATENCY, MEM_DEPTH of
    rad-sim/example-designs/mlp/modules/mvm.hpp:19-41, RF_RD_LATENCY, RF_WR_LATENCY of
    rad-sim/example-designs/mlp/modules/register_file.hpp:7-8, and layer_id, mvm.cpp:60. *)
Record mparams := { m_dim : nat; m_fifo : nat; m_comp : nat; m_depth : nat; m_rd : nat; m_wr : nat; m_layer : nat }.

(** ** FIFO *)
(** rad-sim/example-designs/mlp/modules/fifo.hpp:14-33 : the queue and the signals it drives that are used. *)
Record fifo := { f_mem : list vec; f_empty : bool; f_afull : bool; f_rdata : vec }.

(** rad-sim/example-designs/mlp/modules/fifo.cpp:31-37 : after reset.  rdata still has its initial value. *)
Definition fifo_reset : fifo := {| f_mem := []; f_empty := true; f_afull := false; f_rdata := [] |}.

(** rad-sim/example-designs/mlp/modules/fifo.cpp:40-72.  [None]: the run ends with an error message,
    rad-sim/sim/radsim_telemetry.cpp:186-192. *)
Definition fifo_tick (cap afull_at width : nat) (ren wen : bool) (wdata : vec) (f : fifo) : option fifo :=
  match (if ren then match f_mem f with [] => None | _ :: q => Some q end else Some (f_mem f)) with
  | None => None
  | Some q =>
    match (if wen then if length q =? cap then None else Some (q ++ [wdata]) else Some q) with
    | None => None
    | Some q' => Some {| f_mem := q'; f_empty := match q' with [] => true | _ => false end; f_afull := afull_at <=? length q';
                         f_rdata := match q' with [] => repeat 0%Z width | x :: _ => x end |}
    end
  end.

(** ** Instructions *)
(** rad-sim/example-designs/mlp/modules/instructions.hpp:6-17. *)
Record inst := { i_en : bool; i_jump : bool; i_reduce : bool; i_accum : nat; i_accum_en : bool; i_release : bool; i_raddr : nat;
  i_last : bool; i_layer : Z; i_mvm : Z }.

(** rad-sim/example-designs/mlp/modules/instructions.cpp:3-13. *)
Definition inst0 : inst := {| i_en := false; i_jump := false; i_reduce := false; i_accum := 0; i_accum_en := false; i_release := false; i_raddr := 0;
  i_last := false; i_layer := -1; i_mvm := 0 |}.

(** rad-sim/example-designs/mlp/modules/instructions.cpp:15-19. *)
Definition inst_eqb (a b : inst) : bool :=
  eqb (i_en a) (i_en b) && eqb (i_jump a) (i_jump b) && eqb (i_reduce a) (i_reduce b) && (i_accum a =? i_accum b) && eqb (i_accum_en a) (i_accum_en b) &&
  eqb (i_release a) (i_release b) && (i_raddr a =? i_raddr b) && eqb (i_last a) (i_last b) && (i_layer a =? i_layer b)%Z && (i_mvm a =? i_mvm b)%Z.

(** sc_bv::range(hi, lo).to_uint(), rad-sim/example-designs/mlp/modules/instructions.cpp:22-31. *)
Definition range (x : Z) (hi lo : Z) : Z := ((x / 2 ^ lo) mod 2 ^ (hi - lo + 1))%Z.

(** rad-sim/example-designs/mlp/modules/instructions.cpp:21-32. *)
Definition from_bv (x : Z) : inst :=
  {| i_en := Z.odd (range x 0 0); i_jump := Z.odd (range x 1 1); i_reduce := Z.odd (range x 2 2); i_accum := Z.to_nat (range x 11 3);
     i_accum_en := Z.odd (range x 12 12); i_release := Z.odd (range x 13 13); i_raddr := Z.to_nat (range x 22 14); i_last := Z.odd (range x 23 23);
     i_layer := int5 (range x 28 24); i_mvm := uint5 (range x 33 29) |}.

(** Lanes of a data bus, rad-sim/example-designs/mlp/modules/mvm.cpp:313-316 and 492-495. *)
Definition lanes (n : nat) (x : Z) : vec := map (fun i => int32 (range x (32 * (Z.of_nat i + 1) - 1) (32 * Z.of_nat i))) (seq 0 n).
(** The other direction, rad-sim/example-designs/mlp/modules/mvm.cpp:492-495. *)
Fixpoint bus (v : vec) : Z := match v with [] => 0%Z | x :: r => (x mod 2 ^ 32 + 2 ^ 32 * bus r)%Z end.

(** ** Registers *)
(** A stage of the pipelines that have RF_RD_LATENCY stages, and the first RF_RD_LATENCY stages of those
    with more, rad-sim/example-designs/mlp/modules/mvm.cpp:45-54. *)
Record stage := { s_in : vec; s_red : vec; s_valid : bool; s_accum : nat; s_accum_en : bool; s_release : bool; s_layer : Z; s_mvm : Z }.

(** A stage of result_pipeline with the stage of valid_pipeline, dest_layer_pipeline and dest_mvm_pipeline
    that has RF_RD_LATENCY added to its number; rad-sim/example-designs/mlp/modules/mvm.cpp:47-54. *)
Record rstage := { r_res : vec; r_valid : bool; r_layer : Z; r_mvm : Z }.

(** Initial values of the signals, which reset does not touch; rad-sim/example-designs/mlp/modules/mvm.cpp:202-210. *)
Definition stage0 : stage := {| s_in := []; s_red := []; s_valid := false; s_accum := 0; s_accum_en := false; s_release := false; s_layer := 0; s_mvm := 0 |}.
(** Likewise, rad-sim/example-designs/mlp/modules/mvm.cpp:202-210. *)
Definition rstage0 : rstage := {| r_res := []; r_valid := false; r_layer := 0; r_mvm := 0 |}.

(** A stage of the write pipelines of the register files: write enable, given as the number of the register
    file written, address and data; rad-sim/example-designs/mlp/modules/register_file.hpp:17-20. *)
Record wstage := { w_en : option nat; w_addr : nat; w_data : vec }.
(** rad-sim/example-designs/mlp/modules/register_file.cpp:65-68. *)
Definition wstage0 : wstage := {| w_en := None; w_addr := 0; w_data := [] |}.

(** Everything written by clocked threads: rad-sim/example-designs/mlp/modules/mvm.hpp:49-98 and
    rad-sim/example-designs/mlp/modules/register_file.hpp:15-20.  The register files share their read address. *)
Record regs := {
  g_imem : list inst; g_pc : nat; g_accum : list vec;
  g_ififo : fifo; g_rfifo : fifo; g_ofifo : fifo; g_lfifo : fifo; g_mfifo : fifo;
  g_iwen : bool; g_iwdata : vec; g_rwen : bool; g_rwdata : vec;     (* ififo_wen_signal, reduce_fifo_wen_signal and their data *)
  g_pipe : list stage; g_rpipe : list rstage;
  g_mw : wstage;                                                    (* matrix_mem_wen, matrix_mem_waddr, matrix_mem_wdata *)
  g_raddrs : list nat; g_wpipe : list wstage                        (* raddr_pipeline and the write pipelines *)
}.

(** What the processes Assign drive: rad-sim/example-designs/mlp/modules/mvm.cpp:377-521 (without the strobes) and
    rad-sim/example-designs/mlp/modules/register_file.cpp:46-58. *)
Record wires := {
  c_ready : bool; c_inst : inst; c_raddr : nat; c_iren : bool; c_rren : bool; c_dot : bool; c_dotr : bool;
  c_owen : bool; c_owdata : vec; c_lwdata : vec; c_mwdata : vec;
  c_tvalid : bool; c_tdata : Z; c_tuser : Z; c_tdest : Z * Z; c_oren : bool
}.

(** The register files: contents by number and address, and the signals matrix_mem_rdata;
    rad-sim/example-designs/mlp/modules/register_file.hpp:15-33. *)
Record files := { x_mem : list (list vec); x_rdata : list vec }.

(** What stands at the ports of the engine when an edge comes: rx_interface, tx_interface.tready and, as [e_poke], whether a signal of
    the list at rad-sim/example-designs/mlp/modules/mvm.cpp:176-185 that others drive had changed since the last edge and changed back. *)
Record env := { e_valid : bool; e_tuser : Z; e_tdata : Z; e_ready : bool; e_poke : bool }.

(** rx_interface.tuser.read().range(15, 13), rad-sim/example-designs/mlp/modules/mvm.cpp:301. *)
Definition kind (e : env) : Z := range (e_tuser e) 15 13.

(** The last element of a pipeline: an index of the form latency - 1, as rad-sim/example-designs/mlp/modules/mvm.cpp:249. *)
Definition final {A} (d : A) (l : list A) : A := last l d.

(** A pipeline moves by one stage: rad-sim/example-designs/mlp/modules/mvm.cpp:270-296 and register_file.cpp:90-97. *)
Definition shift {A} (x : A) (l : list A) : list A := x :: removelast l.

Section Mvm.
Variable P : mparams.
Let n := m_dim P.

(** ** Compute *)
(** dot, rad-sim/example-designs/mlp/modules/mvm.cpp:194-200.  [None]: an access behind the end of the second vector. *)
Fixpoint dot_from (acc : Z) (v1 v2 : vec) : option Z :=
  match v1, v2 with
  | [], _ => Some acc
  | a :: r1, b :: r2 => dot_from (int32 (acc + a * b)) r1 r2
  | _ :: _, [] => None
  end.
(** dot, rad-sim/example-designs/mlp/modules/mvm.cpp:194-200. *)
Definition dot (v1 v2 : vec) : option Z := dot_from 0 v1 v2.

(** One element of the result, rad-sim/example-designs/mlp/modules/mvm.cpp:257-262. *)
Definition element (s : stage) (operand : vec) (rdata : list vec) (d : nat) : option Z :=
  match nth_error rdata d, nth_error (s_red s) d with
  | Some row, Some r =>
    match dot (s_in s) row with
    | None => None
    | Some x => let y := int32 (x + r) in if s_accum_en s then match nth_error operand d with Some a => Some (int32 (y + a)) | None => None end else Some y
    end
  | _, _ => None
  end.

(** The loop over the elements, rad-sim/example-designs/mlp/modules/mvm.cpp:256-264. *)
Fixpoint elements (s : stage) (operand : vec) (rdata : list vec) (ds : list nat) : option vec :=
  match ds with
  | [] => Some []
  | d :: r => match element s operand rdata d, elements s operand rdata r with Some x, Some l => Some (x :: l) | _, _ => None end
  end.

(** One element of a vector is assigned, as rad-sim/example-designs/mlp/modules/mvm.cpp:266. *)
Definition upd {A} (l : list A) (i : nat) (x : A) : list A := firstn i l ++ x :: skipn (S i) l.

(** rad-sim/example-designs/mlp/modules/mvm.cpp:249-267 : the result, if there is one, and the accumulation memory.  [None]: an access outside of a memory or vector. *)
Definition compute (s : stage) (accum : list vec) (rdata : list vec) : option (option vec * list vec) :=
  if s_valid s then
    match nth_error accum (s_accum s) with
    | None => None
    | Some operand => match elements s operand rdata (seq 0 n) with Some res => Some (Some res, upd accum (s_accum s) res) | None => None end
    end
  else Some (None, accum).

(** ** The clocked threads *)
(** Stage 0, rad-sim/example-designs/mlp/modules/mvm.cpp:217-247. *)
Definition issue (g : regs) (c : wires) : stage :=
  let full r := {| s_in := f_rdata (g_ififo g); s_red := r; s_valid := true; s_accum := i_accum (c_inst c); s_accum_en := i_accum_en (c_inst c);
                   s_release := i_release (c_inst c); s_layer := i_layer (c_inst c); s_mvm := i_mvm (c_inst c) |} in
  if c_dotr c then full (f_rdata (g_rfifo g))
  else if c_dot c then full (repeat 0%Z n)
  else let s := hd stage0 (g_pipe g) in
    {| s_in := s_in s; s_red := s_red s; s_valid := false; s_accum := s_accum s; s_accum_en := s_accum_en s; s_release := s_release s; s_layer := s_layer s; s_mvm := s_mvm s |}.

(** The next pc, rad-sim/example-designs/mlp/modules/mvm.cpp:228, 241 and 242-244. *)
Definition next_pc (g : regs) (c : wires) : nat :=
  if c_dotr c || c_dot c then g_pc g + 1 else if i_en (c_inst c) && i_jump (c_inst c) then i_raddr (c_inst c) else g_pc g.

(** What the last of the RF_RD_LATENCY stages hands on, rad-sim/example-designs/mlp/modules/mvm.cpp:265 and 281-287. *)
Definition hand_on (s : stage) (res : option vec) (rp : list rstage) : rstage :=
  {| r_res := match res with Some v => v | None => r_res (hd rstage0 rp) end; r_valid := s_valid s && s_release s; r_layer := s_layer s; r_mvm := s_mvm s |}.

(** A transaction is taken from rx_interface, rad-sim/example-designs/mlp/modules/mvm.cpp:298. *)
Definition rx_taken (c : wires) (e : env) : bool := e_valid e && c_ready c.
(** A transaction of kind [k], rad-sim/example-designs/mlp/modules/mvm.cpp:301-338. *)
Definition takes (c : wires) (e : env) (k : Z) : bool := rx_taken c e && (kind e =? k)%Z.

(** rad-sim/example-designs/mlp/modules/mvm.cpp:301-305. *)
Definition imem_write (c : wires) (e : env) (m : list inst) : option (list inst) :=
  if takes c e 1 then let a := Z.to_nat (range (e_tuser e) 8 0) in if a <? length m then Some (upd m a (from_bv (e_tdata e))) else None else Some m.

(** rad-sim/example-designs/mlp/modules/mvm.cpp:338-351. *)
Definition matrix_write (c : wires) (e : env) (w : wstage) : wstage :=
  if takes c e 4 then {| w_en := Some (Z.to_nat (range (e_tuser e) 12 9)); w_addr := Z.to_nat (range (e_tuser e) 8 0); w_data := lanes n (e_tdata e) |}
  else {| w_en := None; w_addr := w_addr w; w_data := w_data w |}.

(** rad-sim/example-designs/mlp/modules/mvm.cpp:130-131 : where ofifo, dl_fifo and dm_fifo count as almost full. *)
Definition ofull : nat := m_fifo P - m_comp P - m_rd P - 4.

(** One edge: mvm::Tick, rad-sim/example-designs/mlp/modules/mvm.cpp:212-374, fifo::Tick of the five FIFOs and register_file::Tick of the register files,
    rad-sim/example-designs/mlp/modules/register_file.cpp:71-100 (clk_en is never driven high, mvm.cpp:392). *)
Definition tick (g : regs) (c : wires) (x : files) (e : env) : option regs :=
  match compute (final stage0 (g_pipe g)) (g_accum g) (x_rdata x), imem_write c e (g_imem g) with
  | Some (res, accum), Some imem =>
    match fifo_tick (m_fifo P) (m_fifo P - 4) n (c_iren c) (g_iwen g) (g_iwdata g) (g_ififo g),
          fifo_tick (m_fifo P) (m_fifo P - 4) n (c_rren c) (g_rwen g) (g_rwdata g) (g_rfifo g),
          fifo_tick (m_fifo P) ofull n (c_oren c) (c_owen c) (c_owdata c) (g_ofifo g),
          fifo_tick (m_fifo P) ofull 1 (c_oren c) (c_owen c) (c_lwdata c) (g_lfifo g),
          fifo_tick (m_fifo P) ofull 1 (c_oren c) (c_owen c) (c_mwdata c) (g_mfifo g) with
    | Some fi, Some fr, Some fo, Some fl, Some fm =>
      if (c_raddr c <? m_depth P) && (w_addr (g_mw g) <? m_depth P) then
        Some {| g_imem := imem; g_pc := next_pc g c; g_accum := accum; g_ififo := fi; g_rfifo := fr; g_ofifo := fo; g_lfifo := fl; g_mfifo := fm;
                g_iwen := takes c e 3; g_iwdata := if takes c e 3 then lanes n (e_tdata e) else g_iwdata g;
                g_rwen := takes c e 2; g_rwdata := if takes c e 2 then lanes n (e_tdata e) else g_rwdata g;
                g_pipe := shift (issue g c) (g_pipe g); g_rpipe := shift (hand_on (final stage0 (g_pipe g)) res (g_rpipe g)) (g_rpipe g);
                g_mw := matrix_write c e (g_mw g);
                g_raddrs := shift (c_raddr c) (g_raddrs g); g_wpipe := shift (g_mw g) (g_wpipe g) |}
      else None
    | _, _, _, _, _ => None
    end
  | _, _ => None
  end.

(** ** The combinational processes *)
(** rx_interface.tready, rad-sim/example-designs/mlp/modules/mvm.cpp:397-410. *)
Definition ready_for (g : regs) (k : Z) : bool :=
  if (k =? 1)%Z then true else if (k =? 2)%Z then negb (f_afull (g_rfifo g)) else if (k =? 3)%Z then negb (f_afull (g_ififo g)) else (k =? 4)%Z.

(** rad-sim/example-designs/mlp/modules/mvm.cpp:415-434. *)
Definition can_dotr (g : regs) (i : inst) : bool :=
  negb (f_empty (g_ififo g)) && negb (f_empty (g_rfifo g)) && negb (f_afull (g_ofifo g)) && i_en i && negb (i_jump i) && i_reduce i.
(** Without partial result, rad-sim/example-designs/mlp/modules/mvm.cpp:426-434. *)
Definition can_dot (g : regs) (i : inst) : bool :=
  negb (f_empty (g_ififo g)) && negb (f_afull (g_ofifo g)) && i_en i && negb (i_jump i) && negb (i_reduce i).

(** dest_layer_int and dest_mvm_int, rad-sim/example-designs/mlp/modules/mvm.cpp:453-463.  They name the receiver: layer 0 is the collector. *)
Definition tx_dest (g : regs) : Z * Z := match f_rdata (g_lfifo g) with [] => (0, 0)%Z | l :: _ => (l, hd 0%Z (f_rdata (g_mfifo g))) end.

(** rad-sim/example-designs/mlp/modules/mvm.cpp:474-488 : same layer, the FIFO of partial results, else the input FIFO. *)
Definition tx_kind (layer : Z) : Z := (if (layer - 1) mod 2 ^ 32 =? Z.of_nat (m_layer P) then 2 else 3)%Z.

(** mvm::Assign, rad-sim/example-designs/mlp/modules/mvm.cpp:397-519.  [None]: pc behind the end of the instruction memory.
    It reads [c_inst], [c_tvalid] as they were before this run. *)
Definition assign (g : regs) (e : env) (c : wires) : option wires :=
  match nth_error (g_imem g) (g_pc g) with
  | None => None
  | Some i =>
    let some_out := negb (length (f_rdata (g_ofifo g)) =? 0) && negb (f_empty (g_ofifo g)) in
    let old := c_inst c in let go := can_dotr g old || can_dot g old in
    let s := final rstage0 (g_rpipe g) in
    Some {| c_ready := ready_for g (kind e); c_inst := i; c_raddr := i_raddr old;
            c_iren := go && i_last old; c_rren := can_dotr g old; c_dot := can_dot g old; c_dotr := can_dotr g old;
            c_owen := r_valid s; c_owdata := r_res s; c_lwdata := [r_layer s]; c_mwdata := [r_mvm s];
            c_tvalid := some_out;
            c_tdata := if some_out then bus (f_rdata (g_ofifo g)) else c_tdata c;
            c_tuser := if some_out then (tx_kind (fst (tx_dest g)) * 2 ^ 13)%Z else c_tuser c;
            c_tdest := if some_out then tx_dest g else c_tdest c;
            c_oren := c_tvalid c && e_ready e |}
  end.

(** The process runs again if it has changed a signal of its own list: tx_interface.tvalid or next_inst; rad-sim/example-designs/mlp/modules/mvm.cpp:177, 181.
    A third run is never due: see [settle_stable] in MvmProofs. *)
Definition settle (g : regs) (e : env) (c : wires) : option wires :=
  match assign g e c with
  | None => None
  | Some c1 => if eqb (c_tvalid c1) (c_tvalid c) && inst_eqb (c_inst c1) (c_inst c) then Some c1 else assign g e c1
  end.

(** A signal of the list at rad-sim/example-designs/mlp/modules/mvm.cpp:176-185 has changed.  ofifo_empty_signal is not in the list. *)
Definition woken (g g' : regs) (e e' : env) : bool :=
  let s := final rstage0 (g_rpipe g) in let s' := final rstage0 (g_rpipe g') in
  negb (eqb (f_afull (g_ofifo g)) (f_afull (g_ofifo g')) && vec_eqb (f_rdata (g_ofifo g)) (f_rdata (g_ofifo g')) && eqb (e_ready e) (e_ready e') &&
        (e_tuser e =? e_tuser e')%Z && eqb (f_afull (g_ififo g)) (f_afull (g_ififo g')) && eqb (f_afull (g_rfifo g)) (f_afull (g_rfifo g')) &&
        vec_eqb (r_res s) (r_res s') && eqb (r_valid s) (r_valid s') && eqb (f_empty (g_ififo g)) (f_empty (g_ififo g')) &&
        eqb (f_empty (g_rfifo g)) (f_empty (g_rfifo g')) && (g_pc g =? g_pc g') &&
        vec_eqb (f_rdata (g_lfifo g)) (f_rdata (g_lfifo g')) && vec_eqb (f_rdata (g_mfifo g)) (f_rdata (g_mfifo g')) &&
        (r_layer s =? r_layer s')%Z && (r_mvm s =? r_mvm s')%Z).

(** register_file::Assign of register file [d] with contents [m], rad-sim/example-designs/mlp/modules/register_file.cpp:46-58; the list is at 35-36. *)
Definition writes (w : wstage) (d : nat) : bool := match w_en w with Some k => k =? d | None => false end.
(** The sensitivity list, rad-sim/example-designs/mlp/modules/register_file.cpp:35-36. *)
Definition file_woken (g g' : regs) (d : nat) : bool :=
  let w := final wstage0 (g_wpipe g) in let w' := final wstage0 (g_wpipe g') in
  negb (vec_eqb (w_data w) (w_data w') && eqb (writes w d) (writes w' d) && (w_addr w =? w_addr w') &&
        (nth (m_wr P - 1) (g_raddrs g) 0 =? nth (m_wr P - 1) (g_raddrs g') 0)).
(** The run, rad-sim/example-designs/mlp/modules/register_file.cpp:46-58. *)
Definition file_assign (g' : regs) (d : nat) (m : list vec) : option (list vec * vec) :=
  let w := final wstage0 (g_wpipe g') in
  match nth_error m (final 0 (g_raddrs g')) with
  | None => None
  | Some row =>
    if writes w d && negb (length (w_data w) =? 0) then
      match nth_error m (w_addr w) with Some _ => Some (upd m (w_addr w) (firstn n (w_data w)), row) | None => None end
    else Some (m, row)
  end.
(** The run if it is woken, rad-sim/example-designs/mlp/modules/register_file.cpp:35-58. *)
Definition file_settle (g g' : regs) (d : nat) (m : list vec) (row : vec) : option (list vec * vec) :=
  if file_woken g g' d then file_assign g' d m else Some (m, row).
(** All register files, from number [d] on; rad-sim/example-designs/mlp/modules/mvm.cpp:75-94. *)
Fixpoint files_settle (g g' : regs) (d : nat) (ms : list (list vec)) (rows : list vec) : option (list (list vec) * list vec) :=
  match ms, rows with
  | m :: mr, row :: rr =>
    match file_settle g g' d m row, files_settle g g' (S d) mr rr with Some (m', row'), Some (ms', rows') => Some (m' :: ms', row' :: rows') | _, _ => None end
  | _, _ => Some ([], [])
  end.

(** ** Executions *)
(** Everything before an edge, with what stands at the ports, rad-sim/example-designs/mlp/modules/mvm.hpp:43-110. *)
Record mstate := { t_regs : regs; t_wires : wires; t_files : files; t_env : env }.

(** A transaction handed over at tx_interface: data, user bits, and layer and number of the receiver; rad-sim/example-designs/mlp/modules/mvm.cpp:496-503. *)
Definition sent := (Z * Z * (Z * Z))%type.
(** What the edge hands over at tx_interface, rad-sim/example-designs/mlp/modules/mvm.cpp:496-519. *)
Definition tx_event (s : mstate) : list sent :=
  if c_tvalid (t_wires s) && e_ready (t_env s) then [(c_tdata (t_wires s), c_tuser (t_wires s), c_tdest (t_wires s))] else [].
(** What it takes from rx_interface, rad-sim/example-designs/mlp/modules/mvm.cpp:298. *)
Definition rx_event (s : mstate) : list (Z * Z) := if rx_taken (t_wires s) (t_env s) then [(e_tuser (t_env s), e_tdata (t_env s))] else [].

(** An edge and the time up to the next one, at which [e'] stands at the ports; the processes are declared at rad-sim/example-designs/mlp/modules/mvm.cpp:176-189. *)
Definition cycle (s : mstate) (e' : env) : option mstate :=
  match tick (t_regs s) (t_wires s) (t_files s) (t_env s) with
  | None => None
  | Some g' =>
    match files_settle (t_regs s) g' 0 (x_mem (t_files s)) (x_rdata (t_files s)),
          (if woken (t_regs s) g' (t_env s) e' || e_poke e' then settle g' e' (t_wires s) else Some (t_wires s)) with
    | Some (ms, rows), Some c' => Some {| t_regs := g'; t_wires := c'; t_files := {| x_mem := ms; x_rdata := rows |}; t_env := e' |}
    | _, _ => None
    end
  end.

(** After reset, with instruction memory [imem] and register files [ms] as loaded by the constructors (rad-sim/example-designs/mlp/modules/mvm.cpp:62-94,
    register_file.cpp:21-32), and [e] at the ports.  The fall of rst wakes Assign. *)
Definition regs0 (imem : list inst) : regs :=
  {| g_imem := imem; g_pc := 0; g_accum := repeat [] (m_depth P); g_ififo := fifo_reset; g_rfifo := fifo_reset; g_ofifo := fifo_reset; g_lfifo := fifo_reset; g_mfifo := fifo_reset;
     g_iwen := false; g_iwdata := []; g_rwen := false; g_rwdata := []; g_pipe := repeat stage0 (m_rd P); g_rpipe := repeat rstage0 (m_comp P);
     g_mw := wstage0; g_raddrs := repeat 0 (m_rd P); g_wpipe := repeat wstage0 (m_wr P) |}.
(** rad-sim/example-designs/mlp/modules/mvm.cpp:379-395 and the initial values of the signals not written there. *)
Definition wires0 : wires :=
  {| c_ready := false; c_inst := inst0; c_raddr := 0; c_iren := false; c_rren := false; c_dot := false; c_dotr := false; c_owen := false; c_owdata := []; c_lwdata := []; c_mwdata := [];
     c_tvalid := false; c_tdata := 0; c_tuser := 0; c_tdest := (0, 0)%Z; c_oren := false |}.
(** Registers and signals after reset, rad-sim/example-designs/mlp/modules/mvm.cpp:202-210 and 379-395. *)
Definition mvm0 (imem : list inst) (ms : list (list vec)) (e : env) : option mstate :=
  match settle (regs0 imem) e wires0 with
  | None => None
  | Some c => Some {| t_regs := regs0 imem; t_wires := c; t_files := {| x_mem := ms; x_rdata := map (fun m => nth 0 m []) ms |}; t_env := e |}
  end.

(** Edges one after the other: what was handed over at tx_interface and taken from rx_interface, and the state, [None] if the run has ended with an error; rad-sim/example-designs/mlp/modules/mvm.cpp:202-521. *)
Fixpoint cycles (s : mstate) (es : list env) : list sent * list (Z * Z) * option mstate :=
  match es with
  | [] => ([], [], Some s)
  | e :: r =>
    match cycle s e with
    | None => (tx_event s, rx_event s, None)
    | Some s' => let '(o, i, s'') := cycles s' r in (tx_event s ++ o, rx_event s ++ i, s'')
    end
  end.
End Mvm.
