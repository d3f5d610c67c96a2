(** The example designs add and mult: rad-sim/example-designs/add and rad-sim/example-designs/mult.  A driver gives numbers to a client, which sends them over the NoC to an adder (a multiplier);
    the driver compares the response.  Driver and modules have the same clock, rad-sim/example-designs/add/config.yml:6 and 38, rad-sim/example-designs/mult/config.yml:5 and 37.
    Reset is over: rad-sim/example-designs/add/add_driver.cpp:36-42. *)
From Coq Require Import ZArith Arith Bool List.
From Verif Require Import Fupd BufferModel IqRouterModel NetModel TermModel AxisSlaveModel AxisMasterModel SysModel SysSpec MvmModel.
Import ListNotations.
Open Scope nat_scope.

(** ** The FIFO of the client *)
(** mem and the signals empty, almost_full and rdata, rad-sim/example-designs/add/modules/fifo.hpp:10-29. *)
Record peek (A : Type) := { q_mem : list A; q_empty : bool; q_afull : bool; q_rdata : A }.
Arguments q_mem {A}. Arguments q_empty {A}. Arguments q_afull {A}. Arguments q_rdata {A}.
(** rad-sim/example-designs/add/modules/fifo.cpp:30-36; rdata has the first value of a signal. *)
Definition peek0 {A} (z : A) : peek A := {| q_mem := []; q_empty := true; q_afull := false; q_rdata := z |}.
(** rad-sim/example-designs/add/modules/fifo.cpp:39-64; [None] for underflow and overflow, which are reported as errors. *)
Definition peek_tick {A} (z : A) (cap afull_at : nat) (ren wen : bool) (wdata : A) (f : peek A) : option (peek A) :=
  match (if ren then match q_mem f with [] => None | _ :: r => Some r end else Some (q_mem f)) with
  | None => None
  | Some q => if wen && (length q =? cap) then None
              else let q' := if wen then q ++ [wdata] else q in Some {| q_mem := q'; q_empty := length q' =? 0; q_afull := afull_at <=? length q'; q_rdata := hd z q' |}
  end.

(** ** Driver and client *)
(** numbers_to_send, the signals client_valid, client_tdata and client_tlast, and the two FIFOs; rad-sim/example-designs/add/add_driver.hpp:14-31 and modules/client.hpp:17-40. *)
Record cstate := { k_left : list Z; k_valid : bool; k_data : Z; k_last : bool; k_dq : peek Z; k_lq : peek bool }.
(** rad-sim/example-designs/add/add_driver.cpp:19-25 and 36-42, modules/client.cpp:73-78. *)
Definition client0 (nums : list Z) : cstate := {| k_left := nums; k_valid := false; k_data := 0; k_last := false; k_dq := peek0 0%Z; k_lq := peek0 false |}.
(** What the client shows at its interface, rad-sim/example-designs/add/modules/client.cpp:80-102: data and tlast if tvalid is high. *)
Definition offer (c : cstate) : option (Z * bool) := if q_empty (k_dq c) then None else Some (q_rdata (k_dq c), q_rdata (k_lq c)).
(** An edge: the source thread of the driver, rad-sim/example-designs/add/add_driver.cpp:44-57, and the FIFOs with the signals of the client, rad-sim/example-designs/add/modules/client.cpp:104-113, of
    depth 16 and almost full at 15, rad-sim/example-designs/add/modules/client.cpp:12-25 and modules/client.hpp:11; an int in an sc_bv<128>, modules/fifo.hpp:8. *)
Definition client_edge (c : cstate) (tready : bool) : option cstate :=
  let ready := negb (q_afull (k_dq c)) in
  let ren := negb (q_empty (k_dq c)) && tready in
  let wen := ready && k_valid c in
  match peek_tick 0%Z 16 15 ren wen (k_data c) (k_dq c), peek_tick false 16 15 ren wen (k_last c) (k_lq c) with
  | Some d, Some l =>
      let left := if k_valid c && ready then tl (k_left c) else k_left c in
      Some match left with
           | [] => {| k_left := []; k_valid := false; k_data := k_data c; k_last := k_last c; k_dq := d; k_lq := l |}
           | x :: _ => {| k_left := left; k_valid := true; k_data := (x mod 2 ^ 128)%Z; k_last := length left <=? 1; k_dq := d; k_lq := l |}
           end
  | _, _ => None
  end.
(** What an edge hands over, rad-sim/example-designs/add/modules/client.cpp:109-112. *)
Definition handed (c : cstate) (tready : bool) : list (Z * bool) := if tready then match offer c with Some x => [x] | None => [] end else [].
(** Edges one after the other, with tready of the NoC; rad-sim/example-designs/add/add_driver.cpp:44-57. *)
Fixpoint client_run (c : cstate) (l : list bool) : list (Z * bool) * option cstate :=
  match l with
  | [] => ([], Some c)
  | r :: q => match client_edge c r with None => (handed c r, None) | Some c' => let '(o, f) := client_run c' q in (handed c r ++ o, f) end
  end.

(** ** Adder or multiplier, and the driver's comparison *)
(** rad-sim/example-designs/add/modules/adder.cpp:51 and rad-sim/example-designs/mult/modules/mult.cpp:47. *)
Inductive op := Plus | Times.
(** rad-sim/example-designs/add/modules/adder.cpp:51 and rad-sim/example-designs/mult/modules/mult.cpp:47. *)
Definition apply_op (f : op) : Z -> Z -> Z := match f with Plus => Z.add | Times => Z.mul end.
(** rad-sim/example-designs/add/modules/adder.cpp:28 and rad-sim/example-designs/mult/modules/mult.cpp:24. *)
Definition start (f : op) : Z := match f with Plus => 0%Z | Times => 1%Z end.
(** adder_rolling_sum, the signals t_finished, response_valid and response, and what the sink thread printed: SUCCESS or FAILURE; rad-sim/example-designs/add/modules/adder.hpp:11-21 and add_driver.cpp:60-72. *)
Record astate := { d_sum : Z; d_fin : bool; d_valid : bool; d_resp : Z; d_verdict : option bool }.
(** rad-sim/example-designs/add/modules/adder.cpp:27-29 and 37-38. *)
Definition adder0 (f : op) : astate := {| d_sum := start f; d_fin := false; d_valid := false; d_resp := 0; d_verdict := None |}.
(** rad-sim/example-designs/add/add_driver.cpp:17-25 : actual_sum, an int to which an unsigned number is added; rad-sim/example-designs/mult/mult_driver.cpp:16-25. *)
Definition actual (f : op) (nums : list Z) : Z := fold_left (fun a x => int32 (apply_op f a x)) nums (start f).
(** An edge, with the transaction taken: rad-sim/example-designs/add/modules/adder.cpp:44-65 and the sink thread, add_driver.cpp:61-72.  tready is high, adder.cpp:31-32.  sc_bv<128> and an int
    are compared with the int extended to 128 bits. *)
Definition adder_edge (f : op) (nums : list Z) (a : astate) (rx : option (Z * bool)) : astate :=
  let sum := match rx with Some (x, _) => (apply_op f (d_sum a mod 2 ^ 64) (x mod 2 ^ 64) mod 2 ^ 64)%Z | None => d_sum a end in
  {| d_sum := sum; d_fin := match rx with Some (_, l) => l | None => d_fin a end;
     d_valid := d_fin a || d_valid a; d_resp := if d_fin a then sum else d_resp a;
     d_verdict := match d_verdict a with Some v => Some v | None => if d_valid a then Some (d_resp a =? actual f nums mod 2 ^ 128)%Z else None end |}.
(** Edges one after the other, rad-sim/example-designs/add/modules/adder.cpp:44-65. *)
Definition adder_run (f : op) (nums : list Z) (l : list (option (Z * bool))) : astate := fold_left (adder_edge f nums) l (adder0 f).

(** ** The whole design *)
(** The nodes of client and adder, rad-sim/example-designs/add/add.place:1-2, and the destination and user bits the client sends, rad-sim/example-designs/add/modules/client.cpp:83-96. *)
Record place := { p_client : nat; p_adder : nat; p_dest : Z; p_user : Z }.
Section Design.
Context {P : bpolicy} (w : netcfg) (rf : nat -> nat -> flit -> list RouteModel.oelem) (cs : Z -> scfg) (ms : nat -> mcfg) (pl : place) (f : op) (nums : list Z).
(** rad-sim/example-designs/add/modules/client.cpp:91-98. *)
Definition shown (c : cstate) : option txn :=
  match offer c with Some (x, l) => Some {| t_data := x; t_user := p_user pl; t_last := l; t_dest := p_dest pl; t_tid := 0 |} | None => None end.
(** The modules are connected to the adapters: no other module sends, and the adder is always ready; rad-sim/example-designs/add/add_top.cpp:14-32 and modules/adder.cpp:31-32. *)
Definition connected (g : ginst) (c : cstate) : ginst :=
  {| g_acts := g_acts g; g_inp := fun n i => if (n =? p_client pl) && (i =? 0) then shown c else None; g_id := g_id g; g_rdy := fun _ _ => true; g_now := g_now g; g_clk := g_clk g |}.
(** The thread of the slave adapter that takes transactions and the one of the master adapter that shows them have the clock of the module, rad-sim/sim/noc/axis_slave_adapter.cpp:62 and
    rad-sim/sim/noc/axis_master_adapter.cpp:56. *)
Definition client_clock (l : list act) : bool := existsb (fun a => match a with AS n TIface => n =? p_client pl | _ => false end) l.
(** rad-sim/sim/noc/axis_master_adapter.cpp:56. *)
Definition adder_clock (l : list act) : bool := existsb (fun a => match a with AM n TOut => n =? p_adder pl | _ => false end) l.
(** The parts of the design, rad-sim/example-designs/add/add_system.cpp:6-26. *)
Record design := mkD { z_sys : sys P; z_client : cstate; z_adder : astate }.
(** rad-sim/example-designs/add/add_system.cpp:6-26. *)
Definition design0 : design := mkD (sys0 w cs ms) (client0 nums) (adder0 f).
(** An instant, rad-sim/example-designs/add/add_system.cpp:6-26: adapters and NoC, and the modules whose clocks have an edge. *)
Definition design_step (g : ginst) (d : design) : option (design * list sobs) :=
  match sys_step w rf cs ms (connected g (z_client d)) (z_sys d) with
  | Some (s, o) =>
      let taken := match sent_by (Z.of_nat (p_client pl)) o with [] => false | _ => true end in
      match (if client_clock (g_acts g) then client_edge (z_client d) taken else Some (z_client d)) with
      | Some c => Some (mkD s c (if adder_clock (g_acts g) then adder_edge f nums (z_adder d) (option_map (fun a => (a_data a, a_last a)) (head (seen_at (p_adder pl) 0 o))) else z_adder d), o)
      | None => None
      end
  | None => None
  end.
(** Instants one after the other, rad-sim/example-designs/add/add_system.cpp:6-26. *)
Fixpoint design_run (gs : list ginst) (d : design) : option (design * list sobs) :=
  match gs with
  | [] => Some (d, [])
  | g :: r => match design_step g d with
              | Some (d1, o1) => match design_run r d1 with Some (d2, o2) => Some (d2, o1 ++ o2) | None => None end
              | None => None
              end
  end.
End Design.
Arguments mkD {P}. Arguments z_sys {P}. Arguments z_client {P}. Arguments z_adder {P}. Arguments design0 {P}.
