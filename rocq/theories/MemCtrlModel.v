(** One channel of the memory controller between its AXI-MM port and the DRAM simulator.
    mem_controller.cpp and .hpp are in rad-sim/sim/dram. *)
From Coq Require Import ZArith Bool List.
Import ListNotations.
Local Open Scope Z_scope.

(** rad-sim/sim/dram/DRAMsim3/src/memory_system.h:13-47 : what the controller uses of the DRAM simulator, for one channel: WillAcceptTransaction,
    AddTransaction and ClockTick, which calls back with an address and whether it is a write.  [None]: the process ends. *)
Record dram := { dr : Type; d_will : dr -> Z -> bool -> bool; d_add : dr -> Z -> bool -> option dr; d_tick : dr -> option (dr * list (Z * bool)) }.

(** mem_controller.cpp:33-153 : the parameters of a channel.  [m_map] is AddressMapping for the channel (298-332), [m_word] is
    _addressable_size_bytes, [m_junk] what front() of an empty queue of outstanding reads yields. *)
Record mcfg := { m_map : Z -> Z; m_word : Z; m_iq : Z; m_oq : Z; m_junk : Z }.

(** rad-sim/sim/noc/aximm_interface.hpp:9-48 : the signals that the module at the other end of the channel drives;
    [i_other] says that a watched signal of another channel changes at the edge. *)
Record minp := {
  i_awvalid : bool; i_awaddr : Z; i_awlen : Z; i_awsize : Z; i_wvalid : bool; i_wdata : Z; i_wuser : Z;
  i_arvalid : bool; i_araddr : Z; i_arlen : Z; i_arsize : Z; i_aruser : Z; i_bready : bool; i_rready : bool; i_other : bool }.

(** mem_controller.hpp:34-67 : the state of a channel.  Counts of _out_of_order_read_requests are unbounded, 0 for an absent entry. *)
Record mst (X : dram) := {
  ms_mem : Z -> option Z;
  ms_waq : list (Z * bool); ms_wdq : list (Z * Z); ms_raq : list (Z * Z * bool);
  ms_owr : list (Z * Z * bool); ms_ord : list (Z * Z * bool); ms_ooo : Z -> nat;
  ms_orr : list (Z * Z * bool); ms_owb : list Z; ms_rbw : bool; ms_dram : dr X;
  ms_waocc : Z; ms_wdocc : Z; ms_raocc : Z; ms_now : Z; ms_nor : Z; ms_owocc : Z; ms_orocc : Z;
  ms_bvalid : bool; ms_buser : Z; ms_rvalid : bool; ms_r : Z * Z * bool;
  ms_awready : bool; ms_wready : bool; ms_arready : bool }.
Arguments ms_mem {X}. Arguments ms_waq {X}. Arguments ms_wdq {X}. Arguments ms_raq {X}. Arguments ms_owr {X}. Arguments ms_ord {X}. Arguments ms_ooo {X}.
Arguments ms_orr {X}. Arguments ms_owb {X}. Arguments ms_rbw {X}. Arguments ms_dram {X}. Arguments ms_waocc {X}. Arguments ms_wdocc {X}. Arguments ms_raocc {X}.
Arguments ms_now {X}. Arguments ms_nor {X}. Arguments ms_owocc {X}. Arguments ms_orocc {X}. Arguments ms_bvalid {X}. Arguments ms_buser {X}. Arguments ms_rvalid {X}.
Arguments ms_r {X}. Arguments ms_awready {X}. Arguments ms_wready {X}. Arguments ms_arready {X}.

(** What is observed of a channel: requests taken from the port (mem_controller.cpp:406-407, 417, 435-436), responses handed over with the signals as the
    other end sees them (452, 457), and words stored (268). *)
Inductive mev := EvAW (addr : Z) (last : bool) | EvW (user data : Z) | EvAR (user addr : Z) (last : bool)
  | EvB (user : Z) | EvR (user data : Z) (last : bool) | EvStore (addr data : Z).

(** Unsigned arithmetic: mem_controller.cpp:395-437, 588-620. *)
Definition u32 (x : Z) : Z := x mod 2 ^ 32.
(** 64-bit arithmetic: mem_controller.cpp:404-405. *)
Definition m_u64 (x : Z) : Z := x mod 2 ^ 64.
(** mem_controller.cpp:395-401, 424-430 : burst_size; the quotient and its ceiling are exact in [double]. *)
Definition burst_size (c : mcfg) (len size : Z) : Z := u32 ((2 ^ size + m_word c - 1) / m_word c * (len + 1)).
(** mem_controller.cpp:402-408, 431-437 : the addresses of a burst and which is the last. *)
Definition slots (c : mcfg) (base len size : Z) : list (Z * bool) :=
  let n := burst_size c len size in
  map (fun b => (m_map c (m_u64 (base + u32 (Z.of_nat b * m_word c))), Z.of_nat b =? n - 1)) (seq 0 (Z.to_nat n)).

Section CHANNEL.
Variable X : dram.
Notation st := (mst X).

(** mem_controller.cpp:187-192, 208-212 : an element of _out_of_order_read_requests is increased or decreased. *)
Definition bump (f : Z -> nat) (a : Z) (g : nat -> nat) : Z -> nat := fun x => if x =? a then g (f x) else f x.
(** mem_controller.cpp:177-183, 214-223 : what is read at an address. *)
Definition word_at (mem : Z -> option Z) (a : Z) : Z := match mem a with Some d => d | None => 0 end.
(** mem_controller.cpp:199-229 : the do-while loop: the responses released, the requests left and the counts left.  [None]: an empty queue is popped. *)
Fixpoint release (junk : Z) (mem : Z -> option Z) (ord : list (Z * Z * bool)) (ooo : Z -> nat) : option (list (Z * Z * bool) * list (Z * Z * bool) * (Z -> nat)) :=
  match ord with
  | [] => match ooo junk with O => Some ([], [], ooo) | S _ => None end
  | (a, resp, last) :: r =>
    match ooo a with
    | O => Some ([], ord, ooo)
    | S _ => match release junk mem r (bump ooo a pred) with
             | None => None
             | Some (l, ord', ooo') => Some ((resp, word_at mem a, last) :: l, ord', ooo')
             end
    end
  end.

(** Assignments to members: the memory and the queues behind the DRAM simulator (mem_controller.hpp:36-59). *)
Definition set_back (s : st) (mem : Z -> option Z) (owr ord : list (Z * Z * bool)) (ooo : Z -> nat) (orr : list (Z * Z * bool)) (owb : list Z) : st :=
  {| ms_mem := mem; ms_waq := ms_waq s; ms_wdq := ms_wdq s; ms_raq := ms_raq s; ms_owr := owr; ms_ord := ord; ms_ooo := ooo; ms_orr := orr; ms_owb := owb;
     ms_rbw := ms_rbw s; ms_dram := ms_dram s; ms_waocc := ms_waocc s; ms_wdocc := ms_wdocc s; ms_raocc := ms_raocc s; ms_now := ms_now s; ms_nor := ms_nor s;
     ms_owocc := ms_owocc s; ms_orocc := ms_orocc s; ms_bvalid := ms_bvalid s; ms_buser := ms_buser s; ms_rvalid := ms_rvalid s; ms_r := ms_r s;
     ms_awready := ms_awready s; ms_wready := ms_wready s; ms_arready := ms_arready s |}.
(** mem_controller.hpp:40-46 : the queues before the DRAM simulator, and the simulator. *)
Definition set_front (s : st) (waq : list (Z * bool)) (wdq : list (Z * Z)) (raq : list (Z * Z * bool)) (d : dr X) (rbw : bool) : st :=
  {| ms_mem := ms_mem s; ms_waq := waq; ms_wdq := wdq; ms_raq := raq; ms_owr := ms_owr s; ms_ord := ms_ord s; ms_ooo := ms_ooo s; ms_orr := ms_orr s; ms_owb := ms_owb s;
     ms_rbw := rbw; ms_dram := d; ms_waocc := ms_waocc s; ms_wdocc := ms_wdocc s; ms_raocc := ms_raocc s; ms_now := ms_now s; ms_nor := ms_nor s;
     ms_owocc := ms_owocc s; ms_orocc := ms_orocc s; ms_bvalid := ms_bvalid s; ms_buser := ms_buser s; ms_rvalid := ms_rvalid s; ms_r := ms_r s;
     ms_awready := ms_awready s; ms_wready := ms_wready s; ms_arready := ms_arready s |}.
(** mem_controller.cpp:411-412, 420, 445-446 : the occupancy signals that Tick writes. *)
Definition set_occ (s : st) (wa wd ra : Z) : st :=
  {| ms_mem := ms_mem s; ms_waq := ms_waq s; ms_wdq := ms_wdq s; ms_raq := ms_raq s; ms_owr := ms_owr s; ms_ord := ms_ord s; ms_ooo := ms_ooo s; ms_orr := ms_orr s; ms_owb := ms_owb s;
     ms_rbw := ms_rbw s; ms_dram := ms_dram s; ms_waocc := wa; ms_wdocc := wd; ms_raocc := ra; ms_now := ms_now s; ms_nor := ms_nor s;
     ms_owocc := ms_owocc s; ms_orocc := ms_orocc s; ms_bvalid := ms_bvalid s; ms_buser := ms_buser s; ms_rvalid := ms_rvalid s; ms_r := ms_r s;
     ms_awready := ms_awready s; ms_wready := ms_wready s; ms_arready := ms_arready s |}.
(** mem_controller.cpp:501-504, 540-543 : the signals that MemTick writes. *)
Definition set_mocc (s : st) (now nor ow or : Z) : st :=
  {| ms_mem := ms_mem s; ms_waq := ms_waq s; ms_wdq := ms_wdq s; ms_raq := ms_raq s; ms_owr := ms_owr s; ms_ord := ms_ord s; ms_ooo := ms_ooo s; ms_orr := ms_orr s; ms_owb := ms_owb s;
     ms_rbw := ms_rbw s; ms_dram := ms_dram s; ms_waocc := ms_waocc s; ms_wdocc := ms_wdocc s; ms_raocc := ms_raocc s; ms_now := now; ms_nor := nor;
     ms_owocc := ow; ms_orocc := or; ms_bvalid := ms_bvalid s; ms_buser := ms_buser s; ms_rvalid := ms_rvalid s; ms_r := ms_r s;
     ms_awready := ms_awready s; ms_wready := ms_wready s; ms_arready := ms_arready s |}.
(** mem_controller.cpp:462-473 : the response signals that Tick writes. *)
Definition set_resp (s : st) (bv rv : bool) (r : Z * Z * bool) : st :=
  {| ms_mem := ms_mem s; ms_waq := ms_waq s; ms_wdq := ms_wdq s; ms_raq := ms_raq s; ms_owr := ms_owr s; ms_ord := ms_ord s; ms_ooo := ms_ooo s; ms_orr := ms_orr s; ms_owb := ms_owb s;
     ms_rbw := ms_rbw s; ms_dram := ms_dram s; ms_waocc := ms_waocc s; ms_wdocc := ms_wdocc s; ms_raocc := ms_raocc s; ms_now := ms_now s; ms_nor := ms_nor s;
     ms_owocc := ms_owocc s; ms_orocc := ms_orocc s; ms_bvalid := bv; ms_buser := ms_buser s; ms_rvalid := rv; ms_r := r;
     ms_awready := ms_awready s; ms_wready := ms_wready s; ms_arready := ms_arready s |}.
(** mem_controller.cpp:606-618 : the signals that Assign writes. *)
Definition set_assign (s : st) (aw w ar : bool) (bu : Z) : st :=
  {| ms_mem := ms_mem s; ms_waq := ms_waq s; ms_wdq := ms_wdq s; ms_raq := ms_raq s; ms_owr := ms_owr s; ms_ord := ms_ord s; ms_ooo := ms_ooo s; ms_orr := ms_orr s; ms_owb := ms_owb s;
     ms_rbw := ms_rbw s; ms_dram := ms_dram s; ms_waocc := ms_waocc s; ms_wdocc := ms_wdocc s; ms_raocc := ms_raocc s; ms_now := ms_now s; ms_nor := ms_nor s;
     ms_owocc := ms_owocc s; ms_orocc := ms_orocc s; ms_bvalid := ms_bvalid s; ms_buser := bu; ms_rvalid := ms_rvalid s; ms_r := ms_r s;
     ms_awready := aw; ms_wready := w; ms_arready := ar |}.

(** mem_controller.cpp:170-256 : MemReadCallback; [None]: the assertion fails or an empty queue is popped. *)
Definition read_callback (c : mcfg) (s : st) (a : Z) : option st :=
  match ms_ord s with
  | [] => None
  | (fa, resp, last) :: r =>
    if fa =? a then
      match release (m_junk c) (ms_mem s) r (ms_ooo s) with
      | None => None
      | Some (l, ord, ooo) =>
        let out := (resp, word_at (ms_mem s) a, last) :: l in
        Some (set_back s (ms_mem s) (ms_owr s) ord ooo (ms_orr s ++ out) (ms_owb s))
      end
    else Some (set_back s (ms_mem s) (ms_owr s) (ms_ord s) (bump (ms_ooo s) a S) (ms_orr s) (ms_owb s))
  end.
(** mem_controller.cpp:258-270 : MemWriteCallback; [None]: the assertion fails. *)
Definition write_callback (s : st) (a : Z) : option (st * list mev) :=
  match ms_owr s with
  | [] => None
  | (resp, data, last) :: r =>
    Some (set_back s (fun x => if x =? a then Some data else ms_mem s x) r (ms_ord s) (ms_ooo s) (ms_orr s) (if last : bool then ms_owb s ++ [resp] else ms_owb s), [EvStore a data])
  end.
(** rad-sim/sim/dram/DRAMsim3/src/dram_system.cc:147-156 : the callbacks of one ClockTick. *)
Fixpoint callbacks (c : mcfg) (l : list (Z * bool)) (s : st) : option (st * list mev) :=
  match l with
  | [] => Some (s, [])
  | (a, w) :: r =>
    match (if w : bool then write_callback s a else match read_callback c s a with None => None | Some s1 => Some (s1, []) end) with
    | None => None
    | Some (s1, e1) => match callbacks c r s1 with None => None | Some (s2, e2) => Some (s2, e1 ++ e2) end
    end
  end.

(** mem_controller.cpp:377-446 : requests are accepted. *)
Definition tick_accept (c : mcfg) (i : minp) (s : st) : st * list mev :=
  let rd_ok := (Z.of_nat (length (ms_raq s)) <? m_iq c) && (Z.of_nat (length (ms_ord s)) + Z.of_nat (length (ms_orr s)) <? m_oq c) in
  let wr_ok := Z.of_nat (length (ms_owr s)) + Z.of_nat (length (ms_owb s)) <? m_oq c in
  let aw := if i_awvalid i && (ms_waocc s <? m_iq c) then slots c (i_awaddr i) (i_awlen i) (i_awsize i) else [] in
  let w := if i_wvalid i && ((0 <? ms_waocc s) && (ms_wdocc s <? m_iq c) && wr_ok) then [(i_wuser i, i_wdata i)] else [] in
  let ar := if i_arvalid i && rd_ok then map (fun x : Z * bool => (i_aruser i, fst x, snd x)) (slots c (i_araddr i) (i_arlen i) (i_arsize i)) else [] in
  let s1 := set_front s (ms_waq s ++ aw) (ms_wdq s ++ w) (ms_raq s ++ ar) (ms_dram s) (ms_rbw s) in
  (set_occ s1 (Z.of_nat (length (ms_waq s1))) (Z.of_nat (length (ms_wdq s1))) (Z.of_nat (length (ms_raq s1))),
   map (fun x : Z * bool => EvAW (fst x) (snd x)) aw ++ map (fun x : Z * Z => EvW (fst x) (snd x)) w ++ map (fun x : Z * Z * bool => EvAR (fst (fst x)) (snd (fst x)) (snd x)) ar).
(** mem_controller.cpp:350-488 : one round of Tick; [None]: an empty queue is popped. *)
Definition tick (c : mcfg) (i : minp) (s : st) : option (st * list mev) :=
  let '(s1, e1) := tick_accept c i s in
  match (if ms_bvalid s && i_bready i then match ms_owb s1 with [] => None | _ :: r => Some (r, [EvB (ms_buser s)]) end else Some (ms_owb s1, [])) with
  | None => None
  | Some (owb, e2) =>
    match (if ms_rvalid s && i_rready i then match ms_orr s1 with [] => None | _ :: r => Some (r, [EvR (fst (fst (ms_r s))) (snd (fst (ms_r s))) (snd (ms_r s))]) end else Some (ms_orr s1, [])) with
    | None => None
    | Some (orr, e3) =>
      let s2 := set_back s1 (ms_mem s1) (ms_owr s1) (ms_ord s1) (ms_ooo s1) orr owb in
      Some (set_resp s2 (match owb with [] => false | _ => true end) (match orr with [] => false | _ => true end) (match orr with [] => ms_r s2 | x :: _ => x end), e1 ++ e2 ++ e3)
    end
  end.

(** mem_controller.cpp:511-523, 563-574 : issue a read. *)
Definition issue_read (s : st) : option st :=
  match ms_raq s with
  | [] => Some s
  | (resp, a, last) :: r =>
    if d_will X (ms_dram s) a false then
      match d_add X (ms_dram s) a false with
      | None => None
      | Some d => let s1 := set_front s (ms_waq s) (ms_wdq s) r d (ms_rbw s) in
                  Some (set_back s1 (ms_mem s1) (ms_owr s1) (ms_ord s1 ++ [(a, resp, last)]) (ms_ooo s1) (ms_orr s1) (ms_owb s1))
      end
    else Some s
  end.
(** mem_controller.cpp:525-538, 549-561 : issue a write; [None]: front() of an empty address queue. *)
Definition issue_write (s : st) : option st :=
  match ms_wdq s with
  | [] => Some s
  | (resp, data) :: r =>
    match ms_waq s with
    | [] => None
    | (a, last) :: q =>
      if d_will X (ms_dram s) a true then
        match d_add X (ms_dram s) a true with
        | None => None
        | Some d => let s1 := set_front s q r (ms_raq s) d (ms_rbw s) in
                    Some (set_back s1 (ms_mem s1) (ms_owr s1 ++ [(resp, data, last)]) (ms_ord s1) (ms_ooo s1) (ms_orr s1) (ms_owb s1))
        end
      else Some s
    end
  end.
(** mem_controller.cpp:539-543, 575-579 : the counters of outstanding requests. *)
Definition count_outstanding (s : st) : st := set_mocc s (Z.of_nat (length (ms_owr s))) (Z.of_nat (length (ms_ord s))) (ms_owocc s) (ms_orocc s).
(** mem_controller.cpp:509-583 : reads and writes take turns in going first. *)
Definition issue (s : st) : option st :=
  if ms_rbw s then
    match (match ms_raq s with [] => issue_write s | _ => issue_read s end) with None => None | Some s1 => Some (count_outstanding s1) end
  else match ms_wdq s with
       | [] => match ms_raq s with
               | [] => Some s
               | _ => match issue_read s with None => None | Some s1 => Some (count_outstanding s1) end
               end
       | _ => issue_write s
       end.
(** mem_controller.cpp:490-586 : one round of MemTick. *)
Definition mem_tick (c : mcfg) (s : st) : option (st * list mev) :=
  let s0 := set_mocc s (ms_now s) (ms_nor s) (Z.of_nat (length (ms_owb s))) (Z.of_nat (length (ms_orr s))) in
  match d_tick X (ms_dram s0) with
  | None => None
  | Some (d, l) =>
    match callbacks c l (set_front s0 (ms_waq s0) (ms_wdq s0) (ms_raq s0) d (ms_rbw s0)) with
    | None => None
    | Some (s1, e) =>
      match issue s1 with
      | None => None
      | Some s2 => Some (set_front s2 (ms_waq s2) (ms_wdq s2) (ms_raq s2) (ms_dram s2) (negb (ms_rbw s2)), e)
      end
    end
  end.

(** mem_controller.cpp:588-620 : Assign, without reset. *)
Definition assign (c : mcfg) (s : st) : st :=
  let lim q := u32 (q - 16) in
  set_assign s (ms_waocc s <? lim (m_iq c))
    ((0 <? ms_waocc s) && (ms_wdocc s <? lim (m_iq c)) && (u32 (ms_now s + ms_owocc s) <? lim (m_oq c)))
    ((ms_raocc s <? lim (m_iq c)) && (u32 (ms_nor s + ms_orocc s) <? lim (m_oq c)))
    (match ms_owb s with [] => ms_buser s | u :: _ => u end).
(** mem_controller.cpp:134-144 : the signals to which Assign is sensitive. *)
Definition watched (s : st) : list Z := [ms_waocc s; ms_raocc s; ms_wdocc s; ms_now s; ms_nor s; ms_owocc s; ms_orocc s].
(** mem_controller.cpp:134-144 : some watched signal has changed. *)
Definition changed (s s' : st) : bool := if list_eq_dec Z.eq_dec (watched s) (watched s') then false else true.

(** mem_controller.cpp:145-148 : a clock edge.  The two threads run in either order, then Assign if a signal has changed. *)
Definition edge (c : mcfg) (tick_first : bool) (i : minp) (s : st) : option (st * list mev) :=
  match (if tick_first
         then match tick c i s with None => None | Some (s1, e1) => match mem_tick c s1 with None => None | Some (s2, e2) => Some (s2, e1 ++ e2) end end
         else match mem_tick c s with None => None | Some (s1, e1) => match tick c i s1 with None => None | Some (s2, e2) => Some (s2, e1 ++ e2) end end) with
  | None => None
  | Some (s2, e) => Some (if i_other i || changed s s2 then assign c s2 else s2, e)
  end.
(** mem_controller.cpp:350-374, 490-497, 588-594 : the state after reset, when Assign has run; [mem] is the initial contents. *)
Definition mst0 (c : mcfg) (mem : Z -> option Z) (d : dr X) : st :=
  assign c {| ms_mem := mem; ms_waq := []; ms_wdq := []; ms_raq := []; ms_owr := []; ms_ord := []; ms_ooo := fun _ => O; ms_orr := []; ms_owb := [];
     ms_rbw := true; ms_dram := d; ms_waocc := 0; ms_wdocc := 0; ms_raocc := 0; ms_now := 0; ms_nor := 0; ms_owocc := 0; ms_orocc := 0;
     ms_bvalid := false; ms_buser := 0; ms_rvalid := false; ms_r := (0, 0, false); ms_awready := false; ms_wready := false; ms_arready := false |}.
End CHANNEL.
