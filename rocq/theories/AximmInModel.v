(** Input side of the two AXI-MM NoC adapters: requests (AR, AW, W) into the slave adapter,
    rad-sim/sim/noc/aximm_slave_adapter.cpp:87-454, and responses (R, B) into the master
    adapter, rad-sim/sim/noc/aximm_master_adapter.cpp:364-647.

    An execution is a list of instants.  At one instant any subset of the three clocks may
    have a rising edge and the woken threads run in any order ([x_ths]).  Signals read by a
    thread have the values from before the instant, FIFO operations take effect at once. *)
From Coq Require Import ZArith Bool List.
From Verif Require Import Bits VcModel AddrModel AximmFormatModel.
Import ListNotations.
Local Open Scope Z_scope.

(** The two adapters, rad-sim/sim/noc/aximm_slave_adapter.cpp:5 and
    rad-sim/sim/noc/aximm_master_adapter.cpp:3. *)
Inductive xside := Slave | Master.

(** rad-sim/sim/noc/aximm_slave_adapter.cpp:13-48 and
    rad-sim/sim/noc/aximm_master_adapter.cpp:11-63 : parameters fixed at construction. *)
Record xcfg := {
  xc_side : xside;
  xc_w : xwidths;
  xc_vcidw : Z;            (* NOC_LINKS_VCID_WIDTH *)
  xc_vc : vcranges;        (* the virtual channel ranges of _noc_config *)
  xc_node : Z;             (* _node_id *)
  xc_dw : Z;               (* _interface_dataw *)
  xc_ratio : Z;            (* _freq_ratio *)
  xc_depth : Z             (* _injection_afifo_depth *)
}.

(** rad-sim/sim/noc/aximm_slave_adapter.cpp:34-41 : _max_flits_per_transaction.  The quotient is
    one of integers, so [ceil] has no effect. *)
Definition max_flits (c : xcfg) : Z :=
  let d := xc_dw c + respw + 1 in
  let w := if d <? addrw + ctrlw then addrw + ctrlw else d in
  (x_userw (xc_w c) + w) / x_linkw (xc_w c).

(** rad-sim/sim/noc/sc_flit.hpp:22-33 : the type fits its 3 bits and, used as interface, its 5 bits. *)
Record xflit := {
  xf_head : bool; xf_tail : bool; xf_type : xtype; xf_vc : Z; xf_dest : Z; xf_iface : xtype;
  xf_pid : Z; xf_sid : Z; xf_payload : Z }.

(** The fields of the BookSim flit, rad-sim/sim/noc/aximm_slave_adapter.cpp:398-418. *)
Record xbflit := { xb_src : Z; xb_flit : xflit }.

(** Numbers of the types, rad-sim/sim/noc/booksim/flit.hpp:42-47 and
    rad-sim/sim/radsim_defines.hpp:58-62. *)
Definition type_num (t : xtype) : Z :=
  match t with AR => tAR | AW => tAW | W => tW | R => tR | B => tB end.

(** A transaction offered at one of the channels,
    rad-sim/sim/noc/aximm_interface.hpp:9-48. *)
Inductive xtxn := XAR (h : addr_ch) | XAW (h : addr_ch) | XW (w : w_ch) | XR (x : r_ch) | XB (x : b_ch).

(** What stands on the input channels, [None] being a low valid signal;
    rad-sim/sim/noc/aximm_interface.hpp:9-48. *)
Record offers := {
  of_ar : option addr_ch; of_aw : option addr_ch; of_w : option w_ch;
  of_r : option r_ch; of_b : option b_ch }.

(** The valid signals in the order of the ready logic below: AR, AW, W of
    rad-sim/sim/noc/aximm_slave_adapter.cpp:52-53 or R, B of
    rad-sim/sim/noc/aximm_master_adapter.cpp:67-68. *)
Definition valids (k : xside) (o : offers) : bool * bool * bool :=
  let is {A} (x : option A) := match x with Some _ => true | None => false end in
  match k with
  | Slave => (is (of_ar o), is (of_aw o), is (of_w o))
  | Master => (is (of_r o), is (of_b o), false)
  end.

(** The signals that InputReady is sensitive to, rad-sim/sim/noc/aximm_slave_adapter.cpp:52-54. *)
Record sens := { se_full : bool; se_valid : bool * bool * bool; se_prio : Z; se_cyc : Z }.

(** rad-sim/sim/noc/aximm_slave_adapter.cpp:102-127 : the ready variables of the slave adapter. *)
Definition ready_slave (prio : Z) (full : bool) (v : bool * bool * bool) (got : bool) : bool * bool * bool :=
  let '(arv, awv, wv) := v in
  if prio =? 0 then
    let ar := negb full && arv in
    let flag := ar in
    let aw := negb full && negb flag && awv in
    let flag := flag || aw in
    let w := negb full && negb flag && wv && got in
    (ar, aw, w)
  else if prio =? 1 then
    let aw := negb full && awv in
    let flag := aw in
    let w := negb full && negb flag && wv && got in
    let flag := flag || w in
    let ar := negb full && negb flag && arv in
    (ar, aw, w)
  else
    let w := negb full && wv && got in
    let flag := w in
    let ar := negb full && negb flag && arv in
    let flag := flag || ar in
    let aw := negb full && negb flag && awv in
    (ar, aw, w).

(** rad-sim/sim/noc/aximm_master_adapter.cpp:375-383 : the ready variables of the master adapter. *)
Definition ready_master (prio : Z) (full : bool) (v : bool * bool * bool) : bool * bool * bool :=
  let '(rv, bv, _) := v in
  if prio =? 0 then
    let r := negb full && rv in
    let b := negb full && negb r && bv in
    (r, b, false)
  else
    let b := negb full && bv in
    let r := negb full && negb b && rv in
    (r, b, false).

(** rad-sim/sim/noc/aximm_slave_adapter.cpp:131-133 and
    rad-sim/sim/noc/aximm_master_adapter.cpp:387 : the assertions. *)
Definition ready_assert (k : xside) (r : bool * bool * bool) : bool :=
  let '(a, b, w) := r in
  match k with
  | Slave => (xorb (xorb a b) w && negb (a && b && w)) || (negb a && negb b && negb w)
  | Master => negb (a && b)
  end.

(** rad-sim/sim/noc/aximm_slave_adapter.cpp:92-138, rad-sim/sim/noc/aximm_master_adapter.cpp:367-391 :
    InputReady outside of reset: the ready signals, [None] when the assertion fails. *)
Definition eval_ready (k : xside) (got : bool) (s : sens) : option (bool * bool * bool) :=
  let r := match k with
           | Slave => ready_slave (se_prio s) (se_full s) (se_valid s) got
           | Master => ready_master (se_prio s) (se_full s) (se_valid s)
           end in
  if ready_assert k r then
    let z := se_cyc s =? 0 in
    let '(a, b, w) := r in Some (z && a, z && b, z && w)
  else None.

(** rad-sim/sim/noc/aximm_slave_adapter.hpp:90-99,107,112 : signals written by InputInterface. *)
Record npart := { regs : xregs; valid : bool; got : bool; iprio : Z }.
(** rad-sim/sim/noc/aximm_slave_adapter.hpp:108,118-119,124 : signals written by InputPacketization. *)
Record apart := { pcyc : Z; nfl : Z; full : bool; awdest : Z }.
(** rad-sim/sim/noc/aximm_slave_adapter.hpp:75-135 : the state.  [seen] are the sensitive signals at
    the last run of InputReady ([None]: not run since reset) and [rdy] the ready signals it wrote. *)
Record xst := {
  nd : npart; ad : apart;
  injq : list xflit;        (* _injection_afifo *)
  itobe : option xflit;     (* _to_be_injected_flit when _injection_flit_ready *)
  rdy : bool * bool * bool; seen : option sens }.

(** rad-sim/sim/noc/aximm_slave_adapter.cpp:143-156,271-276,374-376 : state after reset. *)
Definition x_init : xst :=
  {| nd := {| regs := regs0; valid := false; got := false; iprio := 0 |};
     ad := {| pcyc := 0; nfl := 0; full := false; awdest := 0 |};
     injq := []; itobe := None; rdy := (false, false, false); seen := None |}.

(** rad-sim/sim/noc/aximm_slave_adapter.cpp:55-60 : the clocked threads. *)
Inductive xthread := TNode | TAdapt | TNoc.

(** rad-sim/sim/noc/aximm_slave_adapter.cpp:52-60,186,392-396 : what the environment does at
    one instant: clock edges, the offers, the id that telemetry
    hands out, whether the injection buffer takes a
    flit, and whether a valid signal changed for a while since the last instant,
    which runs InputReady again. *)
Record xinstant := {
  x_ths : list xthread; x_off : offers; x_newid : Z; x_can : bool; x_wake : bool }.

(** Handshakes seen at the interface, and flits given to the NoC:
    rad-sim/sim/noc/aximm_slave_adapter.cpp:161,192,225,431. *)
Inductive xobs := Acc (t : xtxn) (sid : Z) | Inj (f : xbflit).

(** The sensitive signals now, rad-sim/sim/noc/aximm_slave_adapter.cpp:52-54. *)
Definition sens_now (c : xcfg) (ev : xinstant) (s : xst) : sens :=
  {| se_full := full (ad s); se_valid := valids (xc_side c) (x_off ev);
     se_prio := iprio (nd s); se_cyc := pcyc (ad s) |}.

(** Comparison of the sensitive signals, rad-sim/sim/noc/aximm_slave_adapter.cpp:52-54. *)
Definition sens_eqb (a b : sens) : bool :=
  let '(a1, a2, a3) := se_valid a in
  let '(b1, b2, b3) := se_valid b in
  eqb (se_full a) (se_full b) && eqb a1 b1 && eqb a2 b2 && eqb a3 b3 &&
  (se_prio a =? se_prio b) && (se_cyc a =? se_cyc b).

(** InputReady runs when one of its signals has changed, rad-sim/sim/noc/aximm_slave_adapter.cpp:51-54. *)
Definition settle (c : xcfg) (ev : xinstant) (s : xst) : option xst :=
  let n := sens_now c ev s in
  let same := match seen s with Some o => sens_eqb o n | None => false end in
  if same && negb (x_wake ev) then Some s else
  match eval_ready (xc_side c) (got (nd s)) n with
  | None => None
  | Some r => Some {| nd := nd s; ad := ad s; injq := injq s; itobe := itobe s; rdy := r; seen := Some n |}
  end.

(** rad-sim/sim/noc/aximm_slave_adapter.cpp:159-255 and
    rad-sim/sim/noc/aximm_master_adapter.cpp:417-468 : InputInterface; [old] has the signals. *)
Definition input_interface (c : xcfg) (ev : xinstant) (old : xst) : npart :=
  let '(r1, r2, r3) := rdy old in
  let n := nd old in
  let o := x_off ev in
  let w := xc_w c in
  let id := x_newid ev in
  match xc_side c with
  | Slave =>
    match (if r1 then of_ar o else None) with
    | Some h => {| regs := cap_addr w AR h id (regs n); valid := true; got := got n; iprio := 1 |}
    | None =>
    match (if r2 then of_aw o else None) with
    | Some h => {| regs := cap_addr w AW h id (regs n); valid := true; got := true; iprio := 2 |}
    | None =>
    match (if r3 && got n then of_w o else None) with
    | Some x => {| regs := cap_w w x (awdest (ad old)) id (regs n); valid := true;
                   got := negb (w_last x); iprio := 0 |}
    | None => {| regs := regs n; valid := false; got := got n; iprio := iprio n |}
    end end end
  | Master =>
    match (if r1 then of_r o else None) with
    | Some x => {| regs := cap_r w x id (regs n); valid := true; got := got n; iprio := 1 |}
    | None =>
    match (if r2 then of_b o else None) with
    | Some x => {| regs := cap_b w x id (regs n); valid := true; got := got n; iprio := 0 |}
    | None => {| regs := regs n; valid := false; got := got n; iprio := iprio n |}
    end end
  end.

(** The handshakes that the node sees at its clock edge: ready and valid high,
    rad-sim/sim/noc/aximm_slave_adapter.cpp:161,192,225 and
    rad-sim/sim/noc/aximm_master_adapter.cpp:418,442. *)
Definition handshakes (c : xcfg) (ev : xinstant) (old : xst) : list xtxn :=
  let '(r1, r2, r3) := rdy old in
  let o := x_off ev in
  let one {A} (r : bool) (f : A -> xtxn) (x : option A) :=
    match (if r then x else None) with Some y => [f y] | None => [] end in
  match xc_side c with
  | Slave => one r1 XAR (of_ar o) ++ one r2 XAW (of_aw o) ++ one r3 XW (of_w o)
  | Master => one r1 XR (of_r o) ++ one r2 XB (of_b o)
  end.

(** rad-sim/sim/noc/aximm_slave_adapter.cpp:306-313,331-338 : the flits of a packet; [None]: see [xpack]. *)
Definition make_xflits (c : xcfg) (r : xregs) : option (list xflit) :=
  match xpack (xc_w c) r with
  | None => None
  | Some p =>
    let t := i_type r in
    let n := Z.to_nat (xnum_flits (xc_w c) (xc_dw c) t) in
    Some (map (fun k =>
      {| xf_head := Nat.eqb k 0; xf_tail := Nat.eqb k (n - 1); xf_type := t;
         xf_vc := trunc (xc_vcidw c) (vcid_from_type (xc_vc c) (type_num t));
         xf_dest := i_dest r; xf_iface := t; xf_pid := xpid (xc_w c) r; xf_sid := i_sid r;
         xf_payload := xflit_payload (xc_w c) p (Z.of_nat k) |}) (seq 0 n))
  end.

(** [uint8_t], rad-sim/sim/noc/aximm_slave_adapter.hpp:118-119. *)
Definition u8 (x : Z) : Z := x mod 256.

(** rad-sim/sim/noc/aximm_slave_adapter.cpp:346-351. *)
Definition limit (c : xcfg) (n : Z) : Z := u8 (if xc_ratio c <=? n then n - 1 else xc_ratio c - 1).

(** rad-sim/sim/noc/aximm_slave_adapter.cpp:279-369 and
    rad-sim/sim/noc/aximm_master_adapter.cpp:481-560 : InputPacketization.  The result are the
    flits pushed and the signals other than [full]. *)
Definition packetise (c : xcfg) (old : xst) : option (list xflit * Z * Z * Z) :=
  let a := ad old in
  let r := regs (nd old) in
  if valid (nd old) && (pcyc a =? 0) then
    match make_xflits c r with
    | None => None
    | Some fs =>
      Some (fs, 1, u8 (xnum_flits (xc_w c) (xc_dw c) (i_type r)),
            match i_type r with
            | AW => trunc (x_destw (xc_w c)) (dest_node (x_nodew (xc_w c)) (trunc 64 (i_payload r)))
            | _ => awdest a
            end)
    end
  else if 0 <? pcyc a then
    Some ([], if pcyc a =? limit c (nfl a) then 0 else u8 (pcyc a + 1), nfl a, awdest a)
  else Some ([], pcyc a, nfl a, awdest a).

(** One thread at its clock edge: rad-sim/sim/noc/aximm_slave_adapter.cpp:159-255 (node),
    279-369 (adapter; line 363 is the full flag) and 379-453 (NoC).  Lookahead routing and
    credits are left out. *)
Definition run_xthread (c : xcfg) (ev : xinstant) (old : xst) (t : xthread) (s : xst)
  : option (xst * list xobs) :=
  match t with
  | TNode =>
      Some ({| nd := input_interface c ev old; ad := ad s; injq := injq s; itobe := itobe s;
               rdy := rdy s; seen := seen s |},
            map (fun x => Acc x (x_newid ev)) (handshakes c ev old))
  | TAdapt =>
      match packetise c old with
      | None => None
      | Some (fs, cy, n, aw) =>
        let q := injq s ++ fs in
        Some ({| nd := nd s;
                 ad := {| pcyc := cy; nfl := n; full := xc_depth c <? Z.of_nat (length q) + max_flits c;
                          awdest := aw |};
                 injq := q; itobe := itobe s; rdy := rdy s; seen := seen s |}, [])
      end
  | TNoc =>
      let '(tb, q) := match itobe s with
                      | Some f => (Some f, injq s)
                      | None => match injq s with f :: q' => (Some f, q') | [] => (None, []) end
                      end in
      match tb with
      | Some f =>
        if x_can ev then
          Some ({| nd := nd s; ad := ad s; injq := q; itobe := None; rdy := rdy s; seen := seen s |},
                [Inj {| xb_src := xc_node c; xb_flit := f |}])
        else Some ({| nd := nd s; ad := ad s; injq := q; itobe := Some f; rdy := rdy s; seen := seen s |}, [])
      | None => Some ({| nd := nd s; ad := ad s; injq := q; itobe := None; rdy := rdy s; seen := seen s |}, [])
      end
  end.

(** The threads woken at one instant, in the order given; rad-sim/sim/noc/aximm_slave_adapter.cpp:55-60. *)
Fixpoint run_xthreads (c : xcfg) (ev : xinstant) (old : xst) (ts : list xthread) (s : xst)
  : option (xst * list xobs) :=
  match ts with
  | [] => Some (s, [])
  | t :: ts' =>
    match run_xthread c ev old t s with
    | None => None
    | Some (s1, o1) =>
      match run_xthreads c ev old ts' s1 with
      | None => None
      | Some (s2, o2) => Some (s2, o1 ++ o2)
      end
    end
  end.

(** One instant: InputReady has settled, then the clock edges; rad-sim/sim/noc/aximm_slave_adapter.cpp:51-60. *)
Definition x_step (c : xcfg) (s : xst) (ev : xinstant) : option (xst * list xobs) :=
  match settle c ev s with
  | None => None
  | Some s' => run_xthreads c ev s' (x_ths ev) s'
  end.

(** Executions, rad-sim/sim/noc/aximm_slave_adapter.cpp:51-60. *)
Fixpoint x_run (c : xcfg) (s : xst) (evs : list xinstant) : option (xst * list xobs) :=
  match evs with
  | [] => Some (s, [])
  | ev :: evs' =>
    match x_step c s ev with
    | None => None
    | Some (s1, o1) =>
      match x_run c s1 evs' with
      | None => None
      | Some (s2, o2) => Some (s2, o1 ++ o2)
      end
    end
  end.
