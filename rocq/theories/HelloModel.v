(** The modules of the example design aximm_hello_world, each on its AXI-MM adapter. *)
From Coq Require Import ZArith Bool List.
From Verif Require Import Bits AximmFormatModel AximmInModel.
Import ListNotations.
Local Open Scope Z_scope.

(** rad-sim/example-designs/aximm_hello_world/aximm_hello_world_driver.cpp:3-25 : a line of the trace; the cycle is never read again and left out. *)
Record cmd := { k_write : bool; k_addr : Z; k_data : Z }.
(** rad-sim/example-designs/aximm_hello_world/modules/requester.hpp:14-24 : the state of the requester outside of reset, and of the driver
    (aximm_hello_world_driver.cpp:51-75): the commands from the one it shows, and whether it shows it.  The three FIFOs of the requester are pushed and popped together. *)
Record rqst := {
  q_fifo : list cmd; q_full : bool; q_awacc : bool; q_id : Z;
  q_ar : option addr_ch; q_aw : option addr_ch; q_w : option w_ch;   (* the outputs; None: valid is low *)
  d_left : list cmd; d_valid : bool }.
(** rad-sim/example-designs/aximm_hello_world/modules/requester.cpp:39-52 and aximm_hello_world_driver.cpp:51-57 : after reset. *)
Definition rq0 (trace : list cmd) : rqst :=
  {| q_fifo := []; q_full := false; q_awacc := false; q_id := 0; q_ar := None; q_aw := None; q_w := None; d_left := trace; d_valid := false |}.
(** rad-sim/example-designs/aximm_hello_world/modules/requester.cpp:72-73, 78-84 and 89-95 : the address channels; [base] and [src] are the base addresses of the two ports. *)
Definition rq_addr (base src id : Z) (k : cmd) : addr_ch :=
  {| h_id := id; h_addr := (base + k_addr k) mod 2 ^ 64; h_len := 0; h_size := 64; h_burst := 0; h_user := src |}.
(** rad-sim/example-designs/aximm_hello_world/modules/requester.cpp:97-101 : the data channel. *)
Definition rq_data (src id : Z) (k : cmd) : w_ch := {| w_id := id; w_data := k_data k; w_last := true; w_user := src |}.
(** Whether a valid signal is high and so is its ready signal; rad-sim/example-designs/aximm_hello_world/modules/requester.cpp:111-125. *)
Definition both {A} (x : option A) (r : bool) : bool := match x with Some _ => r | None => false end.
(** rad-sim/example-designs/aximm_hello_world/modules/requester.cpp:59-131 : Tick at a clock edge, with the driver at its edge (aximm_hello_world_driver.cpp:60-72), which has the same clock;
    [r] are arready, awready and wready.  [None]: a pop from an empty FIFO.  Lines 133-149 count the responses and are left out. *)
Definition rq_edge (base src depth : Z) (r : bool * bool * bool) (q : rqst) : option rqst :=
  let '(rar, raw, rw) := r in
  let push := negb (q_full q) && d_valid q in
  let fifo := q_fifo q ++ (if push then firstn 1 (d_left q) else []) in
  let left := if push then tl (d_left q) else d_left q in
  let mk := fun f acc id =>
    {| q_fifo := f; q_full := depth <=? Z.of_nat (length fifo); q_awacc := acc; q_id := id;
       q_ar := match fifo with k :: _ => if k_write k then None else Some (rq_addr base src (q_id q) k) | [] => None end;
       q_aw := match fifo with k :: _ => if k_write k && negb (q_awacc q) then Some (rq_addr base src (q_id q) k) else None | [] => None end;
       q_w := match fifo with k :: _ => if k_write k then Some (rq_data src (q_id q) k) else None | [] => None end;
       d_left := left; d_valid := match left with [] => false | _ => true end |} in
  let pop := fun acc => match fifo with [] => None | _ :: f => Some (mk f acc (trunc 32 (q_id q + 1))) end in
  if both (q_aw q) raw then Some (mk fifo true (trunc 32 (q_id q + 1)))
  else if both (q_w q) rw then pop false
  else if both (q_ar q) rar then pop (q_awacc q)
  else Some (mk fifo (q_awacc q) (q_id q)).
(** rad-sim/sim/design_context.cpp:485-564 : the module and its adapter are connected; the offers at an instant are the outputs of the requester. *)
Definition rq_offers (q : rqst) : offers := {| of_ar := q_ar q; of_aw := q_aw q; of_w := q_w q; of_r := None; of_b := None |}.
(** rad-sim/sim/noc/aximm_slave_adapter.cpp:51-60 : an instant with given offers. *)
Definition offering (ev : xinstant) (o : offers) : xinstant :=
  {| x_ths := x_ths ev; x_off := o; x_newid := x_newid ev; x_can := x_can ev; x_wake := x_wake ev |}.
(** rad-sim/sim/noc/aximm_slave_adapter.cpp:56 : the clock of the module has an edge. *)
Definition node_at (ev : xinstant) : bool := existsb (fun t => match t with TNode => true | _ => false end) (x_ths ev).
(** The requester on its adapter, rad-sim/example-designs/aximm_hello_world/modules/requester.cpp:57-151 with rad-sim/sim/noc/aximm_slave_adapter.cpp:51-60. *)
Fixpoint rq_run (c : xcfg) (base src depth : Z) (s : xst) (q : rqst) (evs : list xinstant) : option (xst * rqst * list xobs) :=
  match evs with
  | [] => Some (s, q, [])
  | ev :: evs' =>
    match x_step c s (offering ev (rq_offers q)) with
    | None => None
    | Some (s1, o1) =>
      match (if node_at ev then rq_edge base src depth (rdy s1) q else Some q) with
      | None => None
      | Some q1 => match rq_run c base src depth s1 q1 evs' with None => None | Some (s2, q2, o2) => Some (s2, q2, o1 ++ o2) end
      end
    end
  end.

(** rad-sim/example-designs/aximm_hello_world/modules/responder.cpp:56-77 : what stands at the request channels at an edge: address and user, address and user, data. *)
Record asks := { as_ar : option (Z * Z); as_aw : option (Z * Z); as_w : option Z }.
(** A request that the responder has taken; rad-sim/example-designs/aximm_hello_world/modules/responder.cpp:58-59, 66-67, 74. *)
Inductive ask := AskR (addr user : Z) | AskW (addr user : Z) | AskD (data : Z).
(** rad-sim/example-designs/aximm_hello_world/modules/responder.hpp:15-39 : the state outside of reset.  Address and user (or type, address and data) are pushed and popped together. *)
Record rpst := {
  p_ar : list (Z * Z); p_aw : list (Z * Z); p_wd : list Z; p_mem : Z -> option Z; p_resp : list (bool * Z * Z);
  p_far : bool; p_faw : bool; p_fwd : bool; p_fresp : bool; p_id : Z; p_r : option r_ch; p_b : option b_ch }.
(** rad-sim/example-designs/aximm_hello_world/modules/responder.cpp:43-51 : after reset. *)
Definition rp0 : rpst :=
  {| p_ar := []; p_aw := []; p_wd := []; p_mem := fun _ => None; p_resp := []; p_far := false; p_faw := false; p_fwd := false; p_fresp := false; p_id := 0; p_r := None; p_b := None |}.
(** rad-sim/example-designs/aximm_hello_world/modules/responder.cpp:30-37 and 56-77 : the request taken at an edge. *)
Definition rp_take (p : rpst) (a : asks) : option ask :=
  match (if negb (p_far p) && negb (p_fresp p) then as_ar a else None) with
  | Some (x, u) => Some (AskR x u)
  | None =>
    match (if negb (p_faw p) && negb (p_fresp p) then as_aw a else None) with
    | Some (x, u) => Some (AskW x u)
    | None => match (if negb (p_fwd p) && negb (p_fresp p) then as_w a else None) with Some d => Some (AskD d) | None => None end
    end
  end.
(** rad-sim/example-designs/aximm_hello_world/modules/responder.cpp:80-109 : one request is executed: the queues, the memory and the responses (0: R) after it. *)
Definition rp_exec (ar aw : list (Z * Z)) (wd : list Z) (mem : Z -> option Z) (resp : list (bool * Z * Z))
  : list (Z * Z) * list (Z * Z) * list Z * (Z -> option Z) * list (bool * Z * Z) :=
  match ar with
  | (x, u) :: ar' => (ar', aw, wd, mem, resp ++ [(false, u, match mem x with None => 0 | Some d => d end)])
  | [] =>
    match aw, wd with
    | (x, u) :: aw', d :: wd' => (ar, aw', wd', fun y => if y =? x then Some d else mem y, resp ++ [(true, u, d)])
    | _, _ => (ar, aw, wd, mem, resp)
    end
  end.
(** rad-sim/example-designs/aximm_hello_world/modules/responder.cpp:55-162 : Tick at a clock edge; [r] are rready and bready (and nothing).  [None]: a pop from an empty FIFO. *)
Definition rp_edge (depth : Z) (r : bool * bool * bool) (a : asks) (p : rpst) : option rpst :=
  let '(rr, rb, _) := r in
  let t := rp_take p a in
  let ar := p_ar p ++ match t with Some (AskR x u) => [(x, u)] | _ => [] end in
  let aw := p_aw p ++ match t with Some (AskW x u) => [(x, u)] | _ => [] end in
  let wd := p_wd p ++ match t with Some (AskD d) => [d] | _ => [] end in
  let '(ar, aw, wd, mem, resp) := rp_exec ar aw wd (p_mem p) (p_resp p) in
  let mk := fun f id =>
    {| p_ar := ar; p_aw := aw; p_wd := wd; p_mem := mem; p_resp := f;
       p_far := depth <=? Z.of_nat (length ar); p_faw := depth <=? Z.of_nat (length aw); p_fwd := depth <=? Z.of_nat (length wd);
       p_fresp := depth <=? Z.of_nat (length f); p_id := id;
       p_r := match resp with (false, u, d) :: _ => Some {| r_id := p_id p; r_data := d; r_resp := 0; r_last := true; r_user := u |} | _ => None end;
       p_b := match resp with (true, u, _) :: _ => Some {| rb_id := p_id p; rb_resp := 0; rb_user := u |} | _ => None end |} in
  if both (p_r p) rr || both (p_b p) rb then match resp with [] => None | _ :: f => Some (mk f (trunc 32 (p_id p + 1))) end
  else Some (mk resp (p_id p)).
(** rad-sim/sim/design_context.cpp:485-564 : the offers at an instant are the outputs of the responder. *)
Definition rp_offers (p : rpst) : offers := {| of_ar := None; of_aw := None; of_w := None; of_r := p_r p; of_b := p_b p |}.
(** The responder on its adapter, rad-sim/example-designs/aximm_hello_world/modules/responder.cpp:54-164 with rad-sim/sim/noc/aximm_master_adapter.cpp:66-75; what stands at the
    request channels is arbitrary.  The last part of the result are the requests it has taken. *)
Fixpoint rp_run (c : xcfg) (depth : Z) (s : xst) (p : rpst) (evs : list (xinstant * asks)) : option (xst * rpst * list xobs * list ask) :=
  match evs with
  | [] => Some (s, p, [], [])
  | (ev, a) :: evs' =>
    match x_step c s (offering ev (rp_offers p)) with
    | None => None
    | Some (s1, o1) =>
      match (if node_at ev then rp_edge depth (rdy s1) a p else Some p) with
      | None => None
      | Some p1 =>
        match rp_run c depth s1 p1 evs' with
        | None => None
        | Some (s2, p2, o2, l) => Some (s2, p2, o1 ++ o2, match (if node_at ev then rp_take p a else None) with Some x => x :: l | None => l end)
        end
      end
    end
  end.
