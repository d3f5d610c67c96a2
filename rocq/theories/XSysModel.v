(** Modules with AXI-MM interfaces on a network: on every node an AXI-MM slave or master adapter, its input side (AximmInModel.v) and its output side (AximmOutModel.v), between them the network with its
    terminals (TermModel.v).  Every instant of the simulation wakes some threads of the adapters and of the NoC, which run in any order. *)
From Coq Require Import ZArith Arith Bool List.
From Verif Require Import Fupd ArbiterModel AllocModel BufferModel RouteModel ChannelModel CreditModel IqRouterModel NetModel TermModel VcModel AximmFormatModel AximmInModel AximmOutModel FlitCode.
Import ListNotations.
Open Scope nat_scope.

(** Types by number, rad-sim/sim/noc/booksim/flit.hpp:42-47. *)
Definition type_of (z : Z) : xtype := if Z.eqb z tAR then AR else if Z.eqb z tAW then AW else if Z.eqb z tW then W else if Z.eqb z tR then R else B.
(** The flit of rad-sim/sim/noc/aximm_slave_adapter.cpp:398-418 as a number. *)
Definition xcode (f : xbflit) : Z :=
  let x := xb_flit f in zcode [xb_src f; Z.b2z (xf_head x); Z.b2z (xf_tail x); type_num (xf_type x); xf_vc x; xf_dest x; type_num (xf_iface x); xf_pid x; xf_sid x; xf_payload x].
(** The flit read at rad-sim/sim/noc/aximm_slave_adapter.cpp:493. *)
Definition xdecode (i : Z) : xbflit :=
  match zdecode i with
  | [s; h; t; y; v; d; j; p; q; x] =>
      {| xb_src := s; xb_flit := {| xf_head := Z.eqb h 1; xf_tail := Z.eqb t 1; xf_type := type_of y; xf_vc := v; xf_dest := d; xf_iface := type_of j; xf_pid := p; xf_sid := q; xf_payload := x |} |}
  | _ => {| xb_src := 0; xb_flit := {| xf_head := false; xf_tail := false; xf_type := AR; xf_vc := 0; xf_dest := 0; xf_iface := AR; xf_pid := 0; xf_sid := 0; xf_payload := 0 |} |}
  end.
(** The fields the routers look at, rad-sim/sim/noc/aximm_slave_adapter.cpp:398-418. *)
Definition xnet_flit (f : xbflit) : flit :=
  {| f_id := xcode f; f_pid := xf_pid (xb_flit f); f_head := xf_head (xb_flit f); f_tail := xf_tail (xb_flit f); f_vc := Z.to_nat (xf_vc (xb_flit f)); f_la := [] |}.
(** rad-sim/sim/noc/aximm_slave_adapter.cpp:493. *)
Definition xbs_flit (g : flit) : xbflit := xdecode (f_id g).

(** The threads of the adapters, rad-sim/sim/noc/aximm_slave_adapter.cpp:55-78 and rad-sim/sim/noc/aximm_master_adapter.cpp:38-80, and of the NoC, rad-sim/sim/noc/radsim_noc.cpp:301-321. *)
Inductive xact := XI (n : nat) (t : xthread) | XO (n : nat) (t : ythread) | XTick.
(** An instant: the threads woken in the order in which they run, what the modules show on the input channels, the ids of telemetry, changes of valid signals since the last instant, the ready signals of
    the modules, the cycle numbers the adapters use, rad-sim/sim/noc/aximm_slave_adapter.cpp:404, and what a cycle of the network gets. *)
Record xginst := { xg_acts : list xact; xg_off : nat -> offers; xg_id : nat -> Z; xg_wake : nat -> bool; xg_rdy : nat -> xtype -> bool; xg_now : nat -> Z; xg_clk : clk }.
(** What the parts show; rad-sim/sim/noc/aximm_slave_adapter.cpp:55-78, rad-sim/sim/noc/aximm_master_adapter.cpp:38-80 and rad-sim/sim/noc/booksim/networks/network.cpp:197-208. *)
Inductive xsobs := OI (n : nat) (o : xobs) | OO (n : nat) (o : yobs) | ON (o : tobs).
(** The states of the parts, rad-sim/sim/noc/radsim_noc.hpp:28-60. *)
Record xsys (P : bpolicy) := mkXS { q_t : term P; q_in : nat -> xst; q_out : nat -> yst }.
Arguments mkXS {P}. Arguments q_t {P}. Arguments q_in {P}. Arguments q_out {P}.

(** The flit the injection thread offers, rad-sim/sim/noc/aximm_slave_adapter.cpp:381-389. *)
Definition offered_flit (s : xst) : option xflit := match itobe s with Some f => Some f | None => head (injq s) end.
(** A flit read from the network, rad-sim/sim/noc/aximm_slave_adapter.cpp:493. *)
Definition yload (x : list xflit) (s : yst) : yst :=
  {| yin := x; ypend := ypend s; yej := yej s; ypushc := ypushc s; ypushn := ypushn s; ypopc := ypopc s; yprio := yprio s; ydepk := ydepk s; ycon := ycon s; youtq := youtq s; yhold := yhold s; yport := yport s |}.

Section XSys.
Context {P : bpolicy} (w : netcfg) (rf : nat -> nat -> flit -> list oelem) (cs : Z -> xcfg) (ys : nat -> ycfg).

(** rad-sim/sim/noc/radsim_noc.cpp:41-255. *)
Definition xsys0 : xsys P := mkXS (term0 P w) (fun n => x_init) (fun n => y_init (ys n) []).

(** What the input side of an adapter sees, rad-sim/sim/noc/aximm_slave_adapter.cpp:52-60; [b]: the network took the flit. *)
Definition xseen (g : xginst) (n : nat) (l : list xthread) (b : bool) : xinstant := {| x_ths := l; x_off := xg_off g n; x_newid := xg_id g n; x_can := b; x_wake := xg_wake g n |}.
(** What the output side sees, rad-sim/sim/noc/aximm_slave_adapter.cpp:71-78. *)
Definition yseen (g : xginst) (n : nat) (l : list ythread) (av : bool) : yinstant := {| y_ths := l; y_avail := av; y_rdy := xg_rdy g n |}.
(** The ready logic, rad-sim/sim/noc/aximm_slave_adapter.cpp:51-54. *)
Definition xsettle (g : xginst) (n : nat) (s : xst) : option xst := settle (cs (Z.of_nat n)) (xseen g n [] false) s.

(** rad-sim/sim/noc/aximm_slave_adapter.cpp:374-454 : the injection thread. *)
Definition xinj_act (g : xginst) (old : xst) (n : nat) (s : xsys P) : option (xsys P * list xsobs) :=
  let c := cs (Z.of_nat n) in
  match term_step w rf (VInj n (xg_now g n) (option_map (fun f => xnet_flit {| xb_src := xc_node c; xb_flit := f |}) (offered_flit (q_in s n)))) (q_t s) with
  | Some (t, o) => match run_xthread c (xseen g n [] (match o with [] => false | _ => true end)) old TNoc (q_in s n) with
                   | Some (x, os) => Some (mkXS t (fupd (q_in s) n x) (q_out s), map ON o ++ map (OI n) os)
                   | None => None
                   end
  | None => None
  end.
(** rad-sim/sim/noc/aximm_slave_adapter.cpp:483-529 and rad-sim/sim/noc/aximm_master_adapter.cpp:108-158 : the ejection thread. *)
Definition xej_act (n : nat) (s : xsys P) : option (xsys P * list xsobs) :=
  match (match ypend (q_out s n) with None => term_step w rf (VRead n) (q_t s) | Some _ => Some (q_t s, []) end) with
  | Some (t, o) =>
      match y_eject (ys n) true (yload (flat_map (fun x => match x with Got _ f => [xb_flit (xbs_flit f)] | Took _ _ => [] end) o) (q_out s n)) with
      | Some (m, om) => Some (mkXS t (q_in s) (fupd (q_out s) n m), map ON o ++ map (OO n) om)
      | None => None
      end
  | None => None
  end.
(** rad-sim/sim/noc/aximm_slave_adapter.cpp:577-579 : the slots a node freed. *)
Definition xfree_all (n : nat) (om : list yobs) (t : term P) : option (term P) :=
  option_map fst (term_run w rf (flat_map (fun x => match x with YFree v => [VFree n (Z.to_nat v)] | _ => [] end) om) t).
(** rad-sim/sim/noc/aximm_slave_adapter.cpp:71-78 : the other threads of an output side. *)
Definition xout_act (g : xginst) (n : nat) (t : ythread) (s : xsys P) : option (xsys P * list xsobs) :=
  match y_thread (ys n) (yseen g n [] false) t (q_out s n) with
  | Some (m, om) => match xfree_all n om (q_t s) with
                    | Some t' => Some (mkXS t' (q_in s) (fupd (q_out s) n m), map (OO n) om)
                    | None => None
                    end
  | None => None
  end.
(** One thread; [old] has the signals as they were before the instant, rad-sim/sim/noc/aximm_slave_adapter.cpp:55-78 and rad-sim/sim/noc/radsim_noc.cpp:301-321. *)
Definition xdo_act (g : xginst) (old : nat -> xst) (a : xact) (s : xsys P) : option (xsys P * list xsobs) :=
  match a with
  | XI n TNoc => xinj_act g (old n) n s
  | XI n t => match run_xthread (cs (Z.of_nat n)) (xseen g n [] false) (old n) t (q_in s n) with
              | Some (x, os) => Some (mkXS (q_t s) (fupd (q_in s) n x) (q_out s), map (OI n) os)
              | None => None
              end
  | XO n TEj => xej_act n s
  | XO n t => xout_act g n t s
  | XTick => match term_step w rf (VTick (xg_clk g)) (q_t s) with Some (t, o) => Some (mkXS t (q_in s) (q_out s), map ON o) | None => None end
  end.
(** All threads woken, rad-sim/sim/noc/radsim_noc.cpp:260-321. *)
Fixpoint xdo_acts (g : xginst) (old : nat -> xst) (l : list xact) (s : xsys P) : option (xsys P * list xsobs) :=
  match l with
  | [] => Some (s, [])
  | a :: r => match xdo_act g old a s with
              | Some (s1, o1) => match xdo_acts g old r s1 with Some (s2, o2) => Some (s2, o1 ++ o2) | None => None end
              | None => None
              end
  end.
(** The input sides after the ready logic, rad-sim/sim/noc/aximm_slave_adapter.cpp:51-54. *)
Definition after_ready (g : xginst) (s : xsys P) (n : nat) : xst := match xsettle g n (q_in s n) with Some x => x | None => q_in s n end.
(** No assertion of the ready logic fails, rad-sim/sim/noc/aximm_slave_adapter.cpp:131-133. *)
Definition ready_ok (g : xginst) (s : xsys P) : bool := forallb (fun n => match xsettle g n (q_in s n) with Some _ => true | None => false end) (seq 0 (w_nodes w)).
(** An instant: the ready logic, the threads, then the signals change; rad-sim/sim/noc/aximm_slave_adapter.cpp:51-78. *)
Definition xsys_step (g : xginst) (s : xsys P) : option (xsys P * list xsobs) :=
  if ready_ok g s then
    match xdo_acts g (after_ready g s) (xg_acts g) (mkXS (q_t s) (after_ready g s) (q_out s)) with
    | Some (s', o) => Some (mkXS (q_t s') (q_in s') (fun n => y_commit (q_out s' n)), o)
    | None => None
    end
  else None.
(** An execution, rad-sim/sim/noc/radsim_noc.cpp:260-321. *)
Fixpoint xsys_run (gs : list xginst) (s : xsys P) : option (xsys P * list xsobs) :=
  match gs with
  | [] => Some (s, [])
  | g :: r => match xsys_step g s with
              | Some (s1, o1) => match xsys_run r s1 with Some (s2, o2) => Some (s2, o1 ++ o2) | None => None end
              | None => None
              end
  end.
End XSys.
Arguments xsys0 {P}.
