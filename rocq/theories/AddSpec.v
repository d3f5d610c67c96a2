(** What the properties of the designs add and mult speak about. *)
From Coq Require Import ZArith Arith Bool List.
From Verif Require Import Fupd BufferModel IqRouterModel NetModel NetProgressSpec TermModel AxisFormatModel AxisSlaveModel AxisMasterModel EndToEndSpec SysModel SysSpec AddModel.
Import ListNotations.
Open Scope nat_scope.

(** The numbers in 128 bits, the last one flagged. *)
Fixpoint tagged (nums : list Z) : list (Z * bool) :=
  match nums with [] => [] | [x] => [((x mod 2 ^ 128)%Z, true)] | x :: r => ((x mod 2 ^ 128)%Z, false) :: tagged r end.
(** The sum or the product. *)
Definition result (f : op) (nums : list Z) : Z := fold_right (apply_op f) (start f) nums.
(** What the random numbers are: rand() % 10 + 1. *)
Definition drawn (nums : list Z) : Prop := forall x, In x nums -> (1 <= x <= 10)%Z.
(** Client and adder are at nodes that exist, interface 0 of both is 128 bits wide (the one of the adder may be wider), and the destination the client gives is the node of the adder. *)
Record well_placed (N : nat) (cs : Z -> scfg) (ms : nat -> mcfg) (pl : place) : Prop := {
  wp_client : p_client pl < N; wp_adder : p_adder pl < N;
  wp_out : 0 < s_nif (cs (Z.of_nat (p_client pl))); wp_in : 0 < m_nif (ms (p_adder pl));
  wp_w : s_dataw (cs (Z.of_nat (p_client pl))) 0 = 128%Z; wp_w' : (128 <= m_dataw (ms (p_adder pl)) 0)%Z;
  wp_user : (0 <= p_user pl < 2 ^ userw (m_w (ms (p_adder pl))))%Z;
  wp_dest : bs_node (to_booksim_dest (s_w (cs (Z.of_nat (p_client pl)))) (s_rad (cs (Z.of_nat (p_client pl)))) (s_portal (cs (Z.of_nat (p_client pl)))) (p_dest pl)) = Z.of_nat (p_adder pl) }.
(** How often the adder's clock has an edge. *)
Definition edges (pl : place) (gs : list ginst) : nat := length (filter (fun g => adder_clock pl (g_acts g)) gs).
(** How many numbers the NoC took from the client. *)
Definition taken_by_noc (pl : place) (o : list sobs) : nat := length (sent_by (Z.of_nat (p_client pl)) o).
(** An allocator that is asked grants something. *)
Definition giving (w : netcfg) (g : ginst) : Prop := forall r, r < w_n w ->
  gives (c_in (w_cfg w r) * c_vcs (w_cfg w r)) (c_outs (w_cfg w r) * c_vcs (w_cfg w r)) (k_va (g_clk g) r) /\ gives (c_in (w_cfg w r)) (c_outs (w_cfg w r)) (k_sa (g_clk g) r).
