(** What the properties of a system of AXI-MM modules speak about. *)
From Coq Require Import ZArith Arith Bool List.
From Verif Require Import Bits Fupd AllocModel AllocSpec BufferModel RouteModel ChannelModel IqRouterModel IqRouterSpec NetModel NetSpec NetMeshModel NetMeshSpec StreamSpec TermModel TermSpec
  VcModel AximmFormatModel AximmInModel AximmSpec AximmOutModel AximmOutSpec EndToEndMMSpec XSysModel.
Import ListNotations.
Open Scope nat_scope.

(** What the two sides of one adapter, and the network, showed. *)
Definition of_in (n : nat) (o : list xsobs) : list xobs := flat_map (fun x => match x with OI m a => if Nat.eqb m n then [a] else [] | _ => [] end) o.
Definition of_out (n : nat) (o : list xsobs) : list yobs := flat_map (fun x => match x with OO m a => if Nat.eqb m n then [a] else [] | _ => [] end) o.
Definition of_xnet (o : list xsobs) : list tobs := flat_map (fun x => match x with ON a => [a] | _ => [] end) o.
(** The transactions that the adapter of node [k] took from its module. *)
Definition xsent_by (N : nat) (cs : Z -> xcfg) (k : Z) (o : list xsobs) : list sent := if ((0 <=? k) && (k <? Z.of_nat N))%Z then accepted (cs k) (of_in (Z.to_nat k) o) else [].
(** The transactions that the module of node [d] saw on its channels, valid being high at an edge of its clock. *)
Definition xseen_at (d : nat) (o : list xsobs) : list xtxn := shown (of_out d o).

(** The threads of one adapter among those that ran. *)
Definition in_acts (n : nat) (l : list xact) : list xthread := flat_map (fun a => match a with XI m t => if Nat.eqb m n then [t] else [] | _ => [] end) l.
(** The injection thread of a node and the cycles of the network take turns, and so do its ejection thread and the cycles. *)
Definition xinj_acts (n : nat) (l : list xact) : list bool := flat_map (fun a => match a with XI m TNoc => if Nat.eqb m n then [true] else [] | XTick => [false] | _ => [] end) l.
Definition xej_acts (n : nat) (l : list xact) : list bool := flat_map (fun a => match a with XO m TEj => if Nat.eqb m n then [true] else [] | XTick => [false] | _ => [] end) l.
Definition xtake_turns (N : nat) (l : list xact) : Prop := forall n, n < N -> alternate (xinj_acts n l) /\ alternate (xej_acts n l).
(** The clocks of a node and of its adapter. *)
Definition xclocks (N : nat) (cs : Z -> xcfg) (gs : list xginst) : Prop :=
  forall n, n < N -> clocked (xc_ratio (cs (Z.of_nat n))) None (map (fun g => xseen g n (in_acts n (xg_acts g)) false) gs).

(** The traffic the routing function sees: source, destination, and the channel of the type. *)
Definition xsys_traffic (ch : xtype -> nat) : traffic :=
  {| y_src := fun i => Z.to_nat (xb_src (xdecode i)); y_dest := fun i => Z.to_nat (xf_dest (xb_flit (xdecode i)));
     y_b := fun i => ch (xf_type (xb_flit (xdecode i))); y_e := fun i => ch (xf_type (xb_flit (xdecode i))) |}.

(** The adapters and the channel [ch] of each type fit together.  The last condition is about the depth of the ejection FIFOs: a FIFO holds as many flits as the last router may send ahead. *)
Record xfitting (N vcs : nat) (slots : Z) (ch : xtype -> nat) (cs : Z -> xcfg) (ys : nat -> ycfg) : Prop := {
  xf_pair : forall d k, d < N -> xsender_ok (ys d) k (cs k);
  xf_side : forall d, d < N -> y_side (ys d) = xc_side (cs (Z.of_nat d));
  xf_chan : forall k t, (0 <= k < Z.of_nat N)%Z -> trunc (xc_vcidw (cs k)) (fst (xc_vc (cs k) (type_num t))) = Z.of_nat (ch t) /\ ch t < vcs;
  xf_free : forall d k, d < N -> y_vcidw (ys d) = xc_vcidw (cs k);
  xf_deep : forall d, d < N -> (slots <= Z.of_nat (y_depth (ys d)))%Z }.

(** A transaction stands on one of the input channels of the side. *)
Definition stands (k : xside) (o : offers) (t : xtxn) : Prop :=
  match k, t with
  | Slave, XAR h => of_ar o = Some h | Slave, XAW h => of_aw o = Some h | Slave, XW x => of_w o = Some x
  | Master, XR x => of_r o = Some x | Master, XB x => of_b o = Some x
  | _, _ => False
  end.
(** The node a transaction names; write data name none. *)
Definition names (c : xcfg) (t : xtxn) : option Z := match t with XW _ => None | _ => Some (dest_of c {| sd_aw := 0; sd_txn := t; sd_id := 0 |}) end.
(** What the modules may show at node [n]: fields within their widths, and the node named exists and has an adapter of the other side. *)
Definition good_offers (N : nat) (cs : Z -> xcfg) (ys : nat -> ycfg) (n : nat) (o : offers) : Prop :=
  let c := cs (Z.of_nat n) in ok_offers o /\
  forall t, stands (xc_side c) o t -> xfits c t /\ forall d, names c t = Some d -> (0 <= d < Z.of_nat N)%Z /\ y_side (ys (Z.to_nat d)) <> xc_side c.
(** An instant: no thread runs twice, the nodes exist, and the allocators match requests. *)
Record good_xginst (w : netcfg) (cs : Z -> xcfg) (ys : nat -> ycfg) (g : xginst) : Prop := {
  xgi_once : NoDup (xg_acts g);
  xgi_node : forall a, In a (xg_acts g) -> match a with XI n _ | XO n _ => n < w_nodes w | XTick => True end;
  xgi_off : forall n, n < w_nodes w -> good_offers (w_nodes w) cs ys n (xg_off g n);
  xgi_va : forall r l, r < w_n w -> legal_asks (c_in (w_cfg w r) * c_vcs (w_cfg w r)) (c_outs (w_cfg w r) * c_vcs (w_cfg w r)) l -> matching l (k_va (xg_clk g) r l);
  xgi_sa : forall r l, r < w_n w -> legal_asks (c_in (w_cfg w r)) (c_outs (w_cfg w r)) l -> matching l (k_sa (xg_clk g) r l) }.

(** Nothing is under way: no adapter holds a transaction, no flit is in the network, at a node or not read yet. *)
Definition xat_rest {P} (w : netcfg) (ys : nat -> ycfg) (l : list xact) (s : xsys P) : Prop :=
  (forall n, n < w_nodes w -> valid (nd (q_in s n)) = false /\ injq (q_in s n) = [] /\ itobe (q_in s n) = None) /\
  inside w (tm_net (q_t s)) = [] /\
  (forall n, n < w_nodes w -> tm_inj (q_t s) n = None /\ (last (xej_acts n l) false = true \/ ch_out (n_f (tm_net (q_t s)) (Ej n)) = None)) /\
  (forall n, n < w_nodes w -> (forall v, v < ntypes (ys n) -> yej (q_out s n) v = []) /\ youtq (q_out s n) = [] /\ yhold (q_out s n) = None /\ yport (q_out s n) = None).

Definition at_node (d : nat) (x : Z) : bool := Z.eqb x (Z.of_nat d).
