(** What the properties of the network speak about. *)
From Coq Require Import ZArith Arith Bool List.
From Verif Require Import Fupd AllocModel AllocSpec BufferModel RouteModel ChannelModel IqRouterModel IqRouterSpec NetModel.
Import ListNotations.
Open Scope nat_scope.

Definition opt {A} (x : option A) : list A := match x with Some a => [a] | None => [] end.
(** What the terminals gave and got in a sequence of cycles. *)
Definition injected (ts : list tick) (n : nat) : list flit := flat_map (fun t => opt (t_inj t n)) ts.
Definition credited (ts : list tick) (d : nat) : list nat := flat_map (fun t => concat (opt (t_cred t d))) ts.
Definition ejected (zs : list nout) (d : nat) : list flit := flat_map (fun z => opt (z_flit z d)) zs.
Definition returned (zs : list nout) (n : nat) : list nat := flat_map (fun z => concat (opt (z_cred z n))) zs.

(** The wiring: each port of a router has its channel and each channel its two ends; all buffers have the same settings. *)
Record wired (w : netcfg) : Prop := {
  wi_b : forall r, r < w_n w -> c_b (w_cfg w r) = w_b w /\ c_rdelay (w_cfg w r) = w_rd w;
  wi_in : forall c r i, w_snk w c = Some (r, i) <-> (r < w_n w /\ i < c_in (w_cfg w r) /\ w_in w r i = c);
  wi_out : forall c r o, w_src w c = Some (r, o) <-> (r < w_n w /\ o < c_outs (w_cfg w r) /\ w_out w r o = c);
  wi_inj : forall n, w_src w (Inj n) = None /\ (w_snk w (Inj n) <> None <-> n < w_nodes w);
  wi_ej : forall d, w_snk w (Ej d) = None /\ (w_src w (Ej d) <> None <-> d < w_nodes w);
  wi_ch : forall c, (w_snk w (Ch c) <> None <-> c < w_chans w) /\ (w_src w (Ch c) <> None <-> c < w_chans w) }.

(** The same flit, but for the channel and the route computed in advance. *)
Definition same (f g : flit) : Prop := f_id g = f_id f /\ f_pid g = f_pid f /\ f_head g = f_head f /\ f_tail g = f_tail f.
(** Where heads may be: [ok c f] means that the head [f] may be on channel [c].  A route set for it at router [r] is lawful if it names
    existing channels of the router, none twice, and leads only to places where the head may be. *)
Definition lawful (w : netcfg) (ok : cid -> flit -> Prop) (r : nat) (f : flit) (es : list oelem) : Prop :=
  good_route (w_cfg w r) es /\ forall o v g, In (o, v) (channels_of es) -> same f g -> f_vc g = v -> ok (w_out w r o) g.

(** What the surroundings of the network keep to, after the cycles [ts] with results [zs]: the allocators match requests; the routing
    functions give lawful routes; the nodes inject packets, only when there is room according to the credits returned, and give
    credits only for flits they got. *)
Record ndecent (w : netcfg) (ok : cid -> flit -> Prop) (ts : list tick) (zs : list nout) (t : tick) : Prop := {
  nd_va : forall r l, r < w_n w -> legal_asks (c_in (w_cfg w r) * c_vcs (w_cfg w r)) (c_outs (w_cfg w r) * c_vcs (w_cfg w r)) l -> matching l (t_va t r l);
  nd_sa : forall r l, r < w_n w -> legal_asks (c_in (w_cfg w r)) (c_outs (w_cfg w r)) l -> matching l (t_sa t r l);
  nd_rf : forall r i f, r < w_n w -> i < c_in (w_cfg w r) -> f_head f = true -> ok (w_in w r i) f -> lawful w ok r f (t_rf t r i f);
  nd_inj : forall n f r i, t_inj t n = Some f -> w_snk w (Inj n) = Some (r, i) ->
    f_vc f < bc_vcs (w_b w) /\ well_formed (on_vc (f_vc f) (injected ts n ++ [f])) /\
    (Z.of_nat (length (injected ts n)) - Z.of_nat (length (returned zs n)) < bc_size (w_b w))%Z /\
    (f_head f = true -> ok (Inj n) f /\ (w_rd w = false -> lawful w ok r f (f_la f)));
  nd_cred : forall d vs, t_cred t d = Some vs ->
    NoDup vs /\ forall v, In v vs -> v < bc_vcs (w_b w) /\ count_occ Nat.eq_dec (credited ts d) v < length (on_vc v (ejected zs d)) }.
Fixpoint ndecent_from {P} (w : netcfg) (ok : cid -> flit -> Prop) (hts : list tick) (hzs : list nout) (ts : list tick) (s : net P) : Prop :=
  match ts with
  | [] => True
  | t :: r => ndecent w ok hts hzs t /\ forall s' z, net_step w t s = Some (s', z) -> ndecent_from w ok (hts ++ [t]) (hzs ++ [z]) r s'
  end.
Definition ndecent_run (P : bpolicy) (w : netcfg) (ok : cid -> flit -> Prop) (ts : list tick) : Prop := ndecent_from w ok [] [] ts (net0 P w).

(** What is in a channel and not delivered yet. *)
Definition pend {A} (c : chan A) : list A := map snd (ch_q c) ++ opt (ch_in c).
(** A router of the network. *)
Definition rt {P} (s : net P) (r : nat) : router P := nth r (n_rt s) (router0 P).
(** The flits that entered a channel, given what the routers sent. *)
Definition entered (w : netcfg) (ts : list tick) (ys : nat -> list rout) (c : cid) : list flit :=
  match w_src w c with Some (r, o) => tx (ys r) o | None => match c with Inj n => injected ts n | _ => [] end end.
(** The credits for them that entered the credit channel at the other end. *)
Definition gave (w : netcfg) (ts : list tick) (ys : nat -> list rout) (c : cid) : list nat :=
  match w_snk w c with Some (r, i) => ctx (ys r) i | None => match c with Ej d => credited ts d | _ => [] end end.
(** The routers of the network in a sequence of cycles: what each read and wrote.  A router reads from a channel what entered it, in order; what
    it has not read yet is in the channel; and so for the nodes. *)
Record carried {P} (w : netcfg) (ts : list tick) (zs : list nout) (s : net P) (xs : nat -> list rin) (ys : nat -> list rout) : Prop := {
  cr_flit : forall c r i, w_snk w c = Some (r, i) -> rx (xs r) i ++ opt (ch_out (n_f s c)) ++ pend (n_f s c) = entered w ts ys c;
  cr_eject : forall d r o, w_src w (Ej d) = Some (r, o) -> ejected zs d ++ pend (n_f s (Ej d)) = entered w ts ys (Ej d);
  cr_cred : forall c r o, w_src w c = Some (r, o) -> crx (xs r) o ++ concat (opt (ch_out (n_c s c)) ++ pend (n_c s c)) = gave w ts ys c;
  cr_return : forall n r i, w_snk w (Inj n) = Some (r, i) -> returned zs n ++ concat (pend (n_c s (Inj n))) = gave w ts ys (Inj n) }.

(** What a router reads from outside in a cycle, besides flits and credits. *)
Record reads (w : netcfg) (r : nat) (t : tick) (x : rin) : Prop := {
  rd_now : i_now x = t_now t; rd_va : i_va x = t_va t r; rd_sa : i_sa x = t_sa t r; rd_rf : i_rf x = t_rf t r;
  rd_la : forall o f, i_la x o f = match w_snk w (w_out w r o) with Some (r', i') => Some (t_rf t r' i' f) | None => None end }.

(** What stays the same of a flit. *)
Definition tag (f : flit) : Z * Z * bool * bool := (f_id f, f_pid f, f_head f, f_tail f).
(** The flits in a router: in its buffers and its crossbar. *)
Definition stock {P} (c : iqcfg) (s : router P) : list flit :=
  flat_map (fun i => flat_map (fun v => v_buf (r_vc s i v)) (seq 0 (c_vcs c))) (seq 0 (c_in c)) ++
  flat_map (fun o => flat_map (fun e => if Nat.eqb (snd (snd e)) o then [fst e] else []) (r_xb s)) (seq 0 (c_outs c)).
(** The flits in the network: in the channels to a router, delivered to it or not; in those to a node, not delivered; in the routers. *)
Definition inside {P} (w : netcfg) (s : net P) : list flit :=
  flat_map (fun n => opt (ch_out (n_f s (Inj n))) ++ pend (n_f s (Inj n))) (seq 0 (w_nodes w)) ++
  flat_map (fun c => opt (ch_out (n_f s (Ch c))) ++ pend (n_f s (Ch c))) (seq 0 (w_chans w)) ++
  flat_map (fun d => pend (n_f s (Ej d))) (seq 0 (w_nodes w)) ++
  flat_map (fun r => stock (w_cfg w r) (rt s r)) (seq 0 (w_n w)).

(** Flits are numbered by flows; the flits of a packet are of one flow: one that is no tail is followed by one of the same flow. *)
Definition fl (flow : Z -> nat) (k : nat) (l : list flit) : list flit := filter (fun f => Nat.eqb (flow (f_id f)) k) l.
Definition together (flow : Z -> nat) (l : list flit) : Prop :=
  forall l1 a b l2, l = l1 ++ a :: b :: l2 -> f_tail a = false -> flow (f_id b) = flow (f_id a).
(** A flow from node [n] to node [d] has one way through the network: a sequence of channels, each with a virtual channel, that passes no router twice. *)
Record one_way (w : netcfg) (ok : cid -> flit -> Prop) (flow : Z -> nat) (k n d : nat) (p : list (cid * nat)) : Prop := {
  ow_first : exists v p', p = (Inj n, v) :: p';
  ow_last : exists v p', p = p' ++ [(Ej d, v)];
  ow_next : forall p1 a b p2, p = p1 ++ a :: b :: p2 -> exists r i o, w_snk w (fst a) = Some (r, i) /\ w_src w (fst b) = Some (r, o);
  ow_in : forall a b r i j, In a p -> In b p -> w_snk w (fst a) = Some (r, i) -> w_snk w (fst b) = Some (r, j) -> a = b;
  ow_out : forall a b r i j, In a p -> In b p -> w_src w (fst a) = Some (r, i) -> w_src w (fst b) = Some (r, j) -> a = b;
  ow_only : forall c g, f_head g = true -> flow (f_id g) = k -> ok c g -> In (c, f_vc g) p }.
