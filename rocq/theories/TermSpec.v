(** What the properties of the terminals speak about. *)
From Coq Require Import ZArith Arith Bool List.
From Verif Require Import Fupd AllocModel AllocSpec BufferModel RouteModel RouteSpec ChannelModel CreditModel IqRouterModel IqRouterSpec NetModel NetSpec NetMeshModel NetMeshSpec StreamSpec TermModel.
Import ListNotations.
Open Scope nat_scope.

(** What a node sent and read, and the slots it freed. *)
Definition took (n : nat) (o : list tobs) : list flit := flat_map (fun x => match x with Took m f => if Nat.eqb m n then [f] else [] | _ => [] end) o.
Definition got (n : nat) (o : list tobs) : list flit := flat_map (fun x => match x with Got m f => if Nat.eqb m n then [f] else [] | _ => [] end) o.
Definition freed (n : nat) (es : list tev) : list nat := flat_map (fun e => match e with VFree m v => if Nat.eqb m n then [v] else [] | _ => [] end) es.

(** The injection thread of a node and the cycles of the network take turns, and so do its reads and the cycles.  (All run on the same edges of the
    NoC clock; the order at an edge is the same at all edges.) *)
Definition inj_turns (n : nat) (es : list tev) : list bool := flat_map (fun e => match e with VInj m _ _ => if Nat.eqb m n then [true] else [] | VTick _ => [false] | _ => [] end) es.
Definition read_turns (n : nat) (es : list tev) : list bool := flat_map (fun e => match e with VRead m => if Nat.eqb m n then [true] else [] | VTick _ => [false] | _ => [] end) es.
Definition alternate (l : list bool) : Prop := forall l1 a b l2, l = l1 ++ a :: b :: l2 -> a <> b.
Definition in_turn (w : netcfg) (es : list tev) : Prop := forall n, n < w_nodes w -> alternate (inj_turns n es) /\ alternate (read_turns n es).

(** What the adapters and the allocators keep to, after the events [h] with results [o]: nodes send packets, whose heads may be where they start; they
    free only slots of flits they read; the allocators match requests. *)
Definition tdecent (w : netcfg) (ok : cid -> flit -> Prop) (h : list tev) (o : list tobs) (e : tev) : Prop :=
  match e with
  | VInj n _ f => n < w_nodes w /\ forall g, f = Some g -> f_vc g < bc_vcs (w_b w) /\ well_formed (on_vc (f_vc g) (took n o ++ [g])) /\ (f_head g = true -> ok (Inj n) g)
  | VRead n => n < w_nodes w
  | VFree n v => n < w_nodes w /\ count_occ Nat.eq_dec (freed n h) v < length (on_vc v (got n o))
  | VTick k =>
      (forall r l, r < w_n w -> legal_asks (c_in (w_cfg w r) * c_vcs (w_cfg w r)) (c_outs (w_cfg w r) * c_vcs (w_cfg w r)) l -> matching l (k_va k r l)) /\
      (forall r l, r < w_n w -> legal_asks (c_in (w_cfg w r)) (c_outs (w_cfg w r)) l -> matching l (k_sa k r l))
  end.
Fixpoint tdecent_from {P} (w : netcfg) (rf : nat -> nat -> flit -> list oelem) (ok : cid -> flit -> Prop) (h : list tev) (o : list tobs) (es : list tev) (s : term P) : Prop :=
  match es with
  | [] => True
  | e :: r => tdecent w ok h o e /\ forall s' o', term_step w rf e s = Some (s', o') -> tdecent_from w rf ok (h ++ [e]) (o ++ o') r s'
  end.
Definition tdecent_run (P : bpolicy) (w : netcfg) (rf : nat -> nat -> flit -> list oelem) (ok : cid -> flit -> Prop) (es : list tev) : Prop := tdecent_from w rf ok [] [] es (term0 P w).

(** The routing function keeps to the places where heads may be, which does not depend on routes computed in advance. *)
Definition routes_ok (w : netcfg) (rf : nat -> nat -> flit -> list oelem) (ok : cid -> flit -> Prop) : Prop :=
  (forall r i f, r < w_n w -> i < c_in (w_cfg w r) -> f_head f = true -> ok (w_in w r i) f -> lawful w ok r f (rf r i f)) /\
  (forall c f g, same f g -> f_vc g = f_vc f -> ok c f -> ok c g).

(** What a node has not read yet of its ejection channel: if the last turn was a cycle, the flit there. *)
Definition unread {P} (n : nat) (es : list tev) (s : term P) : list flit := if last (read_turns n es) false then [] else opt (ch_out (n_f (tm_net s) (Ej n))).

(** ** Meshes *)
(** A node starts only its own packets, to existing nodes and on the channels of their types. *)
Definition starts (T : traffic) (w : netcfg) (c : cid) (f : flit) : Prop :=
  match c with
  | Inj n => y_src T (f_id f) = n /\ y_dest T (f_id f) < w_nodes w /\ y_b T (f_id f) <= f_vc f <= y_e T (f_id f) /\ y_e T (f_id f) < bc_vcs (w_b w)
  | _ => True
  end.
(** All flits of a packet say the same about source, destination and type. *)
Definition agree (T : traffic) (l : list flit) : Prop := together (y_src T) l /\ together (y_dest T) l /\ together (y_b T) l /\ together (y_e T) l.
(** The flits from node [m] to node [d] of the type with channel [v]. *)
Definition between (T : traffic) (m d v : nat) (l : list flit) : list flit :=
  filter (fun f => Nat.eqb (y_src T (f_id f)) m && Nat.eqb (y_dest T (f_id f)) d && Nat.eqb (y_b T (f_id f)) v) l.
(** Every flit sent has been read. *)
Definition drained {P} (w : netcfg) (es : list tev) (s : term P) : Prop := inside w (tm_net s) = [] /\ forall n, n < w_nodes w -> tm_inj s n = None /\ unread n es s = [].
(** The routes of a routing function without choice. *)
Definition routes_of (f : RouteModel.rin -> option (list oelem)) (T : traffic) (r i : nat) (g : flit) : list oelem := match f (asked T r i g) with Some es => es | None => [] end.
