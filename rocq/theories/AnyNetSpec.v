(** What the properties of networks described in a file speak about. *)
From Coq Require Import Ascii String ZArith Arith Bool List Sorted Permutation DecimalString.
From Verif Require Import Fupd AllocModel AllocSpec BufferModel RouteModel ChannelModel IqRouterModel IqRouterSpec NetModel NetSpec NetMeshSpec NetProgressSpec AnyNetModel.
Import ListNotations.
Open Scope nat_scope.

(** The latency of the link from one router to another. *)
Definition lat (F : anyfile) (a b : nat) : option Z := nm_get b (adj F a).
(** A sequence of links from [a] to [b] with latencies that add up to [x]. *)
Inductive road (F : anyfile) : nat -> nat -> Z -> Prop :=
| road_nil : forall a, a < an_size F -> road F a a 0
| road_cons : forall a b c x y, lat F a b = Some x -> road F b c y -> road F a c (x + y)%Z.
Definition connected (F : anyfile) : Prop := forall a b, a < an_size F -> b < an_size F -> exists x, road F a b x.

(** Routers and nodes are numbered from 0; each node is attached to one router; links go both ways; all latencies are positive. *)
Record clean (F : anyfile) : Prop := {
  cl_local : map fst (an_local F) = seq 0 (an_size F);
  cl_link : map fst (an_link F) = seq 0 (an_size F);
  cl_seq : map fst (an_node F) = seq 0 (an_nodes F);
  cl_node : forall m r, In m (locals F r) <-> nm_get m (an_node F) = Some r;
  cl_once : forall r, NoDup (locals F r) /\ NoDup (map fst (adj F r));
  cl_sym : forall a b, lat F a b <> None -> lat F b a <> None;
  cl_pos : forall a b x, lat F a b = Some x -> (1 <= x)%Z;
  cl_near : forall r m x, nm_get m (sub r (an_local F)) = Some x -> (1 <= x)%Z }.
(** The latencies of as many links as there are routers add up to a number that is an int. *)
Definition short (F : anyfile) : Prop := exists W, (forall a b x, lat F a b = Some x -> x <= W)%Z /\ (0 <= W)%Z /\ (Z.of_nat (an_size F) * W < max_int)%Z.

(** A packet for node [m] that follows the tables from router [r] leaves the network at node [m]; the latencies of the links on the way add up to [x]. *)
Inductive travels (F : anyfile) (m : nat) : nat -> Z -> Prop :=
| tr_here : forall r p, table F r m = Some p -> p < radix F r -> any_out F r p = Ej m -> travels F m r 0
| tr_hop : forall r p c r' x y, table F r m = Some p -> p < radix F r -> any_out F r p = Ch c -> nth_error (links F) c = Some (r, r') -> lat F r r' = Some x -> travels F m r' y ->
    travels F m r (x + y)%Z.

(** ** The network *)
(** The routers that a packet from node [a] to node [d] comes to. *)
Inductive reached (F : anyfile) (a d : nat) : nat -> Prop :=
| re_start : forall r, nm_get a (an_node F) = Some r -> reached F a d r
| re_hop : forall u p c v, reached F a d u -> table F u d = Some p -> p < radix F u -> any_out F u p = Ch c -> nth_error (links F) c = Some (u, v) -> reached F a d v.
(** A head may be where the tables have led it from its source; it may leave at its destination. *)
Definition any_ok (F : anyfile) (T : traffic) (vcs : nat) (c : cid) (g : flit) : Prop :=
  y_src T (f_id g) < an_nodes F /\ y_dest T (f_id g) < an_nodes F /\ y_b T (f_id g) <= y_e T (f_id g) < vcs /\ y_b T (f_id g) <= f_vc g <= y_e T (f_id g) /\
  match c with
  | Inj m => m = y_src T (f_id g)
  | Ej d => d = y_dest T (f_id g)
  | Ch c => exists u p, reached F (y_src T (f_id g)) (y_dest T (f_id g)) u /\ table F u (y_dest T (f_id g)) = Some p /\ p < radix F u /\ any_out F u p = Ch c
  end.
(** What the routing function gives. *)
Definition any_route (F : anyfile) (T : traffic) (r : nat) (f : flit) : list oelem :=
  match min_anynet F r (y_dest T (f_id f)) (Z.of_nat (y_b T (f_id f))) (Z.of_nat (y_e T (f_id f))) with Some es => es | None => [] end.
(** What the nodes and the allocators keep to, after the cycles [ts] with results [zs]; the routers use the tables. *)
Record adecent (F : anyfile) (T : traffic) (w : netcfg) (ts : list tick) (zs : list nout) (t : tick) : Prop := {
  ad_va : forall r l, r < w_n w -> legal_asks (c_in (w_cfg w r) * c_vcs (w_cfg w r)) (c_outs (w_cfg w r) * c_vcs (w_cfg w r)) l -> matching l (t_va t r l);
  ad_sa : forall r l, r < w_n w -> legal_asks (c_in (w_cfg w r)) (c_outs (w_cfg w r)) l -> matching l (t_sa t r l);
  ad_rf : forall r i f, f_head f = true -> t_rf t r i f = any_route F T r f;
  ad_inj : forall m f, m < w_nodes w -> t_inj t m = Some f ->
    well_formed (on_vc (f_vc f) (injected ts m ++ [f])) /\
    (Z.of_nat (length (injected ts m)) - Z.of_nat (length (returned zs m)) < bc_size (w_b w))%Z /\ f_vc f < bc_vcs (w_b w) /\
    (f_head f = true -> m = y_src T (f_id f) /\ y_dest T (f_id f) < w_nodes w /\ y_b T (f_id f) <= f_vc f <= y_e T (f_id f) /\ y_e T (f_id f) < bc_vcs (w_b w) /\
      (w_rd w = false -> forall r, nm_get m (an_node F) = Some r -> f_la f = any_route F T r f));
  ad_cred : forall d vs, t_cred t d = Some vs ->
    NoDup vs /\ forall v, In v vs -> v < bc_vcs (w_b w) /\ count_occ Nat.eq_dec (credited ts d) v < length (on_vc v (ejected zs d)) }.
Fixpoint adecent_from {P} (F : anyfile) (T : traffic) (w : netcfg) (hts : list tick) (hzs : list nout) (ts : list tick) (s : net P) : Prop :=
  match ts with
  | [] => True
  | t :: r => adecent F T w hts hzs t /\ forall s' z, net_step w t s = Some (s', z) -> adecent_from F T w (hts ++ [t]) (hzs ++ [z]) r s'
  end.
Definition adecent_run (P : bpolicy) (F : anyfile) (T : traffic) (w : netcfg) (ts : list tick) : Prop := adecent_from F T w [] [] ts (net0 P w).

(** ** No cycles *)
(** The links have ranks, and a packet that the tables lead from one link to another goes to a lower rank. *)
Definition ranked (F : anyfile) (rank : nat -> nat) : Prop :=
  forall a d u p c v p' c', a < an_nodes F -> d < an_nodes F -> reached F a d u -> table F u d = Some p -> p < radix F u -> any_out F u p = Ch c -> nth_error (links F) c = Some (u, v) ->
    table F v d = Some p' -> p' < radix F v -> any_out F v p' = Ch c' -> rank c' < rank c.
(** Each link is between a router and its parent, which is less deep. *)
Definition tree (F : anyfile) (parent depth : nat -> nat) : Prop :=
  forall a b, lat F a b <> None -> (parent a = b /\ depth a = S (depth b)) \/ (parent b = a /\ depth b = S (depth a)).

(** ** The file *)
(** What a line says about its router: it has a node, or a link to another router, perhaps with a latency. *)
Inductive item := INode (m : nat) | IRouter (q : nat) (x : option Z).
Inductive item_text : item -> list string -> Prop :=
| it_node : forall m s, number s = Some m -> item_text (INode m) ["node"%string; s]
| it_router : forall q s, number s = Some q -> item_text (IRouter q None) ["router"%string; s]
| it_weight : forall q x s t, number s = Some q -> t <> "router"%string -> t <> "node"%string -> atoi t = x -> item_text (IRouter q (Some x)) ["router"%string; s; t].
Inductive line_text : nat * list item -> list string -> Prop :=
| lt_intro : forall r s its ws, number s = Some r -> Forall2 item_text its ws -> line_text (r, its) ("router"%string :: s :: concat ws).
(** The lines say that [m] is a node of [r]. *)
Definition names (D : list (nat * list item)) (r m : nat) : Prop := exists its, In (r, its) D /\ In (INode m) its.
(** They speak about the router [r]. *)
Definition mentions (D : list (nat * list item)) (r : nat) : Prop := exists r' its, In (r', its) D /\ (r' = r \/ exists x, In (IRouter r x) its).
(** The latencies that the lines of [a] give for the link to [b], in this order. *)
Definition told1 (b : nat) (it : item) : list Z := match it with IRouter q x => if Nat.eqb q b then [match x with Some y => y | None => 1%Z end] else [] | INode _ => [] end.
Definition told (D : list (nat * list item)) (a b : nat) : list Z := flat_map (fun l => if Nat.eqb (fst l) a then flat_map (told1 b) (snd l) else []) D.
(** The last one counts; a link that only the other router speaks about has latency 1. *)
Definition wanted (D : list (nat * list item)) (a b : nat) : option Z :=
  match last (map Some (told D a b)) None with Some x => Some x | None => match told D b a with [] => None | _ => Some 1%Z end end.
Record described (D : list (nat * list item)) (F : anyfile) : Prop := {
  ds_node : forall m r, nm_get m (an_node F) = Some r <-> names D r m;
  ds_local : forall r m x, nm_get m (sub r (an_local F)) = Some x <-> x = 1%Z /\ names D r m;
  ds_lat : forall a b, lat F a b = wanted D a b;
  ds_locals : forall r, In r (map fst (an_local F)) <-> mentions D r;
  ds_links : forall r, In r (map fst (an_link F)) <-> mentions D r;
  ds_order : StronglySorted lt (map fst (an_node F)) /\ StronglySorted lt (map fst (an_local F)) /\ StronglySorted lt (map fst (an_link F)) /\
    forall r, StronglySorted lt (map fst (sub r (an_local F))) /\ StronglySorted lt (map fst (sub r (an_link F))) }.
(** No node is named by two routers. *)
Definition agree (D : list (nat * list item)) : Prop := forall r r' m, names D r m -> names D r' m -> r = r'.
(** The text of a line, with decimal numbers. *)
Definition decimal (n : nat) : string := NilEmpty.string_of_uint (Nat.to_uint n).
Definition item_words (it : item) : list string :=
  match it with INode m => ["node"%string; decimal m] | IRouter q None => ["router"%string; decimal q] | IRouter q (Some x) => ["router"%string; decimal q; decimal (Z.to_nat x)] end.
Definition line_string (l : nat * list item) : string := String.concat " " ("router"%string :: decimal (fst l) :: concat (map item_words (snd l))).

(** ** Every packet arrives *)
(** However the nodes and allocators behave, if they keep to the rules: once the nodes stop injecting and give credits for what they get, all that was sent is at its destination after a number of
    cycles that depends on the network and the number of flits only. *)
Definition delivers_all (P : bpolicy) (F : anyfile) (b : bcfg) (rd : bool) (cd ob : Z) (T : traffic) (slots : Z) : Prop :=
  let w := any_cfg F b rd cd ob in
  exists B, forall D ts1 ts2, 0 < D -> adecent_run P F T w (ts1 ++ ts2) -> (forall m v, together (y_dest T) (on_vc v (injected (ts1 ++ ts2) m))) -> rising (ts1 ++ ts2) ->
    (forall t, In t (ts1 ++ ts2) -> honest w t) -> whole w ts1 -> (forall t, In t ts2 -> quiet w t /\ giving w t) ->
    (forall l1 l2 l3 s zs, ts2 = l1 ++ l2 ++ l3 -> length l2 = D -> net_run w (ts1 ++ l1) (net0 P w) = Some (s, zs) -> eager w slots (ts1 ++ l1) zs l2) ->
    B * (1 + amount w ts1) * D <= length ts2 ->
    exists s zs, net_run w (ts1 ++ ts2) (net0 P w) = Some (s, zs) /\ inside w s = [] /\
      forall d, d < w_nodes w -> Permutation (map tag (filter (fun f => Nat.eqb (y_dest T (f_id f)) d) (flat_map (injected ts1) (seq 0 (w_nodes w))))) (map tag (ejected zs d)).
