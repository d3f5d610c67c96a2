(** Networks described in a file: rad-sim/sim/noc/booksim/networks/anynet.cpp. *)
From Coq Require Import Ascii String ZArith Arith Bool List.
From Verif Require Import Fupd BufferModel RouteModel ChannelModel IqRouterModel NetModel NetMeshModel.
Import ListNotations.
Open Scope nat_scope.

(** rad-sim/sim/noc/booksim/networks/anynet.hpp:40-48 : std::map, in the order of the keys. *)
Definition nmap (A : Type) := list (nat * A).
(** rad-sim/sim/noc/booksim/networks/anynet.hpp:40-48 : find and count. *)
Fixpoint nm_get {A} (k : nat) (m : nmap A) : option A :=
  match m with [] => None | (j, x) :: r => if Nat.eqb j k then Some x else nm_get k r end.
(** rad-sim/sim/noc/booksim/networks/anynet.hpp:40-48 : operator[] and an assignment. *)
Fixpoint nm_set {A} (k : nat) (v : A) (m : nmap A) : nmap A :=
  match m with
  | [] => [(k, v)]
  | (j, x) :: r => if Nat.eqb j k then (k, v) :: r else if Nat.ltb k j then (k, v) :: (j, x) :: r else (j, x) :: nm_set k v r
  end.

(** rad-sim/sim/noc/booksim/networks/anynet.hpp:40-44 : node_list, router_list[0] and router_list[1]; of a pair of port and latency only the latency: the ports are set in
    _BuildNet and not read before. *)
Record anyfile := { an_node : nmap nat; an_local : nmap (nmap Z); an_link : nmap (nmap Z) }.
(** rad-sim/sim/noc/booksim/networks/anynet.cpp:61-64 : nothing is known at first. *)
Definition an0 : anyfile := {| an_node := []; an_local := []; an_link := [] |}.
(** rad-sim/sim/noc/booksim/networks/anynet.cpp:408, 449, 460 and 463-465 : operator[], which adds an empty map for a new key. *)
Definition sub (k : nat) (m : nmap (nmap Z)) : nmap Z := match nm_get k m with Some x => x | None => [] end.
(** rad-sim/sim/noc/booksim/networks/anynet.cpp:393-398 : a new router has no nodes and links. *)
Definition fresh (k : nat) (m : nmap (nmap Z)) : nmap (nmap Z) := match nm_get k m with Some _ => m | None => nm_set k [] m end.
(** rad-sim/sim/noc/booksim/networks/anynet.cpp:408, 449, 460 and 463-465. *)
Definition set2 (a b : nat) (v : Z) (m : nmap (nmap Z)) : nmap (nmap Z) := nm_set a (nm_set b v (sub a m)) m.
(** rad-sim/sim/noc/booksim/networks/anynet.cpp:393-398 and 426-433 : in both lists. *)
Definition new_router (k : nat) (F : anyfile) : anyfile := {| an_node := an_node F; an_local := fresh k (an_local F); an_link := fresh k (an_link F) |}.
(** rad-sim/sim/noc/booksim/networks/anynet.cpp:440-449 and 451-460 : a node is attached to a router, unless it is attached to another one. *)
Definition attach (node router : nat) (F : anyfile) : option anyfile :=
  match nm_get node (an_node F) with
  | Some r => if Nat.eqb r router then Some {| an_node := nm_set node router (an_node F); an_local := set2 router node 1%Z (an_local F); an_link := an_link F |} else None
  | None => Some {| an_node := nm_set node router (an_node F); an_local := set2 router node 1%Z (an_local F); an_link := an_link F |}
  end.
(** rad-sim/sim/noc/booksim/networks/anynet.cpp:462-466 : two routers are linked, both ways. *)
Definition connect (a b : nat) (F : anyfile) : anyfile :=
  let l := set2 a b 1%Z (an_link F) in
  {| an_node := an_node F; an_local := an_local F; an_link := match nm_get a (sub b l) with Some _ => l | None => set2 b a 1%Z l end |}.

(** atoi, which rad-sim/sim/noc/booksim/networks/anynet.cpp:390, 407 and 424 call: blanks, a sign, digits; what follows is ignored. *)
Fixpoint digits (acc : Z) (s : string) : Z :=
  match s with
  | EmptyString => acc
  | String c r => let x := (Z.of_nat (nat_of_ascii c) - 48)%Z in if ((0 <=? x) && (x <=? 9))%Z then digits (10 * acc + x)%Z r else acc
  end.
(** rad-sim/sim/noc/booksim/networks/anynet.cpp:390 (atoi). *)
Fixpoint atoi (s : string) : Z :=
  match s with
  | EmptyString => 0%Z
  | String c r =>
      let x := nat_of_ascii c in
      if (Nat.eqb x 32 || (Nat.leb 9 x && Nat.leb x 13))%bool then atoi r
      else if Nat.eqb x 45 then (- digits 0 r)%Z else if Nat.eqb x 43 then digits 0 r else digits 0 s
  end.
(** rad-sim/sim/noc/booksim/networks/anynet.cpp:390 and 424 : a number.  A negative one is kept by the program, but then fails the assertion at lines 496-501 or is used as an index of an array at 143-203: [None]. *)
Definition number (s : string) : option nat := if (atoi s <? 0)%Z then None else Some (Z.to_nat (atoi s)).

(** rad-sim/sim/noc/booksim/networks/anynet.cpp:366-374 : the words of a line, which are separated by single blanks; empty ones are skipped. *)
Fixpoint words (cur : string) (s : string) : list string :=
  match s with
  | EmptyString => if String.eqb cur ""%string then [] else [cur]
  | String c r => if Nat.eqb (nat_of_ascii c) 32 then (if String.eqb cur ""%string then words ""%string r else cur :: words ""%string r) else words (cur ++ String c EmptyString)%string r
  end.
(** rad-sim/sim/noc/booksim/networks/anynet.cpp:331-335. *)
Inductive pstate := HeadType | HeadId | BodyType | BodyId | LinkWeight.
(** rad-sim/sim/noc/booksim/networks/anynet.cpp:353-364 : what is known while a line is read; [true] for a router, [false] for a node. *)
Record pline := { p_st : pstate; p_head : bool; p_hid : nat; p_body : bool; p_bid : nat; p_f : anyfile }.
(** rad-sim/sim/noc/booksim/networks/anynet.cpp:353-364. *)
Definition line0 (F : anyfile) : pline := {| p_st := HeadType; p_head := false; p_hid := 0; p_body := false; p_bid := 0; p_f := F |}.
(** rad-sim/sim/noc/booksim/networks/anynet.cpp:377-387 and 412-422 : router or node. *)
Definition kind (s : string) : option bool := if String.eqb s "router"%string then Some true else if String.eqb s "node"%string then Some false else None.
(** rad-sim/sim/noc/booksim/networks/anynet.cpp:376-474 : a word; [None] for a failed assertion. *)
Definition read_word (p : pline) (s : string) : option pline :=
  match p_st p with
  | HeadType => match kind s with
                | Some k => Some {| p_st := HeadId; p_head := k; p_hid := p_hid p; p_body := p_body p; p_bid := p_bid p; p_f := p_f p |}
                | None => None
                end
  | HeadId => match number s with
              | Some k => Some {| p_st := BodyType; p_head := p_head p; p_hid := k; p_body := p_body p; p_bid := p_bid p; p_f := new_router k (p_f p) |}
              | None => None
              end
  | BodyType => match kind s with
                | Some k => Some {| p_st := BodyId; p_head := p_head p; p_hid := p_hid p; p_body := k; p_bid := p_bid p; p_f := p_f p |}
                | None => None
                end
  | LinkWeight =>
      match kind s with
      | Some k => Some {| p_st := BodyId; p_head := p_head p; p_hid := p_hid p; p_body := k; p_bid := p_bid p; p_f := p_f p |}
      | None => let F := p_f p in
                Some {| p_st := LinkWeight; p_head := p_head p; p_hid := p_hid p; p_body := p_body p; p_bid := p_bid p;
                        p_f := if p_head p then {| an_node := an_node F; an_local := an_local F; an_link := set2 (p_hid p) (p_bid p) (atoi s) (an_link F) |}
                               else {| an_node := an_node F; an_local := set2 (p_hid p) (p_bid p) (atoi s) (an_local F); an_link := an_link F |} |}
      end
  | BodyId =>
      match number s with
      | Some k =>
          let F := if p_body p then new_router k (p_f p) else p_f p in
          match (if p_head p then (if p_body p then Some (connect (p_hid p) k F) else attach k (p_hid p) F) else (if p_body p then attach (p_hid p) k F else None)) with
          | Some F' => Some {| p_st := LinkWeight; p_head := p_head p; p_hid := p_hid p; p_body := p_body p; p_bid := k; p_f := F' |}
          | None => None
          end
      | None => None
      end
  end.
(** rad-sim/sim/noc/booksim/networks/anynet.cpp:366-476 : the words of a line. *)
Fixpoint read_words (p : pline) (l : list string) : option pline :=
  match l with [] => Some p | s :: r => match read_word p s with Some p' => read_words p' r | None => None end end.
(** rad-sim/sim/noc/booksim/networks/anynet.cpp:348-480 : a line; one that ends early is reported but kept. *)
Definition read_line (F : anyfile) (s : string) : option anyfile := match read_words (line0 F) (words ""%string s) with Some p => Some (p_f p) | None => None end.
(** rad-sim/sim/noc/booksim/networks/anynet.cpp:346-482 : the lines. *)
Fixpoint read_lines (F : anyfile) (l : list string) : option anyfile :=
  match l with [] => Some F | s :: r => match read_line F s with Some F' => read_lines F' r | None => None end end.
(** rad-sim/sim/noc/booksim/networks/anynet.cpp:495-501 : the comparison of the numbers. *)
Definition same_list (a b : list nat) : bool := if list_eq_dec Nat.eq_dec a b then true else false.
(** rad-sim/sim/noc/booksim/networks/anynet.cpp:327-503 (readFile): the file and the assertions at its end. *)
Definition read_file (l : list string) : option anyfile :=
  match read_lines an0 l with
  | Some F => if Nat.eqb (length (an_local F)) (length (an_link F)) && same_list (map fst (an_node F)) (seq 0 (length (an_node F))) then Some F else None
  | None => None
  end.

(** rad-sim/sim/noc/anynet_file:1-16 : the file that comes with the simulator. *)
Definition shipped : list string :=
  ["router 0 router 8 node 0"%string;
   "router 1 router 15 node 1"%string;
   "router 2 router 10 node 2"%string;
   "router 3 router 11 router 9 node 3"%string;
   "router 4 router 12 node 4"%string;
   "router 5 router 12 node 5"%string;
   "router 6 router 13 node 6"%string;
   "router 7 router 2 node 7"%string;
   "router 8 router 3 node 8"%string;
   "router 9 router 7 router 2 node 9"%string;
   "router 10 node 10"%string;
   "router 11 router 9 node 11"%string;
   "router 12 router 13 node 12"%string;
   "router 13 router 15 node 13"%string;
   "router 14 router 4 node 14"%string;
   "router 15 router 0 router 3 router 8 node 15"%string].

(** ** The network *)
(** rad-sim/sim/noc/booksim/networks/anynet.cpp:126 : _size. *)
Definition an_size (F : anyfile) : nat := length (an_link F).
(** rad-sim/sim/noc/booksim/networks/anynet.cpp:127 : _nodes. *)
Definition an_nodes (F : anyfile) : nat := length (an_node F).
(** rad-sim/sim/noc/booksim/networks/anynet.cpp:157-172 : the nodes of a router, in the order in which they are attached. *)
Definition locals (F : anyfile) (r : nat) : list nat := map fst (sub r (an_local F)).
(** rad-sim/sim/noc/booksim/networks/anynet.cpp:182-202 : the links of a router, in the order in which they are made. *)
Definition adj (F : anyfile) (r : nat) : nmap Z := sub r (an_link F).
(** rad-sim/sim/noc/booksim/networks/anynet.cpp:180-203 : the channels between routers, by their numbers. *)
Definition links (F : anyfile) : list (nat * nat) := flat_map (fun r => map (fun e => (r, fst e)) (adj F r)) (map fst (an_local F)).
(** rad-sim/sim/noc/booksim/networks/anynet.cpp:186-199 : those that leave a router. *)
Definition outs (F : anyfile) (r : nat) : list nat := filter (fun c => Nat.eqb (fst (nth c (links F) (0, 0))) r) (seq 0 (length (links F))).
(** rad-sim/sim/noc/booksim/networks/anynet.cpp:186-200 : those that enter it, in the order in which they are added. *)
Definition ins (F : anyfile) (r : nat) : list nat := filter (fun c => Nat.eqb (snd (nth c (links F) (0, 0))) r) (seq 0 (length (links F))).
(** rad-sim/sim/noc/booksim/networks/anynet.cpp:146-154 : the number of inputs and of outputs. *)
Definition radix (F : anyfile) (r : nat) : nat := length (locals F r) + length (adj F r).
(** rad-sim/sim/noc/booksim/networks/anynet.cpp:170 and 200 : the channels at the ports. *)
Definition any_in (F : anyfile) (r i : nat) : cid := nth i (map Inj (locals F r) ++ map Ch (ins F r)) (Ch (length (links F))).
(** rad-sim/sim/noc/booksim/networks/anynet.cpp:171 and 199. *)
Definition any_out (F : anyfile) (r o : nat) : cid := nth o (map Ej (locals F r) ++ map Ch (outs F r)) (Ch (length (links F))).
(** rad-sim/sim/noc/booksim/routers/router.cpp:90-103 : the port a channel was added to last. *)
Definition any_port (F : anyfile) (at_port : nat -> nat -> cid) (c : cid) : option (nat * nat) :=
  find (fun a => cid_eqb (at_port (fst a) (snd a)) c) (rev (flat_map (fun r => map (pair r) (seq 0 (radix F r))) (seq 0 (an_size F)))).
(** rad-sim/sim/noc/booksim/networks/anynet.cpp:165-168 and 196-197 : the delay of a channel and of its credit channel. *)
Definition any_delay (F : anyfile) (c : cid) : Z :=
  match c with
  | Inj m | Ej m => match find (fun r => match nm_get m (sub r (an_local F)) with Some _ => true | None => false end) (rev (map fst (an_local F))) with
                    | Some r => match nm_get m (sub r (an_local F)) with Some x => x | None => 1%Z end
                    | None => 1%Z
                    end
  | Ch c => match nth_error (links F) c with Some (a, b) => match nm_get b (adj F a) with Some x => x | None => 1%Z end | None => 1%Z end
  end.
(** rad-sim/sim/noc/booksim/networks/anynet.cpp:133-207 (_BuildNet): the arrays are used within their bounds, each router gets as many channels as it has ports, and
    the latencies are positive (rad-sim/sim/noc/booksim/channel.hpp:84-89). *)
Definition any_fits (F : anyfile) : bool :=
  same_list (map fst (an_local F)) (seq 0 (an_size F)) && same_list (map fst (an_link F)) (seq 0 (an_size F)) &&
  forallb (fun r => forallb (fun m => Nat.ltb m (an_nodes F)) (locals F r) && forallb (fun e => Nat.ltb (fst e) (an_size F)) (adj F r) && Nat.eqb (length (ins F r)) (length (adj F r)) &&
    forallb (fun e => (1 <=? snd e)%Z) (sub r (an_local F) ++ adj F r)) (seq 0 (an_size F)).
(** rad-sim/sim/noc/booksim/networks/anynet.cpp:133-207 (_BuildNet); the settings of the routers are the same for all. *)
Definition any_cfg (F : anyfile) (b : bcfg) (rd : bool) (cdelay obuf : Z) : netcfg :=
  {| w_n := an_size F; w_nodes := an_nodes F; w_chans := length (links F); w_b := b; w_rd := rd;
     w_cfg := fun r => {| c_in := radix F r; c_outs := radix F r; c_b := b; c_rdelay := rd; c_cdelay := cdelay; c_obuf := obuf |};
     w_in := any_in F; w_out := any_out F; w_src := any_port F (any_out F); w_snk := any_port F (any_in F);
     w_fd := any_delay F; w_cd := any_delay F |}.
(** rad-sim/sim/noc/booksim/networks/anynet.cpp:133-207; [None] if it leaves the bounds of an array. *)
Definition any_net (F : anyfile) (b : bcfg) (rd : bool) (cdelay obuf : Z) : option netcfg := if any_fits F then Some (any_cfg F b rd cdelay obuf) else None.

(** ** The routing tables *)
(** rad-sim/sim/noc/booksim/networks/anynet.cpp:263 : numeric_limits<int>::max(). *)
Definition max_int : Z := 2147483647.
(** rad-sim/sim/noc/booksim/networks/anynet.cpp:259-261 : dist, prev and rlist. *)
Record dj := { d_dist : nat -> Z; d_prev : nat -> option nat; d_left : list nat }.
(** rad-sim/sim/noc/booksim/networks/anynet.cpp:259-267. *)
Definition dj0 (F : anyfile) (s : nat) : dj := {| d_dist := fupd (fun _ => max_int) s 0%Z; d_prev := fun _ => None; d_left := seq 0 (an_size F) |}.
(** rad-sim/sim/noc/booksim/networks/anynet.cpp:269-279 : the first one of those with the least distance below [best]. *)
Fixpoint pick (d : nat -> Z) (best : Z) (cand : option nat) (l : list nat) : option nat :=
  match l with [] => cand | i :: r => if (d i <? best)%Z then pick d (d i) (Some i) r else pick d best cand r end.
(** rad-sim/sim/noc/booksim/networks/anynet.cpp:282-291 : the links of [m]; [None] if the sum exceeds an int. *)
Fixpoint relax (m : nat) (l : nmap Z) (d : nat -> Z) (p : nat -> option nat) : option ((nat -> Z) * (nat -> option nat)) :=
  match l with
  | [] => Some (d, p)
  | (u, x) :: r =>
      let nd := (d m + x)%Z in
      if ((nd <? - max_int - 1) || (max_int <? nd))%Z%bool then None
      else if (nd <? d u)%Z then relax m r (fupd d u nd) (fupd p u (Some m)) else relax m r d p
  end.
(** rad-sim/sim/noc/booksim/networks/anynet.cpp:268-292 : a turn of the loop.  If no distance is below the limit, the candidate is -1: nothing is erased, and router_list[1][-1] is empty. *)
Definition dj_step (F : anyfile) (s : dj) : option dj :=
  match pick (d_dist s) max_int None (d_left s) with
  | None => Some s
  | Some m => match relax m (adj F m) (d_dist s) (d_prev s) with
              | Some (d, p) => Some {| d_dist := d; d_prev := p; d_left := filter (fun i => negb (Nat.eqb i m)) (d_left s) |}
              | None => None
              end
  end.
(** rad-sim/sim/noc/booksim/networks/anynet.cpp:268-292 : [k] turns, or fewer if nothing is left. *)
Fixpoint dj_run (F : anyfile) (k : nat) (s : dj) : option dj :=
  match k with
  | 0 => Some s
  | S j => match d_left s with [] => Some s | _ => match dj_step F s with Some s' => dj_run F j s' | None => None end end
  end.
(** rad-sim/sim/noc/booksim/networks/anynet.cpp:305-311 : back to the neighbour of [s] on the way to [i]. *)
Fixpoint walk (F : anyfile) (k : nat) (prev : nat -> option nat) (s i : nat) : option nat :=
  match k with
  | 0 => None
  | S j => match prev i with
           | Some q => if Nat.eqb q s then Some i else match nm_get q (adj F i) with Some _ => walk F j prev s q | None => None end
           | None => None
           end
  end.
(** rad-sim/sim/noc/booksim/networks/anynet.cpp:314-315 : the port of a link, as set at 190-191. *)
Fixpoint index (x : nat) (l : list nat) : option nat :=
  match l with [] => None | y :: r => if Nat.eqb y x then Some 0 else option_map S (index x r) end.
(** rad-sim/sim/noc/booksim/networks/anynet.cpp:295-322 : what is entered for the nodes of router [i]. *)
Definition entries (F : anyfile) (prev : nat -> option nat) (s i : nat) : option (list (nat * nat)) :=
  match prev i with
  | None => if Nat.eqb i s then Some (combine (locals F i) (seq 0 (length (locals F i)))) else None
  | Some _ => match walk F (an_size F) prev s i with
              | Some q => match index q (map fst (adj F s)) with Some p => Some (map (fun m => (m, length (locals F s) + p)) (locals F i)) | None => None end
              | None => None
              end
  end.
(** rad-sim/sim/noc/booksim/networks/anynet.cpp:294-323 : the table, in the order in which it is filled. *)
Fixpoint fill (F : anyfile) (prev : nat -> option nat) (s : nat) (l : list nat) : option (list (nat * nat)) :=
  match l with
  | [] => Some []
  | i :: r => match entries F prev s i, fill F prev s r with Some a, Some b => Some (a ++ b) | _, _ => None end
  end.
(** rad-sim/sim/noc/booksim/networks/anynet.cpp:258-324 (route); [None] if the loop does not end or an assertion fails. *)
Definition route (F : anyfile) (s : nat) : option (list (nat * nat)) :=
  match dj_run F (an_size F) (dj0 F s) with
  | Some st => match d_left st with [] => fill F (d_prev st) s (seq 0 (an_size F)) | _ => None end
  | None => None
  end.
(** rad-sim/sim/noc/booksim/networks/anynet.cpp:217-220 : the entry for a node, the last that was made. *)
Definition table (F : anyfile) (r m : nat) : option nat :=
  match route F r with Some l => option_map snd (find (fun e => Nat.eqb (fst e) m) (rev l)) | None => None end.
(** rad-sim/sim/noc/booksim/networks/anynet.cpp:214-244 (min_anynet) at a router; [None] for the assertion. *)
Definition min_anynet (F : anyfile) (r dest : nat) (b e : Z) : option (list oelem) :=
  match table F r dest with Some p => Some [add_range (Z.of_nat p) b e] | None => None end.
