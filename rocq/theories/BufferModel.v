(** The credit tracker of a downstream buffer: rad-sim/sim/noc/booksim/buffer_state.cpp.
    [None] is a call of Error or a failed assert: both end the simulation. *)
From Coq Require Import ZArith Arith Bool List.
From Verif Require Import Fupd.
Import ListNotations.
Open Scope Z_scope.

(** rad-sim/sim/noc/booksim/buffer_state.hpp:159-170.  [_last_id] and [_last_pid] are written only and left out. *)
Record bst := { b_occ : Z; b_vocc : nat -> Z; b_use : nat -> Z; b_tail : nat -> bool }.
(** rad-sim/sim/noc/booksim/buffer_state.cpp:539-569. *)
Definition bst0 : bst := {| b_occ := 0; b_vocc := fun _ => 0; b_use := fun _ => -1; b_tail := fun _ => false |}.

(** rad-sim/sim/noc/booksim/buffer_state.hpp:207-214 : IsEmptyFor and IsAvailableFor. *)
Definition empty_for (b : bst) (v : nat) : bool := b_vocc b v =? 0.
(** rad-sim/sim/noc/booksim/buffer_state.hpp:207-214. *)
Definition available_for (b : bst) (v : nat) : bool := b_use b v <? 0.

(** rad-sim/sim/noc/booksim/buffer_state.hpp:40-58 : what a policy does.  The first argument is the simulation time. *)
Record bpolicy := {
  po_st : Type;
  po_init : po_st;
  po_take : nat -> po_st -> option po_st;
  po_send : Z -> bst -> nat -> bool -> po_st -> option po_st;
  po_free : Z -> bst -> nat -> po_st -> option po_st;
  po_full : Z -> bst -> nat -> po_st -> option bool }.

(** The parameters read in rad-sim/sim/noc/booksim/buffer_state.cpp:542-549. *)
Record bcfg := { bc_vcs : nat; bc_size : Z; bc_wait : bool }.

(** A tracker with its policy. rad-sim/sim/noc/booksim/buffer_state.hpp:159-173. *)
Record bufs (P : bpolicy) := { bs_b : bst; bs_p : po_st P }.
Arguments bs_b {P}. Arguments bs_p {P}.
(** rad-sim/sim/noc/booksim/buffer_state.cpp:539-569. *)
Definition bufs0 (P : bpolicy) : bufs P := {| bs_b := bst0; bs_p := po_init P |}.

(** rad-sim/sim/noc/booksim/buffer_state.cpp:652-664 : TakeBuffer. *)
Definition bs_take (c : bcfg) (P : bpolicy) (v : nat) (tag : Z) (s : bufs P) : option (bufs P) :=
  if negb (Nat.ltb v (bc_vcs c)) then None
  else if 0 <=? b_use (bs_b s) v then None
  else match po_take P v (bs_p s) with
       | Some p => Some {| bs_b := {| b_occ := b_occ (bs_b s); b_vocc := b_vocc (bs_b s); b_use := fupd (b_use (bs_b s)) v tag;
                                      b_tail := fupd (b_tail (bs_b s)) v false |}; bs_p := p |}
       | None => None
       end.

(** rad-sim/sim/noc/booksim/buffer_state.cpp:620-650 : SendingFlit. *)
Definition bs_send (c : bcfg) (P : bpolicy) (t : Z) (v : nat) (tail : bool) (s : bufs P) : option (bufs P) :=
  let b := bs_b s in
  if negb (Nat.ltb v (bc_vcs c)) then None
  else if bc_size c <? b_occ b + 1 then None
  else
    let b1 := {| b_occ := b_occ b + 1; b_vocc := fupd (b_vocc b) v (b_vocc b v + 1); b_use := b_use b; b_tail := b_tail b |} in
    match po_send P t b1 v tail (bs_p s) with
    | None => None
    | Some p =>
        if tail then
          if bc_wait c then Some {| bs_b := {| b_occ := b_occ b1; b_vocc := b_vocc b1; b_use := b_use b1; b_tail := fupd (b_tail b1) v true |}; bs_p := p |}
          else if b_use b1 v <? 0 then None
          else Some {| bs_b := {| b_occ := b_occ b1; b_vocc := b_vocc b1; b_use := fupd (b_use b1) v (-1); b_tail := fupd (b_tail b1) v true |}; bs_p := p |}
        else Some {| bs_b := b1; bs_p := p |}
    end.

(** rad-sim/sim/noc/booksim/buffer_state.cpp:577-616 : one virtual channel of a credit. *)
Definition bs_credit1 (c : bcfg) (P : bpolicy) (t : Z) (v : nat) (s : bufs P) : option (bufs P) :=
  let b := bs_b s in
  if negb (Nat.ltb v (bc_vcs c)) then None
  else if bc_wait c && (b_use b v <? 0) then None
  else if b_occ b - 1 <? 0 then None
  else if b_vocc b v - 1 <? 0 then None
  else
    let b1 := {| b_occ := b_occ b - 1; b_vocc := fupd (b_vocc b) v (b_vocc b v - 1); b_use := b_use b; b_tail := b_tail b |} in
    let done := bc_wait c && empty_for b1 v && b_tail b1 v in
    if done && (b_use b1 v <? 0) then None
    else
      let b2 := if done then {| b_occ := b_occ b1; b_vocc := b_vocc b1; b_use := fupd (b_use b1) v (-1); b_tail := b_tail b1 |} else b1 in
      match po_free P t b2 v (bs_p s) with Some p => Some {| bs_b := b2; bs_p := p |} | None => None end.
(** rad-sim/sim/noc/booksim/buffer_state.cpp:572-617 : ProcessCredit; the set is given as the list of its elements in order. *)
Fixpoint bs_credit (c : bcfg) (P : bpolicy) (t : Z) (vs : list nat) (s : bufs P) : option (bufs P) :=
  match vs with
  | [] => Some s
  | v :: r => match bs_credit1 c P t v s with Some s1 => bs_credit c P t r s1 | None => None end
  end.

(** The calls of a router (rad-sim/sim/noc/booksim/routers/iq_router.cpp:900, 1963, 2037, 453) or of an injecting adapter. *)
Inductive bev := ETake (v : nat) (tag : Z) | ESend (v : nat) (tail : bool) | ECredit (vs : list nat).
(** One call, rad-sim/sim/noc/booksim/buffer_state.cpp:572-664. *)
Definition bs_step (c : bcfg) (P : bpolicy) (e : Z * bev) (s : bufs P) : option (bufs P) :=
  match e with
  | (_, ETake v tag) => bs_take c P v tag s
  | (t, ESend v tail) => bs_send c P t v tail s
  | (t, ECredit vs) => bs_credit c P t vs s
  end.
(** Several calls, rad-sim/sim/noc/booksim/buffer_state.cpp:572-664. *)
Fixpoint bs_run (c : bcfg) (P : bpolicy) (es : list (Z * bev)) (s : bufs P) : option (bufs P) :=
  match es with
  | [] => Some s
  | e :: r => match bs_step c P e s with Some s1 => bs_run c P r s1 | None => None end
  end.

(** ** Private *)

(** rad-sim/sim/noc/booksim/buffer_state.cpp:86-122. *)
Definition private_policy (size : Z) : bpolicy :=
  {| po_st := unit; po_init := tt;
     po_take := fun _ p => Some p;
     po_send := fun _ b v _ p => if size <? b_vocc b v then None else Some p;
     po_free := fun _ _ _ p => Some p;
     po_full := fun _ b v _ => Some (size <=? b_vocc b v) |}.
(** rad-sim/sim/noc/booksim/buffer_state.cpp:89-97 and 542-546 : the sizes from the settings num_vcs, buf_size and vc_buf_size. *)
Definition new_private (vcs : nat) (buf_size vc_buf_size : Z) (wait : bool) : option (bcfg * bpolicy) :=
  let vc_size := if buf_size <=? 0 then vc_buf_size else buf_size / Z.of_nat vcs in
  let size := if buf_size <? 0 then Z.of_nat vcs * vc_buf_size else buf_size in
  if 0 <? vc_size then Some ({| bc_vcs := vcs; bc_size := size; bc_wait := wait |}, private_policy vc_size) else None.

(** ** Shared *)

(** rad-sim/sim/noc/booksim/buffer_state.hpp:73-77 : the sizes, fixed at construction. *)
Record shcfg := { sc_n : nat; sc_map : nat -> nat; sc_psize : nat -> Z; sc_shared : Z; sc_buf : Z }.
(** rad-sim/sim/noc/booksim/buffer_state.hpp:76, 78, 79. *)
Record shst := { sh_pocc : nat -> Z; sh_socc : Z; sh_res : nat -> Z }.
(** rad-sim/sim/noc/booksim/buffer_state.cpp:125, 135, 191. *)
Definition shst0 : shst := {| sh_pocc := fun _ => 0; sh_socc := 0; sh_res := fun _ => 0 |}.

(** rad-sim/sim/noc/booksim/buffer_state.cpp:194-208 : ProcessFreeSlot. *)
Definition sh_process_free (c : shcfg) (v : nat) (s : shst) : option shst :=
  let i := sc_map c v in
  let o := sh_pocc s i - 1 in
  if o <? 0 then None
  else if sc_psize c i <=? o then
    if sh_socc s - 1 <? 0 then None else Some {| sh_pocc := fupd (sh_pocc s) i o; sh_socc := sh_socc s - 1; sh_res := sh_res s |}
  else Some {| sh_pocc := fupd (sh_pocc s) i o; sh_socc := sh_socc s; sh_res := sh_res s |}.

(** rad-sim/sim/noc/booksim/buffer_state.cpp:225-230 : the reserved slots are given back one by one; [k] of them. *)
Fixpoint sh_release (c : shcfg) (k : nat) (v : nat) (s : shst) : option shst :=
  match k with
  | O => Some s
  | S k' =>
      match sh_process_free c v {| sh_pocc := sh_pocc s; sh_socc := sh_socc s; sh_res := fupd (sh_res s) v (sh_res s v - 1) |} with
      | Some s1 => sh_release c k' v s1
      | None => None
      end
  end.

(** rad-sim/sim/noc/booksim/buffer_state.cpp:210-231 : SendingFlit. *)
Definition sh_send (c : shcfg) (v : nat) (tail : bool) (s : shst) : option shst :=
  let i := sc_map c v in
  let r :=
    if 0 <? sh_res s v then Some {| sh_pocc := sh_pocc s; sh_socc := sh_socc s; sh_res := fupd (sh_res s) v (sh_res s v - 1) |}
    else
      let o := sh_pocc s i + 1 in
      if sc_psize c i <? o then
        if sc_shared c <? sh_socc s + 1 then None else Some {| sh_pocc := fupd (sh_pocc s) i o; sh_socc := sh_socc s + 1; sh_res := sh_res s |}
      else Some {| sh_pocc := fupd (sh_pocc s) i o; sh_socc := sh_socc s; sh_res := sh_res s |} in
  match r with
  | None => None
  | Some s1 => if tail then sh_release c (Z.to_nat (sh_res s1 v)) v s1 else Some s1
  end.

(** rad-sim/sim/noc/booksim/buffer_state.cpp:233-240 : FreeSlotFor. *)
Definition sh_free (c : shcfg) (b : bst) (v : nat) (s : shst) : option shst :=
  if negb (available_for b v) && empty_for b v
  then Some {| sh_pocc := sh_pocc s; sh_socc := sh_socc s; sh_res := fupd (sh_res s) v (sh_res s v + 1) |}
  else sh_process_free c v s.

(** rad-sim/sim/noc/booksim/buffer_state.cpp:242-248 : IsFullFor. *)
Definition sh_full (c : shcfg) (v : nat) (s : shst) : bool :=
  (sh_res s v =? 0) && (sc_psize c (sc_map c v) <=? sh_pocc s (sc_map c v)) && (sc_shared c <=? sh_socc s).

(** rad-sim/sim/noc/booksim/buffer_state.cpp:124-262. *)
Definition shared_policy (c : shcfg) : bpolicy :=
  {| po_st := shst; po_init := shst0;
     po_take := fun _ s => Some s;
     po_send := fun _ _ v tail s => sh_send c v tail s;
     po_free := fun _ b v s => sh_free c b v s;
     po_full := fun _ _ v s => Some (sh_full c v s) |}.

(** rad-sim/sim/noc/booksim/buffer_state.cpp:178-188 : the map from virtual channels to private buffers; [None] is a failed assert or
    an index outside the vectors. *)
Fixpoint map_range (i : nat) (vs : list nat) (m : nat -> option nat) : option (nat -> option nat) :=
  match vs with
  | [] => Some m
  | v :: r => match m v with Some _ => None | None => map_range i r (fupd m v (Some i)) end
  end.
(** rad-sim/sim/noc/booksim/buffer_state.cpp:178-188. *)
Fixpoint map_ranges (vcs i : nat) (starts ends : list nat) (m : nat -> option nat) : option (nat -> option nat) :=
  match starts, ends with
  | [], [] => Some m
  | a :: sr, e :: er =>
      if Nat.leb a e && Nat.ltb e vcs then
        match map_range i (seq a (S e - a)) m with Some m1 => map_ranges vcs (S i) sr er m1 | None => None end
      else None
  | _, _ => None
  end.
(** rad-sim/sim/noc/booksim/buffer_state.cpp:124-192 : the constructor; [psizes], [starts] and [ends] are the vectors after the
    defaults were filled in, one entry per private buffer.  A virtual channel without private buffer
    keeps the index -1, which every later access uses: [None]. *)
Definition new_shared (vcs : nat) (buf_size : Z) (psizes : list Z) (starts ends : list nat) : option shcfg :=
  let n := length psizes in
  if negb (Nat.eqb (length starts) n && Nat.eqb (length ends) n) then None
  else match map_ranges vcs 0 starts ends (fun _ => None) with
       | None => None
       | Some m =>
           let shared := buf_size - fold_right Z.add 0 psizes in
           if shared <? 0 then None
           else if forallb (fun v => match m v with Some _ => true | None => false end) (seq 0 vcs)
           then Some {| sc_n := n; sc_map := fun v => match m v with Some i => i | None => O end;
                        sc_psize := fun i => nth i psizes 0; sc_shared := shared; sc_buf := buf_size |}
           else None
       end.
(** rad-sim/sim/noc/booksim/buffer_state.cpp:127-175 with the default settings (rad-sim/sim/noc/booksim/booksim_config.cpp:111-117): [private_bufs] given,
    one slot size for all, the ranges of equal width. *)
Definition default_starts (vcs n : nat) : list nat := map (fun i => (i * vcs / n)%nat) (seq 0 n).
(** rad-sim/sim/noc/booksim/buffer_state.cpp:166-177 : the last channels. *)
Definition default_ends (vcs n : nat) : list nat := map (fun i => ((i + 1) * vcs / n - 1)%nat) (seq 0 n).
(** rad-sim/sim/noc/booksim/buffer_state.cpp:128-133 : the number of private buffers. *)
Definition default_bufs (vcs : nat) (private_bufs : Z) : nat :=
  if private_bufs <? 0 then vcs else if private_bufs =? 0 then 1%nat else Z.to_nat private_bufs.
(** rad-sim/sim/noc/booksim/buffer_state.cpp:127-192 and 542-546. *)
Definition default_shared (vcs : nat) (buf_size vc_buf_size private_bufs private_size : Z) : option shcfg :=
  let n := default_bufs vcs private_bufs in
  let buf := if buf_size <? 0 then Z.of_nat vcs * vc_buf_size else buf_size in
  let ps := if private_size <? 0 then buf / Z.of_nat n else private_size in
  new_shared vcs buf (repeat ps n) (default_starts vcs n) (default_ends vcs n).

(** ** Limited, dynamic, shifting *)

(** rad-sim/sim/noc/booksim/buffer_state.hpp:94-95. *)
Record limst := { li_sh : shst; li_active : Z; li_max : Z }.

(** How the limit follows the number of active channels: never (rad-sim/sim/noc/booksim/buffer_state.cpp:264-272), by division (:310-331), by
    halving (:333-364). *)
Inductive limkind := Fixed (max_held : Z) | Dynamic | Shifting.
(** rad-sim/sim/noc/booksim/buffer_state.cpp:345-348 : [while(i) { m >>= 1; i >>= 1; }]; the fuel is the number of bits of [i]. *)
Fixpoint halve (fuel : nat) (i m : Z) : Z :=
  match fuel with O => m | S f => if i =? 0 then m else halve f (i / 2) (m / 2) end.
(** rad-sim/sim/noc/booksim/buffer_state.cpp:343-348. *)
Definition shift_limit (buf active : Z) : Z := halve (S (Z.to_nat (Z.log2 (active - 1)))) (active - 1) buf.
(** rad-sim/sim/noc/booksim/buffer_state.cpp:267-271, 313. *)
Definition lim_init (c : shcfg) (k : limkind) : limst :=
  {| li_sh := shst0; li_active := 0;
     li_max := match k with Fixed m => if m <? 0 then sc_buf c else m | _ => sc_buf c end |}.
(** rad-sim/sim/noc/booksim/buffer_state.cpp:274-280, 316-322, 339-350. *)
Definition lim_take (c : shcfg) (vcs : nat) (k : limkind) (s : limst) : option limst :=
  let a := li_active s + 1 in
  if Z.of_nat vcs <? a then None
  else
    let m := match k with Fixed _ => li_max s | Dynamic => sc_buf c / a | Shifting => shift_limit (sc_buf c) a end in
    match k with
    | Fixed _ => Some {| li_sh := li_sh s; li_active := a; li_max := m |}
    | _ => if (a <=? 0) || (m <=? 0) then None else Some {| li_sh := li_sh s; li_active := a; li_max := m |}
    end.
(** rad-sim/sim/noc/booksim/buffer_state.cpp:282-291, 324-331, 352-364. *)
Definition lim_send (c : shcfg) (k : limkind) (v : nat) (tail : bool) (s : limst) : option limst :=
  match sh_send c v tail (li_sh s) with
  | None => None
  | Some sh =>
      let a := if tail then li_active s - 1 else li_active s in
      if tail && (a <? 0) then None
      else
        let m := match k with
                 | Fixed _ => li_max s
                 | Dynamic => if tail && negb (a =? 0) then sc_buf c / a else li_max s
                 | Shifting => if tail && negb (a =? 0) then shift_limit (sc_buf c) a else li_max s
                 end in
        match k with
        | Fixed _ => Some {| li_sh := sh; li_active := a; li_max := m |}
        | _ => if m <=? 0 then None else Some {| li_sh := sh; li_active := a; li_max := m |}
        end
  end.
(** rad-sim/sim/noc/booksim/buffer_state.cpp:264-364. *)
Definition limited_policy (c : shcfg) (vcs : nat) (k : limkind) : bpolicy :=
  {| po_st := limst; po_init := lim_init c k;
     po_take := fun _ s => lim_take c vcs k s;
     po_send := fun _ _ v tail s => lim_send c k v tail s;
     po_free := fun _ b v s => match sh_free c b v (li_sh s) with
                               | Some sh => Some {| li_sh := sh; li_active := li_active s; li_max := li_max s |} | None => None end;
     po_full := fun _ b v s => Some (sh_full c v (li_sh s) || (li_max s <=? b_vocc b v)) |}.

(** ** Feedback *)

(** rad-sim/sim/noc/booksim/buffer_state.hpp:134-137 : the settings. *)
Record fbcfg := { fc_scale : Z; fc_offset : Z; fc_minlat : Z }.
(** rad-sim/sim/noc/booksim/buffer_state.hpp:131-133, 151.  [_total_mapped_size] is written only and left out.  [fb_pend] is used by
    the simple kind only. *)
Record fbst := { fb_sh : shst; fb_limit : nat -> Z; fb_rtt : nat -> Z; fb_sent : nat -> list Z; fb_pend : nat -> Z }.
(** rad-sim/sim/noc/booksim/buffer_state.cpp:366-378, 492-496. *)
Definition fbst0 (c : shcfg) : fbst :=
  {| fb_sh := shst0; fb_limit := fun _ => sc_buf c; fb_rtt := fun _ => -1; fb_sent := fun _ => []; fb_pend := fun _ => 0 |}.
(** rad-sim/sim/noc/booksim/buffer_state.cpp:395-403. *)
Definition fb_rtt_of (f : fbcfg) (v : nat) (last : Z) (s : fbst) : Z :=
  let r := fb_rtt s v in if r <? 0 then last else Z.shiftr (Z.shiftl r (fc_scale f) + last - r) (fc_scale f).
(** rad-sim/sim/noc/booksim/buffer_state.cpp:405-411. *)
Definition fb_limit_of (f : fbcfg) (rtt : Z) : option Z :=
  if fc_minlat f <? 0 then None else Some (Z.max (2 * fc_minlat f - rtt + fc_offset f) 1).
(** rad-sim/sim/noc/booksim/buffer_state.cpp:413-423. *)
Definition fb_max_slots (f : fbcfg) (t : Z) (v : nat) (s : fbst) : option Z :=
  match fb_sent s v with
  | [] => Some (fb_limit s v)
  | x :: _ => match fb_limit_of f (fb_rtt_of f v (t - x) s) with Some l => Some (Z.min (fb_limit s v) l) | None => None end
  end.
(** rad-sim/sim/noc/booksim/buffer_state.cpp:389-393. *)
Definition fb_send (c : shcfg) (t : Z) (v : nat) (tail : bool) (s : fbst) : option fbst :=
  match sh_send c v tail (fb_sh s) with
  | Some sh => Some {| fb_sh := sh; fb_limit := fb_limit s; fb_rtt := fb_rtt s; fb_sent := fupd (fb_sent s) v (fb_sent s v ++ [t]); fb_pend := fb_pend s |}
  | None => None
  end.
(** rad-sim/sim/noc/booksim/buffer_state.cpp:425-471. *)
Definition fb_free (c : shcfg) (f : fbcfg) (t : Z) (b : bst) (v : nat) (s : fbst) : option fbst :=
  match sh_free c b v (fb_sh s) with
  | None => None
  | Some sh =>
      match fb_sent s v with
      | [] => None
      | x :: r =>
          let rtt := fb_rtt_of f v (t - x) s in
          match fb_limit_of f rtt with
          | Some l => Some {| fb_sh := sh; fb_limit := fupd (fb_limit s) v l; fb_rtt := fupd (fb_rtt s) v rtt; fb_sent := fupd (fb_sent s) v r; fb_pend := fb_pend s |}
          | None => None
          end
      end
  end.
(** rad-sim/sim/noc/booksim/buffer_state.cpp:473-479. *)
Definition fb_full (c : shcfg) (f : fbcfg) (t : Z) (b : bst) (v : nat) (s : fbst) : option bool :=
  if sh_full c v (fb_sh s) then Some true
  else match fb_max_slots f t v s with Some m => Some (m <=? b_vocc b v) | None => None end.
(** rad-sim/sim/noc/booksim/buffer_state.cpp:366-490. *)
Definition feedback_policy (c : shcfg) (f : fbcfg) : bpolicy :=
  {| po_st := fbst; po_init := fbst0 c;
     po_take := fun _ s => Some s;
     po_send := fun t _ v tail s => fb_send c t v tail s;
     po_free := fun t b v s => fb_free c f t b v s;
     po_full := fun t b v s => fb_full c f t b v s |}.

(** rad-sim/sim/noc/booksim/buffer_state.cpp:498-514. *)
Definition sf_send (c : shcfg) (t : Z) (b : bst) (v : nat) (tail : bool) (s : fbst) : option fbst :=
  match fb_sent s v with
  | [] => if 0 <? b_vocc b v
          then fb_send c t v tail {| fb_sh := fb_sh s; fb_limit := fb_limit s; fb_rtt := fb_rtt s; fb_sent := fb_sent s; fb_pend := fupd (fb_pend s) v (b_vocc b v - 1) |}
          else None
  | _ => match sh_send c v tail (fb_sh s) with
         | Some sh => Some {| fb_sh := sh; fb_limit := fb_limit s; fb_rtt := fb_rtt s; fb_sent := fb_sent s; fb_pend := fb_pend s |}
         | None => None
         end
  end.
(** rad-sim/sim/noc/booksim/buffer_state.cpp:516-537. *)
Definition sf_free (c : shcfg) (f : fbcfg) (t : Z) (b : bst) (v : nat) (s : fbst) : option fbst :=
  let probing := match fb_sent s v with [] => false | _ => true end in
  if probing && (fb_pend s v =? 0) then fb_free c f t b v s
  else if (0 <? fb_pend s v) && negb probing then None
  else match sh_free c b v (fb_sh s) with
       | Some sh => Some {| fb_sh := sh; fb_limit := fb_limit s; fb_rtt := fb_rtt s; fb_sent := fb_sent s;
                            fb_pend := if 0 <? fb_pend s v then fupd (fb_pend s) v (fb_pend s v - 1) else fb_pend s |}
       | None => None
       end.
(** rad-sim/sim/noc/booksim/buffer_state.cpp:492-537. *)
Definition simple_feedback_policy (c : shcfg) (f : fbcfg) : bpolicy :=
  {| po_st := fbst; po_init := fbst0 c;
     po_take := fun _ s => Some s;
     po_send := fun t b v tail s => sf_send c t b v tail s;
     po_free := fun t b v s => sf_free c f t b v s;
     po_full := fun t b v s => fb_full c f t b v s |}.
