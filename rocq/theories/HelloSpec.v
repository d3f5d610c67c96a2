(** What the properties of aximm_hello_world speak about. *)
From Coq Require Import ZArith Bool List.
From Verif Require Import Bits AximmFormatModel AximmInModel AximmSpec HelloModel.
Import ListNotations.
Local Open Scope Z_scope.

(** All clocks have edges at time zero and the period of the module is a multiple of the period of the adapter: at an edge of the module there is one of the adapter. *)
Definition in_phase (evs : list xinstant) : Prop := forall ev, In ev evs -> In TNode (x_ths ev) -> In TAdapt (x_ths ev).
(** No thread runs twice at an instant. *)
Definition plain (evs : list xinstant) : Prop := forall ev, In ev evs -> NoDup (x_ths ev).
(** A transaction without its number. *)
Inductive said := SayAR (addr user : Z) | SayAW (addr user : Z) | SayW (data user : Z) (last : bool) | SayR (data user : Z) | SayB (user : Z).
Definition bare (t : xtxn) : said :=
  match t with
  | XAR h => SayAR (h_addr h) (h_user h) | XAW h => SayAW (h_addr h) (h_user h) | XW w => SayW (w_data w) (w_user w) (w_last w)
  | XR r => SayR (r_data r) (r_user r) | XB b => SayB (rb_user b)
  end.
Definition heard (o : list xobs) : list said := map (fun x => bare (fst x)) (accs o).
(** What a command becomes. *)
Definition told (base src : Z) (k : cmd) : list said :=
  if k_write k then [SayAW ((base + k_addr k) mod 2 ^ 64) src; SayW (k_data k) src true] else [SayAR ((base + k_addr k) mod 2 ^ 64) src].
(** The responses of a memory to requests in the order of their arrival; the n-th data belong to the n-th write address, a write is done when both are there.
    [aw] and [wd] are those that still wait for their counterparts. *)
Fixpoint serve (mem : Z -> option Z) (aw : list (Z * Z)) (wd : list Z) (l : list ask) : list said :=
  match l with
  | [] => []
  | AskR x u :: l' => SayR (match mem x with Some d => d | None => 0 end) u :: serve mem aw wd l'
  | AskW x u :: l' => match wd with d :: wd' => SayB u :: serve (fun y => if y =? x then Some d else mem y) aw wd' l' | [] => serve mem (aw ++ [(x, u)]) wd l' end
  | AskD d :: l' => match aw with (x, u) :: aw' => SayB u :: serve (fun y => if y =? x then Some d else mem y) aw' wd l' | [] => serve mem aw (wd ++ [d]) l' end
  end.
(** The responses that still wait in the FIFO of the responder. *)
Definition waiting_resp (p : rpst) : list said := map (fun x : bool * Z * Z => if fst (fst x) then SayB (snd (fst x)) else SayR (snd x) (snd (fst x))) (p_resp p).
