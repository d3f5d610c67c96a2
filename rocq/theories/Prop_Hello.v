(** C110-C111: the requester and the responder of the example design aximm_hello_world. *)
From Coq Require Import ZArith Bool List Lia.
From Verif Require Import Bits BitsProofs VcModel AddrModel AximmFormatModel AximmInModel AximmSpec AximmFormatProofs AximmInProofs Prop_AximmIn HelloModel HelloSpec HelloProofs.
Import ListNotations.
Local Open Scope Z_scope.

(** ** C110: an adapter with a faster clock in phase with the clock of its module never accepts transactions at two edges of the module in a row. *)
Theorem C110_pause : forall c evs e1 mid e2 s0 o0 s1 o1 s2 o2 s3 o3, good_xcfg c ->
  let all := evs ++ [e1] ++ mid ++ [e2] in
  Forall ok_xinstant all -> in_phase all -> clocked (xc_ratio c) None all ->
  In TNode (x_ths e1) -> (forall ev, In ev mid -> ~ In TNode (x_ths ev)) -> In TNode (x_ths e2) ->
  x_run c x_init evs = Some (s0, o0) -> x_step c s0 e1 = Some (s1, o1) -> x_run c s1 mid = Some (s2, o2) -> x_step c s2 e2 = Some (s3, o3) ->
  accs o1 = [] \/ accs o3 = [].
Proof.
  intros c evs e1 mid e2 s0 o0 s1 o1 s2 o2 s3 o3 HC all Ok Ph Ck N1 Nm N2 R0 R1 R2 R3. unfold all in *.
  assert (F : forall l a b clk s A I P pend s' o, l = a ++ b -> Forall ok_xinstant l -> clocked (xc_ratio c) clk l -> Inv c clk s A I P pend -> x_run c s a = Some (s', o) ->
    exists clk' P' pend', Inv c clk' s' (A ++ accs o) (I ++ injs o) P' pend' /\ Forall ok_xinstant b /\ clocked (xc_ratio c) clk' b).
  { intros l a b clk s A I P pend s' o -> Hl. revert clk s A I P pend s' o. induction a as [|e a IH]; intros clk s A I P pend s' o Hc Hi Hr.
    - cbn in Hr. injection Hr as <- <-. exists clk, P, pend. cbn. rewrite !app_nil_r. auto.
    - cbn [app] in *. inversion Hl as [|? ? Hl1 Hl2]; subst. cbn [x_run] in Hr. destruct (x_step c s e) as [[t1 p1]|] eqn:E1; [|discriminate]. destruct (x_run c t1 a) as [[t2 p2]|] eqn:E2; [|discriminate]. injection Hr as <- <-.
      destruct (clocked_cons c clk e _ Hc) as [K1 K2]. destruct (inv_step c HC clk s A I P pend e t1 p1 Hi Hl1 K1 E1) as (P1 & pe1 & Hi1).
      destruct (IH Hl2 _ _ _ _ _ _ _ _ K2 Hi1 E2) as (k' & P' & pe' & X & Y). exists k', P', pe'. rewrite accs_app, injs_app, !app_assoc. auto. }
  assert (Ad : forall e, In e [e1; e2] -> has TAdapt e = true).
  { intros e He. apply has_in. destruct He as [<-|[<-|[]]]; (apply Ph; [rewrite !in_app_iff; cbn; tauto|assumption]). }
  destruct (F _ evs _ None x_init [] [] [] [] s0 o0 eq_refl Ok Ck (inv_init c HC) R0) as (k0 & P0 & pe0 & I0 & Ok1 & Ck1). cbn [app] in Ok1, Ck1.
  inversion Ok1 as [|? ? Oe1 Ok2]; subst. destruct (clocked_cons c k0 e1 _ Ck1) as [K1 Ck2].
  destruct (inv_step c HC _ _ _ _ _ _ e1 s1 o1 I0 Oe1 K1 R1) as (P1 & pe1 & I1).
  destruct (F _ mid _ _ s1 _ _ _ _ s2 o2 eq_refl Ok2 Ck2 I1 R2) as (k2 & P2 & pe2 & I2 & Ok3 & Ck3). cbn [app] in Ok3, Ck3.
  inversion Ok3 as [|? ? Oe2 _]; subst. destruct (clocked_cons c k2 e2 _ Ck3) as [K2 _].
  assert (Q : nd s2 = nd s1).
  { clear - HC R2 Nm Ok2. revert s1 s2 o2 R2. induction mid as [|e m IH]; intros s1 s2 o2 R2; cbn [x_run] in R2; [injection R2 as <- _; reflexivity|].
    destruct (x_step c s1 e) as [[t1 p1]|] eqn:E1; [|discriminate]. destruct (x_run c t1 m) as [[t2 p2]|] eqn:E2; [|discriminate]. injection R2 as <- <-. cbn [app] in Ok2. inversion Ok2; subst.
    rewrite (IH ltac:(intros ev He; apply Nm; right; auto) ltac:(assumption) _ _ _ E2). destruct (quiet_view c s1 e t1 p1) as [Q _]; auto.
    destruct (has TNode e) eqn:En; auto. apply has_in in En. exfalso. apply (Nm e (or_introl eq_refl) En). }
  destruct (edge_view c HC _ _ _ _ _ _ e1 s1 o1 I0 Oe1 K1 (proj2 (has_in _ _) N1) (Ad e1 ltac:(cbn; auto)) R1) as [(A1 & _)|(t & _ & _ & _ & V1 & _)]; [left; exact A1|right].
  destruct (edge_view c HC _ _ _ _ _ _ e2 s3 o3 I2 Oe2 K2 (proj2 (has_in _ _) N2) (Ad e2 ltac:(cbn; auto)) R3) as [(A3 & _)|(t' & V2 & _)]; [exact A3|]. rewrite Q, V1 in V2. discriminate.
Qed.
Print Assumptions C110_pause.
(** The requester never pops from an empty FIFO, and what the adapter accepts are the commands of the trace, each once and in order; the NoC gets their packets. *)
Theorem C110_requests : forall c base src depth trace evs, good_xcfg c -> xc_side c = Slave ->
  plain evs -> in_phase evs -> clocked (xc_ratio c) None evs ->
  exists s q o, rq_run c base src depth x_init (rq0 trace) evs = Some (s, q, o) /\
    (exists left, heard o ++ left = flat_map (told base src) trace /\ (q_fifo q = [] -> d_left q = [] -> left = [])) /\
    (exists late, injs o ++ late = packets c 0 (accs o)).
Proof.
  intros c base src depth trace evs HC HS Pl Ph Ck.
  destruct (rq_run_ok c HC HS base src depth evs None x_init [] [] [] [] (rq0 trace) (inv_init c HC)) as (s & q & o & k & P & pe & X1 & X2 & X3 & X4); auto.
  { constructor; cbn; try discriminate; auto; [intros _; left; auto|split; cbn; discriminate]. }
  exists s, q, o. split; [exact X1|]. split.
  - exists (todo base src q). split; [rewrite X4; reflexivity|]. intros E1 E2. unfold todo. rewrite E1, E2. destruct (q_awacc q); reflexivity.
  - destruct X3 as [vA vO _ _ _ _ _ _ _ _]. cbn [app] in *. exists (waiting s ++ packets c (final_aw c 0 P) pe). rewrite vA, packets_app, <- vO, <- app_assoc. reflexivity.
Qed.
Print Assumptions C110_requests.

(** ** C111: the responder never pops from an empty FIFO, and what the adapter accepts are the responses of a memory to the requests it has taken, in order; the NoC gets their packets. *)
Theorem C111_responses : forall c depth evs, good_xcfg c -> xc_side c = Master ->
  plain (map fst evs) -> in_phase (map fst evs) -> clocked (xc_ratio c) None (map fst evs) ->
  exists s p o taken, rp_run c depth x_init rp0 evs = Some (s, p, o, taken) /\
    heard o ++ waiting_resp p = serve (fun _ => None) [] [] taken /\
    (exists late, injs o ++ late = packets c 0 (accs o)).
Proof.
  intros c depth evs HC HS Pl Ph Ck.
  destruct (rp_run_ok c HC HS depth evs None x_init [] [] [] [] rp0 (inv_init c HC)) as (s & p & o & l & k & P & pe & X1 & X2 & X3 & X4); auto.
  { constructor; cbn; auto. intros _. exists 0, []. auto. }
  exists s, p, o, l. split; [exact X1|]. split.
  - cbn [rp0 p_resp p_mem p_aw p_wd map app] in X4. rewrite X4. reflexivity.
  - destruct X3 as [vA vO _ _ _ _ _ _ _ _]. cbn [app] in *. exists (waiting s ++ packets c (final_aw c 0 P) pe). rewrite vA, packets_app, <- vO, <- app_assoc. reflexivity.
Qed.
Print Assumptions C111_responses.

(** ** Examples: the shipped trace, four adapter edges per edge of the modules, as configured. *)
Definition hw_trace : list cmd := [{| k_write := true; k_addr := 53; k_data := 1001 |}; {| k_write := false; k_addr := 53; k_data := 0 |}].
Definition hw_at (ts : list xthread) : xinstant := {| x_ths := ts; x_off := no_offer; x_newid := 7; x_can := true; x_wake := false |}.
Definition hw_round : list xinstant := [hw_at [TNode; TAdapt; TNoc]; hw_at [TAdapt]; hw_at [TNoc]; hw_at [TAdapt]; hw_at [TNoc]; hw_at [TAdapt]; hw_at [TNoc]].
Definition hw_evs (n : nat) : list xinstant := concat (repeat hw_round n).
Lemma hw_plain : forall n, plain (hw_evs n) /\ in_phase (hw_evs n).
Proof.
  assert (H : forall n e, In e (hw_evs n) -> In e hw_round).
  { induction n as [|n IH]; [intros e []|]. intros e He. unfold hw_evs in He. cbn [repeat concat] in He. apply in_app_iff in He as [He|He]; [exact He|]. apply IH. exact He. }
  intros n. split; intros e He; apply H in He; cbn in He; destruct He as [<-|[<-|[<-|[<-|[<-|[<-|[<-|[]]]]]]]]; cbn [hw_at x_ths].
  all: try (repeat (apply NoDup_cons; [cbn; intuition congruence|]); apply NoDup_nil).
  all: cbn; intuition congruence.
Qed.
Example C110_requests_ex : let c := ex_cfg Slave repo_xwidths 4 16 in good_xcfg c /\ plain (hw_evs 10) /\ in_phase (hw_evs 10) /\ clocked (xc_ratio c) None (hw_evs 10) /\
  option_map (fun '(_, q, o) => (heard o, q_fifo q, d_left q)) (rq_run c (5 * 2 ^ 57) (3 * 2 ^ 57) 16 x_init (rq0 hw_trace) (hw_evs 10)) =
  Some ([SayAW (5 * 2 ^ 57 + 53) (3 * 2 ^ 57); SayW 1001 (3 * 2 ^ 57) true; SayAR (5 * 2 ^ 57 + 53) (3 * 2 ^ 57)], [], []).
Proof. split; [apply ex_cfg_good; lia|]. split; [apply hw_plain|]. split; [apply hw_plain|]. split; [vm_compute; intuition congruence|]. vm_compute. reflexivity. Qed.
Definition hw_asks : list asks :=
  [{| as_ar := None; as_aw := Some (53, 9); as_w := None |}; {| as_ar := None; as_aw := None; as_w := Some 1001 |}; {| as_ar := Some (53, 9); as_aw := None; as_w := None |};
   {| as_ar := Some (54, 9); as_aw := Some (53, 9); as_w := None |}].
Definition no_asks : asks := {| as_ar := None; as_aw := None; as_w := None |}.
Definition hw_pairs (n : nat) : list (xinstant * asks) := flat_map (fun i => map (fun e => (e, nth i hw_asks no_asks)) hw_round) (seq 0 n).
Lemma hw_pairs_fst : map fst (hw_pairs 9) = hw_evs 9.
Proof. reflexivity. Qed.
Example C111_responses_ex : let c := ex_cfg Master repo_xwidths 4 16 in good_xcfg c /\ plain (map fst (hw_pairs 9)) /\ in_phase (map fst (hw_pairs 9)) /\ clocked (xc_ratio c) None (map fst (hw_pairs 9)) /\
  option_map (fun '(_, p, o, l) => (heard o, l)) (rp_run c 16 x_init rp0 (hw_pairs 9)) =
  Some ([SayB 9; SayR 1001 9; SayR 0 9], [AskW 53 9; AskD 1001; AskR 53 9; AskR 54 9]).
Proof. cbv zeta. rewrite hw_pairs_fst. split; [apply ex_cfg_good; lia|]. split; [apply hw_plain|]. split; [apply hw_plain|]. split; [vm_compute; intuition congruence|]. vm_compute. reflexivity. Qed.
Example C110_pause_ex : let c := ex_cfg Slave repo_xwidths 4 16 in
  let e := fun l => at_ [TNode; TAdapt] l 10 in let mid := repeat (at_ [TAdapt] [XAR (req 5 1)] 0) 3 in let all := [] ++ [e [XAR (req 5 1)]] ++ mid ++ [e [XAR (req 5 1)]] in
  good_xcfg c /\ Forall ok_xinstant all /\ in_phase all /\ clocked (xc_ratio c) None all /\
  option_map (fun '(_, o) => length (accs o)) (x_run c x_init [e [XAR (req 5 1)]]) = Some 1%nat /\ option_map (fun '(_, o) => length (accs o)) (x_run c x_init all) = Some 1%nat.
Proof.
  cbv zeta. split; [apply ex_cfg_good; lia|]. split; [cbn [repeat app]; instants|]. split; [intros ev He; cbn [repeat app] in He; destruct He as [<-|[<-|[<-|[<-|[<-|[]]]]]]; cbn; intuition congruence|].
  split; [vm_compute; intuition congruence|]. split; vm_compute; reflexivity.
Qed.

(** ** With the same periods, but an edge of the modules between two edges of the adapters, both modules fail: they show what was accepted for another edge, at which it is accepted again. *)
Definition sh_round : list xinstant := [hw_at [TNode]; hw_at [TAdapt; TNoc]; hw_at [TAdapt; TNoc]; hw_at [TAdapt; TNoc]; hw_at [TAdapt; TNoc]].
Definition sh_evs (n : nat) : list xinstant := concat (repeat sh_round n).
Definition sh_reads : list cmd := [{| k_write := false; k_addr := 53; k_data := 0 |}; {| k_write := false; k_addr := 54; k_data := 0 |}].
Theorem C110_shifted_refuted : let c := ex_cfg Slave repo_xwidths 4 16 in
  good_xcfg c /\ Forall (fun ev => NoDup (x_ths ev)) (sh_evs 6) /\ clocked_exactly (xc_ratio c) None (sh_evs 6) /\
  rq_run c (5 * 2 ^ 57) (3 * 2 ^ 57) 16 x_init (rq0 sh_reads) (sh_evs 6) = None /\
  exists s q o, rq_run c (5 * 2 ^ 57) (3 * 2 ^ 57) 16 x_init (rq0 sh_reads) (sh_evs 4) = Some (s, q, o) /\ heard o = [SayAR (5 * 2 ^ 57 + 53) (3 * 2 ^ 57); SayAR (5 * 2 ^ 57 + 53) (3 * 2 ^ 57)].
Proof.
  cbv zeta. split; [apply ex_cfg_good; lia|]. split; [unfold sh_evs; cbn [repeat concat sh_round app]; repeat (apply Forall_cons; [repeat (apply NoDup_cons; [cbn; intuition congruence|]); apply NoDup_nil|]); apply Forall_nil|].
  split; [vm_compute; intuition congruence|]. split; [vm_compute; reflexivity|].
  destruct (rq_run (ex_cfg Slave repo_xwidths 4 16) (5 * 2 ^ 57) (3 * 2 ^ 57) 16 x_init (rq0 sh_reads) (sh_evs 4)) as [[[s q] o]|] eqn:E.
  - exists s, q, o. split; [reflexivity|].
    assert (X : option_map (fun '(_, _, o) => heard o) (rq_run (ex_cfg Slave repo_xwidths 4 16) (5 * 2 ^ 57) (3 * 2 ^ 57) 16 x_init (rq0 sh_reads) (sh_evs 4)) = Some [SayAR (5 * 2 ^ 57 + 53) (3 * 2 ^ 57); SayAR (5 * 2 ^ 57 + 53) (3 * 2 ^ 57)]) by (vm_compute; reflexivity).
    rewrite E in X. cbn [option_map] in X. injection X as X. exact X.
  - exfalso. assert (X : match rq_run (ex_cfg Slave repo_xwidths 4 16) (5 * 2 ^ 57) (3 * 2 ^ 57) 16 x_init (rq0 sh_reads) (sh_evs 4) with None => false | Some _ => true end = true) by (vm_compute; reflexivity). rewrite E in X. discriminate.
Qed.
Print Assumptions C110_shifted_refuted.
Definition sh_pairs (n : nat) : list (xinstant * asks) := flat_map (fun i => map (fun e => (e, nth i (firstn 2 hw_asks) no_asks)) sh_round) (seq 0 n).
Theorem C111_shifted_refuted : let c := ex_cfg Master repo_xwidths 4 16 in
  good_xcfg c /\ Forall (fun ev => NoDup (x_ths ev)) (map fst (sh_pairs 6)) /\ clocked_exactly (xc_ratio c) None (map fst (sh_pairs 6)) /\
  rp_run c 16 x_init rp0 (sh_pairs 6) = None.
Proof.
  cbv zeta. split; [apply ex_cfg_good; lia|]. split; [unfold sh_pairs; cbn [seq flat_map map fst sh_round app]; repeat (apply Forall_cons; [repeat (apply NoDup_cons; [cbn; intuition congruence|]); apply NoDup_nil|]); apply Forall_nil|].
  split; [vm_compute; intuition congruence|]. vm_compute. reflexivity.
Qed.
Print Assumptions C111_shifted_refuted.
