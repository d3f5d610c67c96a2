(** Lemmas about the modules of aximm_hello_world. *)
From Coq Require Import ZArith Bool List Lia.
From Verif Require Import Bits AximmFormatModel AximmInModel AximmSpec AximmFormatProofs AximmInProofs HelloModel HelloSpec.
Import ListNotations.
Local Open Scope Z_scope.

Section A.
Variable c : xcfg.
Hypothesis HC : good_xcfg c.

Lemma hs_rdy : forall ev s1 s2, rdy s1 = rdy s2 -> handshakes c ev s1 = handshakes c ev s2.
Proof. intros ev s1 s2 E. unfold handshakes. rewrite E. reflexivity. Qed.

(** An instant that is no edge of the module changes nothing that concerns it. *)
Lemma quiet_view : forall s ev s1 o, ok_xinstant ev -> has TNode ev = false -> x_step c s ev = Some (s1, o) -> nd s1 = nd s /\ accs o = [].
Proof.
  intros s ev s1 o [Hnd _] En E. unfold x_step in E. destruct (settle_ok c ev s) as (s' & E1 & Snd & _). rewrite E1 in E.
  destruct (threads_effect c ev s' (x_ths ev) s' s1 o Hnd E) as (T1 & T2 & _). change (hast TNode (x_ths ev)) with (has TNode ev) in *. rewrite En in *. rewrite T1, T2. auto.
Qed.
(** An edge of the module in phase with one of the adapter accepts nothing if the edge before accepted something. *)
Lemma edge_view : forall clk s A I P pend ev s1 o, Inv c clk s A I P pend -> ok_xinstant ev -> clk_ok c clk ev -> has TNode ev = true -> has TAdapt ev = true -> x_step c s ev = Some (s1, o) ->
  (accs o = [] /\ handshakes c ev s1 = [] /\ valid (nd s1) = false /\ got (nd s1) = got (nd s)) \/
  (exists t, valid (nd s) = false /\ accs o = [(t, x_newid ev)] /\ handshakes c ev s1 = [t] /\ valid (nd s1) = true /\
     got (nd s1) = (match t with XAW _ => true | XW w => negb (w_last w) | _ => got (nd s) end) /\ ((exists w, t = XW w) -> got (nd s) = true)).
Proof.
  intros clk s A I P pend ev s1 o HI [Hnd Hoff] Hclk En Ea E. unfold x_step in E. destruct (settle_ok c ev s) as (s' & E1 & Snd & Sad & Sq & St & Sseen & Sfresh). rewrite E1 in E.
  assert (Hnow : sens_now c ev s' = sens_now c ev s) by (unfold sens_now; rewrite Snd, Sad; reflexivity).
  destruct (threads_effect c ev s' (x_ths ev) s' s1 o Hnd E) as (T1 & T2 & T3 & _). change (hast TNode (x_ths ev)) with (has TNode ev) in *. rewrite En in *.
  destruct HI as [vA vO vW vN vF vC vP vG vL vR].
  assert (pend = []) as Hp0.
  { destruct pend as [|[t i] [|? ?]]; [reflexivity| |contradiction]. destruct vP as (_ & Hk & _). rewrite Hk in Hclk. cbn in Hclk. destruct Hclk as [_ Hk1]. specialize (Hk1 En). lia. }
  subst pend. assert (Hf1 : fresh c s') by (apply Sfresh; destruct vF as [?|[?|?]]; [left; assumption|congruence|right; assumption]).
  rewrite <- Hnow in Sseen. rewrite (hs_rdy ev s1 s' T3).
  destruct (node_edge c HC ev s' Hf1 Sseen Hoff) as [[X1 X2]|(t & X1 & X2 & X3 & X4 & X5 & X6 & X7 & X8 & X9)].
  - left. rewrite T1, T2, X1, X2. cbn [map valid got]. rewrite Snd. auto.
  - right. exists t. rewrite T1, T2, X1. cbn [map]. rewrite Snd in X8, X9. split; [|auto 6].
    destruct vP as [V|(j & Hj & J1 & J2)]; [exact V|]. exfalso. rewrite Sad in X2. subst clk. cbn in Hclk. rewrite Ea in Hclk. destruct Hclk as [K _]. pose proof (limit_ok c HC _ vN) as (L1 & L2 & L3). lia.
Qed.
End A.

Lemma node_has : forall ev, node_at ev = has TNode ev.
Proof. reflexivity. Qed.
Lemma has_in : forall t ev, has t ev = true <-> In t (x_ths ev).
Proof. intros t ev. apply (hast_in t (x_ths ev)). Qed.
Lemma next_clk_off : forall clk ev o, next_clk clk (offering ev o) = next_clk clk ev.
Proof. reflexivity. Qed.

(** ** The requester *)
Section Q.
Variable c : xcfg.
Hypothesis HC : good_xcfg c.
Hypothesis HS : xc_side c = Slave.
Variables base src depth : Z.

Definition todo (q : rqst) : list said :=
  let l := flat_map (told base src) (q_fifo q ++ d_left q) in if q_awacc q then tl l else l.
Definition shown (q : rqst) : Prop :=
  (q_ar q = None /\ q_aw q = None /\ q_w q = None /\ q_awacc q = false) \/
  exists k f id, q_fifo q = k :: f /\
    q_ar q = (if k_write k then None else Some (rq_addr base src id k)) /\
    q_aw q = (if k_write k && negb (q_awacc q) then Some (rq_addr base src id k) else None) /\
    q_w q = (if k_write k then Some (rq_data src id k) else None).
Record QInv (s : xst) (q : rqst) : Prop := {
  qi_got : got (nd s) = q_awacc q;
  qi_head : q_awacc q = true -> exists k f, q_fifo q = k :: f /\ k_write k = true;
  qi_shown : valid (nd s) = false -> shown q;
  qi_left : d_valid q = true -> d_left q <> [];
  qi_ok : ok_offers (rq_offers q) }.

Lemma addr_ok : forall id k, 0 <= h_addr (rq_addr base src id k) < 2 ^ 64.
Proof. intros. cbn [rq_addr h_addr]. apply Z.mod_pos_bound. reflexivity. Qed.

Lemma rq_split : forall q, q_fifo q ++ d_left q =
  (q_fifo q ++ (if negb (q_full q) && d_valid q then firstn 1 (d_left q) else [])) ++ (if negb (q_full q) && d_valid q then tl (d_left q) else d_left q).
Proof. intros q. destruct (negb (q_full q) && d_valid q); [|rewrite app_nil_r; reflexivity]. rewrite <- app_assoc. f_equal. destruct (d_left q); reflexivity. Qed.

Lemma out_ok : forall id (fifo : list cmd) (b : bool) h,
  (match fifo with k :: _ => if k_write k then None else Some (rq_addr base src id k) | [] => None end = Some h \/
   match fifo with k :: _ => if k_write k && b then Some (rq_addr base src id k) else None | [] => None end = Some h) -> 0 <= h_addr h < 2 ^ 64.
Proof. intros id [|k f] b h [E|E]; try discriminate; destruct (k_write k), b; cbn [andb] in E; try discriminate; injection E as <-; apply addr_ok. Qed.

Lemma rq_step : forall s q s1 ev, QInv s q ->
  (handshakes c (offering ev (rq_offers q)) s1 = [] /\ valid (nd s1) = false /\ got (nd s1) = got (nd s)) \/
  (exists t, valid (nd s) = false /\ handshakes c (offering ev (rq_offers q)) s1 = [t] /\ valid (nd s1) = true /\
     got (nd s1) = (match t with XAW _ => true | XW w => negb (w_last w) | _ => got (nd s) end) /\ ((exists w, t = XW w) -> got (nd s) = true)) ->
  exists q1, rq_edge base src depth (rdy s1) q = Some q1 /\ QInv s1 q1 /\ todo q = map bare (handshakes c (offering ev (rq_offers q)) s1) ++ todo q1.
Proof.
  intros s q s1 ev [G Hd Sh Le Ok] H. unfold handshakes in *. rewrite HS in *. cbn [offering x_off rq_offers of_ar of_aw of_w] in *. unfold rq_edge, todo. rewrite rq_split.
  destruct (rdy s1) as [[r1 r2] r3]. set (push := negb (q_full q) && d_valid q) in *. set (fifo := q_fifo q ++ (if push then firstn 1 (d_left q) else [])). set (left := if push then tl (d_left q) else d_left q).
  destruct H as [[H1 [H2 H3]]|(t & V & H1 & H2 & H3 & H4)].
  - apply app_eq_nil in H1 as [B1 B]. apply app_eq_nil in B as [B2 B3].
    assert (C1 : both (q_ar q) r1 = false) by (destruct (q_ar q), r1; try discriminate; reflexivity).
    assert (C2 : both (q_aw q) r2 = false) by (destruct (q_aw q), r2; try discriminate; reflexivity).
    assert (C3 : both (q_w q) r3 = false) by (destruct (q_w q), r3; try discriminate; reflexivity).
    rewrite C1, C2, C3, B1, B2, B3. eexists. split; [reflexivity|]. split; [|reflexivity].
    assert (Hd' : q_awacc q = true -> exists k f, fifo = k :: f /\ k_write k = true).
    { intros A. destruct (Hd A) as (k & f & E1 & E2). unfold fifo. rewrite E1. cbn [app]. eauto. }
    constructor; cbn [q_awacc q_fifo q_ar q_aw q_w d_valid d_left].
    + congruence.
    + exact Hd'.
    + intros _. unfold shown. cbn [q_awacc q_fifo q_ar q_aw q_w]. destruct fifo as [|k f] eqn:Ef.
      * left. repeat split; auto. destruct (q_awacc q); auto. destruct (Hd' eq_refl) as (? & ? & ? & _). discriminate.
      * right. exists k, f, (q_id q). auto.
    + destruct left; congruence.
    + split; cbn [rq_offers of_ar of_aw q_ar q_aw]; intros h E; apply (out_ok (q_id q) fifo (negb (q_awacc q))); auto.
  - assert (NE : q_fifo q <> [] -> exists k f f', q_fifo q = k :: f /\ fifo = k :: f') by (unfold fifo; destruct (q_fifo q) as [|k f]; [congruence|intros _; cbn [app]; eauto]).
    specialize (Sh V). destruct Sh as [(E1 & E2 & E3 & _)|(k & f & id & Ef & E1 & E2 & E3)].
    { rewrite E1, E2, E3 in H1. destruct r1, r2, r3; discriminate. }
    destruct NE as (k' & f1 & f' & Ef1 & Ef'); [congruence|]. rewrite Ef in Ef1. injection Ef1 as <- <-.
    assert (Lf : forall (l : list cmd), match l with [] => false | _ => true end = true -> l <> []) by (intros [|]; congruence).
    rewrite Ef'. rewrite E1, E2, E3 in *. destruct (k_write k) eqn:Kw; [destruct (q_awacc q) eqn:Aw|]; cbn [andb negb] in *.
    + replace (if r1 then None else None) with (@None addr_ch) in H1 by (destruct r1; reflexivity). replace (if r2 then None else None) with (@None addr_ch) in H1 by (destruct r2; reflexivity). cbn [app] in H1.
      destruct r3; [|discriminate]. injection H1 as <-. cbn [both]. eexists. split; [reflexivity|]. split.
      * constructor; cbn [q_awacc q_fifo q_ar q_aw q_w d_valid d_left]; [exact H3|discriminate|congruence|apply Lf|]. split; cbn [rq_offers of_ar of_aw q_ar q_aw]; discriminate.
      * destruct r1, r2; cbn [app map bare q_awacc q_fifo d_left rq_data w_data w_user w_last flat_map]; unfold told at 1; rewrite Kw; reflexivity.
    + replace (if r1 then None else None) with (@None addr_ch) in H1 by (destruct r1; reflexivity). cbn [app] in H1.
      destruct r2.
      * cbn [app] in H1. destruct r3; [discriminate|]. injection H1 as <-. cbn [both]. eexists. split; [reflexivity|]. split.
        -- constructor; cbn [q_awacc q_fifo q_ar q_aw q_w d_valid d_left]; [exact H3|eauto|congruence|apply Lf|]. split; cbn [rq_offers of_ar of_aw q_ar q_aw]; [discriminate|]. intros h E; injection E as <-; apply addr_ok.
        -- destruct r1; cbn [app map bare q_awacc q_fifo d_left rq_addr h_addr h_user flat_map]; unfold told; rewrite Kw; reflexivity.
      * cbn [app] in H1. destruct r3; [|discriminate]. injection H1 as <-. rewrite G in H4. assert (false = true) by eauto. discriminate.
    + assert (Aw : q_awacc q = false) by (destruct (q_awacc q); auto; destruct (Hd eq_refl) as (k1 & f2 & F1 & F2); rewrite Ef in F1; injection F1 as <- <-; congruence). rewrite Aw in *.
      replace (if r2 then None else None) with (@None addr_ch) in H1 by (destruct r2; reflexivity). replace (if r3 then None else None) with (@None w_ch) in H1 by (destruct r3; reflexivity). rewrite app_nil_r in H1. cbn [app] in H1.
      destruct r1; [|discriminate]. cbn [app] in H1. injection H1 as <-. cbn [both]. eexists. split; [reflexivity|]. split.
      * constructor; cbn [q_awacc q_fifo q_ar q_aw q_w d_valid d_left]; [congruence|discriminate|congruence|apply Lf|]. split; cbn [rq_offers of_ar of_aw q_ar q_aw]; [|discriminate]. intros h E; injection E as <-; apply addr_ok.
      * destruct r2, r3; cbn [app map bare q_awacc q_fifo d_left rq_addr h_addr h_user flat_map]; unfold told at 1; rewrite Kw; reflexivity.
Qed.

Lemma heard_app : forall a b, heard (a ++ b) = heard a ++ heard b.
Proof. intros. unfold heard. rewrite accs_app, map_app. reflexivity. Qed.

Lemma rq_run_ok : forall evs clk s A I P pend q, Inv c clk s A I P pend -> QInv s q -> plain evs -> in_phase evs -> clocked (xc_ratio c) clk evs ->
  exists s' q' o clk' P' pend', rq_run c base src depth s q evs = Some (s', q', o) /\ QInv s' q' /\ Inv c clk' s' (A ++ accs o) (I ++ injs o) P' pend' /\ heard o ++ todo q' = todo q.
Proof.
  induction evs as [|ev evs IH]; intros clk s A I P pend q HI HQ Pl Ph Ck.
  - exists s, q, [], clk, P, pend. cbn [rq_run accs injs heard flat_map map]. rewrite !app_nil_r. auto.
  - cbn [rq_run]. set (ev' := offering ev (rq_offers q)). assert (Ok : ok_xinstant ev') by (split; [exact (Pl ev (or_introl eq_refl))|apply HQ]).
    destruct (step_some c HC s ev') as [[s1 o1] E]. rewrite E. destruct (clocked_cons c clk ev evs Ck) as [K1 K2].
    destruct (inv_step c HC clk s A I P pend ev' s1 o1 HI Ok K1 E) as (P1 & pend1 & HI1).
    assert (HH : exists q1, (if node_at ev then rq_edge base src depth (rdy s1) q else Some q) = Some q1 /\ QInv s1 q1 /\ todo q = heard o1 ++ todo q1).
    { rewrite node_has. destruct (has TNode ev) eqn:En.
      - assert (Ea : has TAdapt ev = true) by (apply has_in, Ph; [left; reflexivity|apply has_in; auto]).
        pose proof (edge_view c HC clk s A I P pend ev' s1 o1 HI Ok K1 En Ea E) as V.
        assert (AH : accs o1 = map (fun x => (x, x_newid ev')) (handshakes c ev' s1)).
        { destruct V as [(V1 & V2 & _)|(t & _ & V1 & V2 & _)]; rewrite V1, V2; reflexivity. }
        destruct (rq_step s q s1 ev HQ) as (q1 & R1 & R2 & R3).
        + destruct V as [(_ & V)|(t & V1 & _ & V)]; [left; exact V|right; exists t; auto].
        + exists q1. split; [exact R1|]. split; [exact R2|]. unfold heard. rewrite AH, map_map. exact R3.
      - destruct (quiet_view c s ev' s1 o1 Ok En E) as [N1 N2]. exists q. split; [reflexivity|]. split; [|unfold heard; rewrite N2; reflexivity].
        destruct HQ as [G Hd Sh Le Oo]. constructor; auto; rewrite N1; auto. }
    destruct HH as (q1 & -> & HQ1 & T1).
    destruct (IH (next_clk clk ev) s1 (A ++ accs o1) (I ++ injs o1) P1 pend1 q1) as (s' & q' & o & clk' & P' & pend' & X1 & X2 & X3 & X4); auto.
    { intros e He; apply Pl; right; auto. }
    { intros e He; apply Ph; right; auto. }
    rewrite X1. exists s', q', (o1 ++ o), clk', P', pend'. split; [reflexivity|]. split; [exact X2|]. split.
    + rewrite accs_app, injs_app, !app_assoc. exact X3.
    + rewrite heard_app, <- app_assoc, X4. symmetry. exact T1.
Qed.
End Q.

(** ** The responder *)
Section P.
Variable c : xcfg.
Hypothesis HC : good_xcfg c.
Hypothesis HS : xc_side c = Master.
Variable depth : Z.

Definition say (x : bool * Z * Z) : said := if fst (fst x) then SayB (snd (fst x)) else SayR (snd x) (snd (fst x)).
Definition one_of (t : option ask) : list ask := match t with Some x => [x] | None => [] end.
Definition r_of (id : Z) (resp : list (bool * Z * Z)) : option r_ch :=
  match resp with (false, u, d) :: _ => Some {| r_id := id; r_data := d; r_resp := 0; r_last := true; r_user := u |} | _ => None end.
Definition b_of (id : Z) (resp : list (bool * Z * Z)) : option b_ch :=
  match resp with (true, u, _) :: _ => Some {| rb_id := id; rb_resp := 0; rb_user := u |} | _ => None end.
Record PInv (s : xst) (p : rpst) : Prop := {
  pi_ar : p_ar p = [];
  pi_w : p_aw p = [] \/ p_wd p = [];
  pi_shown : valid (nd s) = false -> exists id f, (p_r p = r_of id f /\ p_b p = b_of id f) /\ (f = [] \/ exists x g g', f = x :: g /\ p_resp p = x :: g') }.

Lemma exec_view : forall p t ar aw wd mem resp, p_ar p = [] -> p_aw p = [] \/ p_wd p = [] ->
  rp_exec (p_ar p ++ match t with Some (AskR x u) => [(x, u)] | _ => [] end) (p_aw p ++ match t with Some (AskW x u) => [(x, u)] | _ => [] end)
    (p_wd p ++ match t with Some (AskD d) => [d] | _ => [] end) (p_mem p) (p_resp p) = (ar, aw, wd, mem, resp) ->
  ar = [] /\ (aw = [] \/ wd = []) /\ (exists new, resp = p_resp p ++ new) /\
  forall l, map say (p_resp p) ++ serve (p_mem p) (p_aw p) (p_wd p) (one_of t ++ l) = map say resp ++ serve mem aw wd l.
Proof.
  intros p t ar aw wd mem resp Har Hw E. rewrite Har in E. unfold rp_exec in E.
  assert (N : forall (r : list (bool * Z * Z)), exists new, r = r ++ new) by (intros r; exists []; rewrite app_nil_r; reflexivity).
  destruct t as [[x u|x u|d]|]; cbn [app one_of] in *.
  - injection E as <- <- <- <- <-. rewrite !app_nil_r. split; [reflexivity|]. split; [exact Hw|]. split; [eauto|]. intros l. rewrite map_app, <- app_assoc. cbn [serve map app say fst snd]. destruct (p_mem p x); reflexivity.
  - rewrite app_nil_r in E. destruct (p_wd p) as [|d wd'] eqn:Ed.
    + destruct (p_aw p ++ [(x, u)]) as [|[x1 u1] aw'] eqn:Ea; injection E as <- <- <- <- <-; (split; [reflexivity|]; split; [auto|]; split; [apply N|]; intros l; cbn [serve]; rewrite Ea; reflexivity).
    + destruct Hw as [Hw|Hw]; [|discriminate]. rewrite Hw in *. cbn [app] in E. injection E as <- <- <- <- <-. split; [reflexivity|]. split; [auto|]. split; [eauto|]. intros l. rewrite map_app, <- app_assoc. reflexivity.
  - rewrite app_nil_r in E. destruct (p_aw p) as [|[x u] aw'] eqn:Ea.
    + injection E as <- <- <- <- <-. split; [reflexivity|]. split; [auto|]. split; [apply N|]. reflexivity.
    + destruct Hw as [Hw|Hw]; [discriminate|]. rewrite Hw in *. cbn [app] in E. injection E as <- <- <- <- <-. split; [reflexivity|]. split; [auto|]. split; [eauto|]. intros l. rewrite map_app, <- app_assoc. reflexivity.
  - rewrite !app_nil_r in E. destruct (p_aw p) as [|[x u] aw'] eqn:Ea; [|destruct Hw as [Hw|Hw]; [discriminate|]; rewrite Hw in * ]; injection E as <- <- <- <- <-;
      (split; [reflexivity|]; split; [auto|]; split; [apply N|]; reflexivity).
Qed.

Lemma rp_step : forall s p s1 ev a, PInv s p ->
  (handshakes c (offering ev (rp_offers p)) s1 = [] /\ valid (nd s1) = false) \/
  (exists t, valid (nd s) = false /\ handshakes c (offering ev (rp_offers p)) s1 = [t] /\ valid (nd s1) = true) ->
  exists p1, rp_edge depth (rdy s1) a p = Some p1 /\ PInv s1 p1 /\
    forall l, map say (p_resp p) ++ serve (p_mem p) (p_aw p) (p_wd p) (one_of (rp_take p a) ++ l) =
      map bare (handshakes c (offering ev (rp_offers p)) s1) ++ map say (p_resp p1) ++ serve (p_mem p1) (p_aw p1) (p_wd p1) l.
Proof.
  intros s p s1 ev a [Ar Aw Sh] H. unfold handshakes in *. rewrite HS in *. cbn [offering x_off rp_offers of_r of_b] in *. unfold rp_edge. destruct (rdy s1) as [[r1 r2] r3].
  destruct (rp_exec _ _ _ (p_mem p) (p_resp p)) as [[[[ar aw] wd] mem] resp] eqn:E. destruct (exec_view p (rp_take p a) ar aw wd mem resp Ar Aw E) as (X1 & X2 & [new X3] & X4).
  destruct H as [[H1 H2]|(t & V & H1 & H2)].
  - apply app_eq_nil in H1 as [B1 B2].
    assert (C1 : both (p_r p) r1 = false) by (destruct (p_r p), r1; try discriminate; reflexivity).
    assert (C2 : both (p_b p) r2 = false) by (destruct (p_b p), r2; try discriminate; reflexivity).
    rewrite C1, C2, B1, B2. cbn [orb]. eexists. split; [reflexivity|]. split; [|cbn [p_resp p_mem p_aw p_wd map app]; exact X4].
    constructor; cbn [p_ar p_aw p_wd p_resp p_r p_b]; auto. intros _. exists (p_id p), resp. split; [split; reflexivity|]. destruct resp as [|x g]; [left; reflexivity|right; exists x, g, g; auto].
  - destruct (Sh V) as (id & f & (E1 & E2) & F). destruct F as [->|(x & g & g' & -> & F2)]; [rewrite E1, E2 in H1; cbn [r_of b_of] in H1; destruct r1, r2; discriminate|].
    assert (R : exists g1, resp = x :: g1) by (rewrite X3, F2; cbn [app]; eauto). destruct R as [g1 R]. destruct x as [[ty u] d].
    assert (C : both (p_r p) r1 || both (p_b p) r2 = true /\ bare t = say (ty, u, d)).
    { rewrite E1, E2 in *. destruct ty; cbn [r_of b_of both orb] in *.
      - replace (if r1 then None else None) with (@None r_ch) in H1 by (destruct r1; reflexivity). cbn [app] in H1. destruct r2; [|discriminate]. injection H1 as <-. auto.
      - replace (if r2 then None else None) with (@None b_ch) in H1 by (destruct r2; reflexivity). rewrite app_nil_r in H1. destruct r1; [|discriminate]. injection H1 as <-. auto. }
    destruct C as [C1 C2]. rewrite C1. rewrite R. eexists. split; [reflexivity|]. split.
    + constructor; cbn [p_ar p_aw p_wd p_resp p_r p_b]; auto. congruence.
    + intros l. rewrite H1. cbn [p_resp p_mem p_aw p_wd map app]. rewrite X4, R, C2. reflexivity.
Qed.

Lemma rp_run_ok : forall evs clk s A I P pend p, Inv c clk s A I P pend -> PInv s p -> plain (map fst evs) -> in_phase (map fst evs) -> clocked (xc_ratio c) clk (map fst evs) ->
  exists s' p' o l clk' P' pend', rp_run c depth s p evs = Some (s', p', o, l) /\ PInv s' p' /\ Inv c clk' s' (A ++ accs o) (I ++ injs o) P' pend' /\
    map say (p_resp p) ++ serve (p_mem p) (p_aw p) (p_wd p) l = heard o ++ map say (p_resp p').
Proof.
  induction evs as [|[ev a] evs IH]; intros clk s A I P pend p HI HP Pl Ph Ck.
  - exists s, p, [], [], clk, P, pend. cbn [rp_run accs injs heard flat_map map app serve]. rewrite !app_nil_r. auto.
  - cbn [rp_run map fst] in *. set (ev' := offering ev (rp_offers p)). assert (Ok : ok_xinstant ev') by (split; [exact (Pl ev (or_introl eq_refl))|split; cbn; discriminate]).
    destruct (step_some c HC s ev') as [[s1 o1] E]. rewrite E. destruct (clocked_cons c clk ev (map fst evs) Ck) as [K1 K2].
    destruct (inv_step c HC clk s A I P pend ev' s1 o1 HI Ok K1 E) as (P1 & pend1 & HI1).
    assert (HH : exists p1, (if node_at ev then rp_edge depth (rdy s1) a p else Some p) = Some p1 /\ PInv s1 p1 /\
      forall l, map say (p_resp p) ++ serve (p_mem p) (p_aw p) (p_wd p) (one_of (if node_at ev then rp_take p a else None) ++ l) = heard o1 ++ map say (p_resp p1) ++ serve (p_mem p1) (p_aw p1) (p_wd p1) l).
    { rewrite node_has. destruct (has TNode ev) eqn:En.
      - assert (Ea : has TAdapt ev = true) by (apply has_in, Ph; [left; reflexivity|apply has_in; auto]).
        pose proof (edge_view c HC clk s A I P pend ev' s1 o1 HI Ok K1 En Ea E) as V.
        assert (AH : accs o1 = map (fun x => (x, x_newid ev')) (handshakes c ev' s1)).
        { destruct V as [(V1 & V2 & _)|(t & _ & V1 & V2 & _)]; rewrite V1, V2; reflexivity. }
        destruct (rp_step s p s1 ev a HP) as (p1 & R1 & R2 & R3).
        + destruct V as [(_ & V & V' & _)|(t & V1 & _ & V & V' & _)]; [left; auto|right; exists t; auto].
        + exists p1. split; [exact R1|]. split; [exact R2|]. unfold heard. rewrite AH, map_map. exact R3.
      - destruct (quiet_view c s ev' s1 o1 Ok En E) as [N1 N2]. exists p. split; [reflexivity|]. split; [|unfold heard; rewrite N2; reflexivity].
        destruct HP as [X1 X2 X3]. constructor; auto; rewrite N1; auto. }
    destruct HH as (p1 & -> & HP1 & T1).
    destruct (IH (next_clk clk ev) s1 (A ++ accs o1) (I ++ injs o1) P1 pend1 p1) as (s' & p' & o & l & clk' & P' & pend' & X1 & X2 & X3 & X4); auto.
    { intros e He; apply Pl; right; auto. }
    { intros e He; apply Ph; right; auto. }
    rewrite X1. exists s', p', (o1 ++ o), (one_of (if node_at ev then rp_take p a else None) ++ l), clk', P', pend'. split; [destruct (if node_at ev then rp_take p a else None); reflexivity|]. split; [exact X2|]. split.
    + rewrite accs_app, injs_app, !app_assoc. exact X3.
    + rewrite T1, X4. unfold heard. rewrite accs_app, map_app, app_assoc. reflexivity.
Qed.
End P.
