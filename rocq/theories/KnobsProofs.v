From Coq Require Import ZArith Bool List String Lia.
From Verif Require Import KnobsModel KnobsSpec.
Import ListNotations.
Local Open Scope string_scope.
Local Open Scope list_scope.

Section K.
Context {D : Type} (stoi : string -> option Z) (stod : string -> option D).

(** The effect of a line: what it writes. *)
Inductive wr := WS (k : kkind) (key : string) (v : kval D) | WP (k : kkind) (key : string) (v : kval D) (r : nat).
Definition apply_wr (w : wr) (s : knobs D) : knobs D :=
  match w with
  | WS k key v => add_shared k key v s
  | WP k key v r => {| k_rads := k_rads s; k_shared := k_shared s;
               k_per := fun r' k' key' => if Nat.eqb r' r && kkind_eqb k' k && String.eqb key' key then Some v else k_per s r' k' key' |}
  end.

Lemma add_per_wr : forall k key v rad s s', add_per k key v rad s = Some s' ->
  (0 <= rad)%Z /\ (Z.to_nat rad < k_rads s)%nat /\ s' = apply_wr (WP k key v (Z.to_nat rad)) s.
Proof.
  intros k key v rad s s' H. unfold add_per in H. destruct (Z.ltb_spec rad 0); [discriminate|].
  destruct (Z.leb_spec (Z.of_nat (k_rads s)) rad); [discriminate|]. cbn [orb] in H. injection H as <-. split; [lia|]. split; [lia|]. reflexivity.
Qed.

(** A line writes a list of entries that does not depend on the tables. *)
Definition wr_ok (line : list string) (n : nat) (w : wr) : Prop :=
  match w with
  | WS _ key _ => names_shared key line = true
  | WP _ key _ r => names_rad stoi key r line = true /\ (r < n)%nat
  end.

Lemma parse_line_wr : forall line s s', parse_line stoi stod line s = Some s' ->
  exists ws, s' = fold_left (fun a w => apply_wr w a) ws s /\ Forall (wr_ok line (k_rads s)) ws /\
    (forall s2, k_rads s2 = k_rads s -> parse_line stoi stod line s2 = Some (fold_left (fun a w => apply_wr w a) ws s2)).
Proof.
  intros line s s' H.
  assert (PER : forall k (key : string) (v : kval D) ws rad, line = key :: ws -> stoi (hd "" ws) = Some rad ->
     add_per k key v rad s = Some s' ->
     exists ws, s' = fold_left (fun a w => apply_wr w a) ws s /\ Forall (wr_ok line (k_rads s)) ws /\
       (forall s2, k_rads s2 = k_rads s -> add_per k key v rad s2 = Some (fold_left (fun a w => apply_wr w a) ws s2))).
  { intros k key v ws rad -> S A. destruct (add_per_wr _ _ _ _ _ _ A) as (A1 & A2 & A3). exists [WP k key v (Z.to_nat rad)].
    split; [auto|]. split.
    - constructor; [|constructor]. cbn. rewrite String.eqb_refl, S. cbn [andb]. split; auto. apply Z.eqb_eq. lia.
    - intros s2 R2. unfold add_per. destruct (Z.ltb_spec rad 0); [lia|]. destruct (Z.leb_spec (Z.of_nat (k_rads s2)) rad); [lia|]. reflexivity. }
  destruct line as [|p line]; [cbn in H; discriminate|].
  assert (SH : forall k v, exists ws, add_shared k p v s = fold_left (fun a w => apply_wr w a) ws s /\ Forall (wr_ok (p :: line) (k_rads s)) ws /\
       (forall s2, k_rads s2 = k_rads s -> Some (add_shared k p v s2) = Some (fold_left (fun a w => apply_wr w a) ws s2))).
  { intros k v. exists [WS k p v]. split; [auto|]. split; [|auto]. constructor; [|constructor]. cbn. rewrite String.eqb_refl. auto. }
  unfold parse_line in *. cbn [hd tl] in *. destruct (classify p) as [c|] eqn:C; [|discriminate].
  destruct c.
  - injection H as <-. apply SH.
  - destruct (stoi (hd "" line)) eqn:E; [|discriminate]. eapply PER; eauto.
  - destruct (stoi (hd "" line)) eqn:E; [|discriminate]. injection H as <-. apply SH.
  - destruct (stoi (hd "" line)) eqn:E; [|discriminate]. destruct (stoi (hd "" (tl line))); [|discriminate]. eapply PER; eauto.
  - destruct (stoi (hd "" line)) eqn:E; [|discriminate]. destruct (conv stoi (tl line)); [|discriminate]. eapply PER; eauto.
  - destruct (stod (hd "" line)) eqn:E; [|discriminate]. injection H as <-. apply SH.
  - destruct (stoi (hd "" line)) eqn:E; [|discriminate]. destruct (conv stod (tl line)); [|discriminate]. eapply PER; eauto.
  - injection H as <-. exists [WS KStrs p (VStrs line); WS KInt "telemetry_num_traces" (VInt (Z.of_nat (List.length line)))].
    split; [auto|]. split; [|auto]. constructor; [cbn; rewrite String.eqb_refl; auto|]. constructor; [|constructor].
    cbn [wr_ok names_shared]. assert (P : p = "telemetry_traces").
    { clear -C. unfold classify, one_of in C. cbn [existsb] in C.
      repeat match type of C with (if ?b then _ else _) = _ => destruct b eqn:?; try discriminate end.
      match goal with H : (p =? "telemetry_traces") || false = true |- _ => rewrite orb_false_r in H; apply String.eqb_eq in H; auto end. }
    rewrite P. reflexivity.
  - destruct (stoi (hd "" line)) eqn:E; [|discriminate]. eapply PER; eauto.
  - injection H as <-. exists []. cbn. auto.
Qed.

Lemma apply_rads : forall ws s, k_rads (fold_left (fun a w => apply_wr w a) ws s) = k_rads s.
Proof. induction ws as [|[]]; intros s; cbn [fold_left]; rewrite ?IHws; auto. Qed.

Lemma kkind_eqb_eq : forall a b, kkind_eqb a b = true <-> a = b.
Proof. intros [] []; cbn; split; congruence. Qed.

(** Lines that do not name the knob leave it alone; those that do act alike in both tables. *)
Lemma wr_per_other : forall ws line n k key r s, Forall (wr_ok line n) ws -> names_rad stoi key r line = false ->
  k_per (fold_left (fun a w => apply_wr w a) ws s) r k key = k_per s r k key.
Proof.
  induction ws as [|w ws IH]; intros line n k key r s F N; cbn [fold_left]; auto. inversion F as [|? ? F1 F2]; subst.
  rewrite (IH line n) by auto. destruct w as [k' key' v|k' key' v r']; cbn; auto.
  destruct F1 as [F1 _]. destruct (Nat.eqb_spec r r') as [->|]; cbn [andb]; auto. destruct (kkind_eqb k k'); cbn [andb]; auto.
  destruct (String.eqb_spec key key') as [->|]; auto. congruence.
Qed.

Lemma wr_shared_other : forall ws line n k key s, Forall (wr_ok line n) ws -> names_shared key line = false ->
  k_shared (fold_left (fun a w => apply_wr w a) ws s) k key = k_shared s k key.
Proof.
  induction ws as [|w ws IH]; intros line n k key s F N; cbn [fold_left]; auto. inversion F as [|? ? F1 F2]; subst.
  rewrite (IH line n) by auto. destruct w as [k' key' v|k' key' v r']; cbn; auto.
  destruct (kkind_eqb k k'); cbn [andb]; auto. destruct (String.eqb_spec key key') as [->|]; auto. cbn in F1. congruence.
Qed.

Lemma wr_per_same : forall ws k key r s s2, k_per s r k key = k_per s2 r k key ->
  k_per (fold_left (fun a w => apply_wr w a) ws s) r k key = k_per (fold_left (fun a w => apply_wr w a) ws s2) r k key.
Proof.
  induction ws as [|w ws IH]; intros k key r s s2 E; cbn [fold_left]; auto. apply IH. destruct w; cbn; auto. rewrite E. auto.
Qed.

Lemma wr_shared_same : forall ws k key s s2, k_shared s k key = k_shared s2 k key ->
  k_shared (fold_left (fun a w => apply_wr w a) ws s) k key = k_shared (fold_left (fun a w => apply_wr w a) ws s2) k key.
Proof.
  induction ws as [|w ws IH]; intros k key s s2 E; cbn [fold_left]; auto. apply IH. destruct w; cbn; auto. rewrite E. auto.
Qed.

Lemma isolated_gen : forall f s s' k key r s2, parse_file stoi stod f s = Some s' -> k_rads s2 = k_rads s -> k_per s2 r k key = k_per s r k key ->
  exists s2', parse_file stoi stod (filter (names_rad stoi key r) f) s2 = Some s2' /\ k_rads s2' = k_rads s2 /\ k_rads s' = k_rads s /\ k_per s2' r k key = k_per s' r k key.
Proof.
  induction f as [|l f IH]; intros s s' k key r s2 H R E; cbn [parse_file filter] in *.
  - injection H as <-. exists s2. auto.
  - destruct (parse_line stoi stod l s) as [s1|] eqn:P; [|discriminate]. destruct (parse_line_wr _ _ _ P) as (ws & -> & W & X).
    destruct (names_rad stoi key r l) eqn:N; cbn [parse_file].
    + rewrite (X s2 R). edestruct (IH _ _ k key r (fold_left (fun a w => apply_wr w a) ws s2) H) as (s2' & A & B & C & F).
      * rewrite !apply_rads. auto.
      * apply wr_per_same. auto.
      * exists s2'. rewrite !apply_rads in *. auto.
    + edestruct (IH _ _ k key r s2 H) as (s2' & A & B & C & F).
      * rewrite apply_rads. auto.
      * erewrite wr_per_other by eauto. auto.
      * exists s2'. rewrite !apply_rads in *. auto.
Qed.

Lemma isolated_shared_gen : forall f s s' k key s2, parse_file stoi stod f s = Some s' -> k_rads s2 = k_rads s -> k_shared s2 k key = k_shared s k key ->
  exists s2', parse_file stoi stod (filter (names_shared key) f) s2 = Some s2' /\ k_shared s2' k key = k_shared s' k key.
Proof.
  induction f as [|l f IH]; intros s s' k key s2 H R E; cbn [parse_file filter] in *.
  - injection H as <-. exists s2. auto.
  - destruct (parse_line stoi stod l s) as [s1|] eqn:P; [|discriminate]. destruct (parse_line_wr _ _ _ P) as (ws & -> & W & X).
    destruct (names_shared key l) eqn:N; cbn [parse_file].
    + rewrite (X s2 R). eapply IH; eauto.
      * rewrite !apply_rads. auto.
      * apply wr_shared_same. auto.
    + eapply IH; eauto.
      * rewrite apply_rads. auto.
      * erewrite wr_shared_other by eauto. auto.
Qed.

Lemma isolated : forall n f s k key r, parse_file stoi stod f (knobs0 D n) = Some s ->
  exists s', parse_file stoi stod (filter (names_rad stoi key r) f) (knobs0 D n) = Some s' /\ get_per s' k key r = get_per s k key r.
Proof.
  intros n f s k key r H. destruct (isolated_gen _ _ _ k key r (knobs0 D n) H eq_refl eq_refl) as (s' & A & B & C & E).
  exists s'. split; auto. unfold get_per. rewrite B, C, E. auto.
Qed.

Lemma isolated_shared : forall n f s k key, parse_file stoi stod f (knobs0 D n) = Some s ->
  exists s', parse_file stoi stod (filter (names_shared key) f) (knobs0 D n) = Some s' /\ get_shared s' k key = get_shared s k key.
Proof. intros n f s k key H. exact (isolated_shared_gen _ _ _ k key (knobs0 D n) H eq_refl eq_refl). Qed.

Lemma parse_app : forall f g s, parse_file stoi stod (f ++ g) s = match parse_file stoi stod f s with Some s1 => parse_file stoi stod g s1 | None => None end.
Proof. induction f as [|l f IH]; intros g s; cbn; auto. destruct (parse_line stoi stod l s); auto. Qed.

(** The value a line gives, per kind of knob. *)
Lemma last_write : forall n f s p ws,
  parse_file stoi stod (f ++ [p :: ws]) (knobs0 D n) = Some s ->
  (forall c, classify p = Some c -> match c with
    | CSharedStr => get_shared s KStr p = Some (VStr (hd "" ws))
    | CSharedInt => exists v, stoi (hd "" ws) = Some v /\ get_shared s KInt p = Some (VInt v)
    | CSharedDbl => exists v, stod (hd "" ws) = Some v /\ get_shared s KDbl p = Some (VDbl v)
    | CTraces => get_shared s KStrs p = Some (VStrs ws) /\ get_shared s KInt "telemetry_num_traces" = Some (VInt (Z.of_nat (List.length ws)))
    | CSkip => True
    | _ => exists r, stoi (hd "" ws) = Some (Z.of_nat r) /\ (r < n)%nat /\
        match c with
        | CRadStr => get_per s KStr p r = Some (VStr (hd "" (tl ws)))
        | CRadInt => exists v, stoi (hd "" (tl ws)) = Some v /\ get_per s KInt p r = Some (VInt v)
        | CRadInts => exists v, conv stoi (tl ws) = Some v /\ get_per s KInts p r = Some (VInts v)
        | CRadDbls => exists v, conv stod (tl ws) = Some v /\ get_per s KDbls p r = Some (VDbls v)
        | _ => get_per s KStrs p r = Some (VStrs (tl ws))
        end
    end).
Proof.
  intros n f s p ws H c C. rewrite parse_app in H. destruct (parse_file stoi stod f (knobs0 D n)) as [s1|] eqn:F; [|discriminate].
  assert (R1 : k_rads s1 = n). { destruct (isolated_gen _ _ _ KInt "" 0 (knobs0 D n) F eq_refl eq_refl) as (? & _ & _ & R & _). exact R. }
  cbn [parse_file] in H. destruct (parse_line stoi stod (p :: ws) s1) as [s2|] eqn:P; [|discriminate]. injection H as ->.
  unfold parse_line in P. cbn [hd tl] in P. rewrite C in P.
  assert (SH : forall k key v s1, get_shared (@add_shared D k key v s1) k key = Some v).
  { intros. unfold get_shared. cbn. rewrite String.eqb_refl. assert (kkind_eqb k k = true) as -> by (apply kkind_eqb_eq; auto). auto. }
  assert (PR : forall k v rad, add_per k p v rad s1 = Some s -> exists r, Some rad = Some (Z.of_nat r) /\ (r < n)%nat /\ get_per s k p r = Some v).
  { intros k v rad A. destruct (add_per_wr _ _ _ _ _ _ A) as (A1 & A2 & ->). exists (Z.to_nat rad). split; [f_equal; lia|]. split; [lia|].
    unfold get_per. cbn [apply_wr k_rads k_per]. apply Nat.ltb_lt in A2. rewrite A2, Nat.eqb_refl, String.eqb_refl.
    assert (kkind_eqb k k = true) as -> by (apply kkind_eqb_eq; auto). auto. }
  destruct c.
  - injection P as <-. apply SH.
  - destruct (stoi (hd "" ws)) as [rad|]; [|discriminate]. destruct (PR _ _ _ P) as (r & A & B & E). eauto.
  - destruct (stoi (hd "" ws)) as [v|]; [|discriminate]. injection P as <-. eauto.
  - destruct (stoi (hd "" ws)) as [rad|]; [|discriminate]. destruct (stoi (hd "" (tl ws))) as [v|]; [|discriminate]. destruct (PR _ _ _ P) as (r & A & B & E). eauto 8.
  - destruct (stoi (hd "" ws)) as [rad|]; [|discriminate]. destruct (conv stoi (tl ws)) as [v|]; [|discriminate]. destruct (PR _ _ _ P) as (r & A & B & E). eauto 8.
  - destruct (stod (hd "" ws)) as [v|]; [|discriminate]. injection P as <-. eauto.
  - destruct (stoi (hd "" ws)) as [rad|]; [|discriminate]. destruct (conv stod (tl ws)) as [v|]; [|discriminate]. destruct (PR _ _ _ P) as (r & A & B & E). eauto 8.
  - injection P as <-. split; [|apply SH]. unfold get_shared at 1. cbn [add_shared k_shared kkind_eqb andb]. rewrite String.eqb_refl. auto.
  - destruct (stoi (hd "" ws)) as [rad|]; [|discriminate]. destruct (PR _ _ _ P) as (r & A & B & E). eauto.
  - auto.
Qed.
End K.
