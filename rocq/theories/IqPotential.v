(** How far the flits and credits in a router are from having left it, as a number, and how a step changes it. *)
From Coq Require Import ZArith Arith Bool List Lia Permutation.
From Verif Require Import Fupd ArbiterModel AllocModel AllocSpec BufferModel BufferSpec BufferProofs RouteModel IqRouterModel IqRouterSpec IqRouterProofs IqRouterInv IqRouterRun.
Import ListNotations.
Open Scope nat_scope.

Definition lsum {A} (f : A -> Z) (l : list A) : Z := fold_right (fun a z => (f a + z)%Z) 0%Z l.
Lemma lsum_app : forall A (f : A -> Z) a b, lsum f (a ++ b) = (lsum f a + lsum f b)%Z.
Proof. intros A f a b. induction a as [|x a IH]; [reflexivity|]. cbn [app lsum fold_right] in *. unfold lsum in *. lia. Qed.
Lemma lsum_nonneg : forall A (f : A -> Z) l, (forall a, 0 <= f a)%Z -> (0 <= lsum f l)%Z.
Proof. intros A f l H. induction l as [|a l IH]; cbn; [lia|]. specialize (H a). fold (lsum f l). lia. Qed.
Lemma lsum_le : forall A (f g : A -> Z) l, (forall a, f a <= g a)%Z -> (lsum f l <= lsum g l)%Z.
Proof. intros A f g l H. induction l as [|a l IH]; cbn; [lia|]. specialize (H a). fold (lsum f l) (lsum g l). lia. Qed.
Lemma lsum_ge : forall A (f : A -> Z) l, (forall a, 1 <= f a)%Z -> (Z.of_nat (length l) <= lsum f l)%Z.
Proof. intros A f l H. induction l as [|a l IH]; [cbn; lia|]. cbn [lsum fold_right length]. specialize (H a). fold (lsum f l). lia. Qed.

(** What a state of a virtual channel is worth: the steps until its packet has an output. *)
Definition sw (st : vstate) : Z := match st with Idle => 2 | Routing => 2 | VAlloc => 1 | Active => 0 end%Z.
Definition given {A B} (l : list (A * option B)) : Z := lsum (fun d => match snd d with Some _ => 1 | None => 0 end)%Z l.
Lemma given_cons : forall A B (d : A * option B) l, given (d :: l) = (match snd d with Some _ => 1 | None => 0 end + given l)%Z.
Proof. reflexivity. Qed.
Lemma given_nonneg : forall A B (l : list (A * option B)), (0 <= given l)%Z.
Proof. intros. apply lsum_nonneg. intros [a [b|]]; cbn; lia. Qed.

Section Pot.
Variables (c : iqcfg) (P : bpolicy).
(** The distances of input and output channels from the end of all ways; the worth of a flit that is sent and of a credit that is sent. *)
Variables (Di Do : nat -> nat -> nat) (K : Z) (xw cw : nat -> Z).
Hypothesis Hxw : forall o, (0 <= xw o)%Z.
Hypothesis Hcw : forall i, (0 <= cw i)%Z.
Hypothesis HK : forall i o, i < c_in c -> o < c_outs c -> (xw o + cw i + 4 <= K)%Z.

Definition iw (i v : nat) : Z := (K * Z.of_nat (Di i v))%Z.
Definition ow (o w : nat) : Z := (K * Z.of_nat (Do o w) + xw o)%Z.
Definition vw (i v : nat) (b : vcst) : Z := (Z.of_nat (length (v_buf b)) * iw i v + sw (v_state b))%Z.
Definition p_vc (f : nat -> nat -> vcst) : Z := total (fun i => total (fun v => vw i v (f i v)) (c_vcs c)) (c_in c).
Definition p_xb (l : list (flit * (nat * nat))) : Z := lsum (fun e => (ow (snd (snd e)) (f_vc (fst e)) + 1)%Z) l.
Definition p_out (f : nat -> list flit) : Z := total (fun o => lsum (fun g => ow o (f_vc g)) (f o)) (c_outs c).
Definition p_oc (f : nat -> list nat) : Z := total (fun i => (cw i * Z.of_nat (length (f i)))%Z) (c_in c).
Definition p_cb (f : nat -> list (list nat)) : Z := total (fun i => (cw i * Z.of_nat (length (f i)))%Z) (c_in c).
Definition p_pr (now : Z) (q : list (Z * (list nat * nat))) : Z := lsum (fun e => (1 + Z.max 0 (fst e - now))%Z) q.
Definition pot (now : Z) (s : router P) : Z := (p_vc (r_vc s) + p_xb (r_xb s) + p_out (r_out s) + p_oc (r_oc s) + p_cb (r_cb s) + p_pr now (r_proc s))%Z.

Lemma p_vc_upd : forall f i v b, i < c_in c -> v < c_vcs c -> p_vc (upd2 f i v b) = (p_vc f - vw i v (f i v) + vw i v b)%Z.
Proof.
  intros f i v b Hi Hv. unfold p_vc.
  rewrite (total_ext _ (fupd (fun i => total (fun v => vw i v (f i v)) (c_vcs c)) i (total (fun y => vw i y (upd2 f i v b i y)) (c_vcs c)))).
  - rewrite total_fupd by auto. rewrite (total_ext (fun y => vw i y (upd2 f i v b i y)) (fupd (fun y => vw i y (f i y)) v (vw i v b))).
    + rewrite total_fupd by auto. lia.
    + intros y _. unfold upd2. rewrite fupd_same. unfold fupd. destruct (Nat.eqb_spec y v) as [->|]; auto.
  - intros a _. unfold fupd at 1. destruct (Nat.eqb_spec a i) as [->|N]; [reflexivity|]. rewrite upd2_row by auto. reflexivity.
Qed.
Lemma p_pr_time : forall now now' q, (now <= now')%Z -> (p_pr now' q <= p_pr now q)%Z.
Proof. intros now now' q H. apply lsum_le. intros a. lia. Qed.
Lemma front_in : forall st i v (s : router P) f, front c st i v s = Some f -> i < c_in c /\ v < c_vcs c /\ v_state (r_vc s i v) = st /\ exists r, v_buf (r_vc s i v) = f :: r.
Proof.
  intros st i v s f H. unfold front in H. destruct (v_buf (r_vc s i v)) as [|g r]; [discriminate|].
  destruct (Nat.ltb_spec i (c_in c)); [|discriminate]. destruct (Nat.ltb_spec v (c_vcs c)); [|discriminate]. destruct (Nat.eqb (f_vc g) v); [|discriminate]. cbn [andb] in H.
  split; auto. split; auto. destruct (v_state (r_vc s i v)), st; try discriminate; injection H as ->; eauto.
Qed.
Lemma iw_pos : forall i v, i < c_in c -> 0 < c_outs c -> (0 <= iw i v)%Z.
Proof. intros i v Hi Ho. unfold iw. specialize (HK i 0 Hi Ho). specialize (Hxw 0). specialize (Hcw i). nia. Qed.

(** A flit enters. *)
Lemma in_queue_pot : forall now i f s s', in_queue c (i, f) s = Some s' -> (pot now s' <= pot now s + iw i (f_vc f))%Z /\ r_xb s' = r_xb s /\ r_proc s' = r_proc s /\ length (r_rq s) <= length (r_rq s').
Proof.
  intros now i f s s' H. unfold in_queue in H. destruct (Nat.ltb_spec i (c_in c)) as [Hi|]; [|discriminate]. destruct (Nat.ltb_spec (f_vc f) (c_vcs c)) as [Hv|]; [|discriminate]. cbn [andb negb] in H.
  destruct (_ <=? _)%Z; [discriminate|]. destruct (expect _ f) as [e|]; [|discriminate].
  assert (G : forall b, v_buf b = v_buf (r_vc s i (f_vc f)) ++ [f] -> (sw (v_state b) <= sw (v_state (r_vc s i (f_vc f))))%Z -> (p_vc (upd2 (r_vc s) i (f_vc f) b) <= p_vc (r_vc s) + iw i (f_vc f))%Z).
  { intros b Eb Sb. rewrite p_vc_upd by auto. unfold vw. rewrite Eb, app_length. cbn [length]. nia. }
  destruct (v_state (r_vc s i (f_vc f))) eqn:St.
  - destruct (negb _); [discriminate|]. destruct (c_rdelay c); injection H as <-; unfold pot; rs; rewrite ?app_length; cbn [length];
      (split; [|split; [auto|split; [auto|lia]]]); match goal with |- context [upd2 _ _ _ ?b] => specialize (G b eq_refl) end; cbn [v_state sw] in G; specialize (G ltac:(lia)); lia.
  - injection H as <-. unfold pot. rs. split; [|auto]. match goal with |- context [upd2 _ _ _ ?b] => specialize (G b eq_refl) end; cbn [v_state sw] in G; specialize (G ltac:(lia)); lia.
  - injection H as <-. unfold pot. rs. split; [|auto]. match goal with |- context [upd2 _ _ _ ?b] => specialize (G b eq_refl) end; cbn [v_state sw] in G; specialize (G ltac:(lia)); lia.
  - injection H as <-. destruct (match v_buf _ with [] => true | _ => false end); unfold pot; rs; (split; [|auto]); match goal with |- context [upd2 _ _ _ ?b] => specialize (G b eq_refl) end; cbn [v_state sw] in G; specialize (G ltac:(lia)); lia.
Qed.
Lemma in_queues_pot : forall now fs s s', fold_opt (in_queue c) fs s = Some s' -> (pot now s' <= pot now s + lsum (fun e => iw (fst e) (f_vc (snd e))) fs)%Z /\ r_xb s' = r_xb s /\ r_proc s' = r_proc s /\ length (r_rq s) <= length (r_rq s').
Proof.
  intros now fs. induction fs as [|[i f] fs IH]; intros s s' H; cbn [fold_opt] in H; [injection H as <-; cbn; repeat (split; [auto; lia|]); auto|].
  destruct (in_queue c (i, f) s) as [s1|] eqn:E; [|discriminate]. destruct (in_queue_pot now i f s s1 E) as [A1 [A2 [A3 A4]]]. destruct (IH _ _ H) as [B1 [B2 [B3 B4]]].
  cbn [lsum fold_right fst snd]. fold (lsum (fun e : nat * flit => iw (fst e) (f_vc (snd e))) fs). split; [lia|]. split; [congruence|]. split; [congruence|lia].
Qed.

(** Credits are processed. *)
Lemma proc_pot : forall now q s s', proc_credits c now q s = Some s' -> (pot now s' - p_pr now (r_proc s') = pot now s - p_pr now (r_proc s))%Z /\ (p_pr now (r_proc s') <= p_pr now q)%Z /\ r_xb s' = r_xb s /\ r_rq s' = r_rq s /\
  (forall old, (old < now)%Z -> forall a b, q = a ++ b -> a <> [] -> (p_pr now (r_proc s') < p_pr old a + p_pr now b)%Z).
Proof.
  intros now q. induction q as [|[t [vs o]] q IH]; intros s s' H; cbn [proc_credits] in H.
  - injection H as <-. unfold pot. rs. split; [lia|]. split; [cbn; lia|]. split; auto. split; auto. intros old Ho a b E N. destruct a; [congruence|discriminate].
  - destruct (now <? t)%Z eqn:Et.
    + injection H as <-. unfold pot. rs. split; [lia|]. split; [lia|]. split; auto. split; auto. intros old Ho a b E N. apply Z.ltb_lt in Et. rewrite E. unfold p_pr. rewrite lsum_app. destruct a as [|[u z] a]; [congruence|]. cbn [app] in E. injection E as <- _ _.
      cbn [lsum fold_right fst]. fold (lsum (fun e : Z * (list nat * nat) => (1 + Z.max 0 (fst e - now))%Z) a) (lsum (fun e : Z * (list nat * nat) => (1 + Z.max 0 (fst e - old))%Z) a).
      assert (X := p_pr_time old now a ltac:(lia)). unfold p_pr in X. lia.
    + destruct (negb _); [discriminate|]. destruct (bs_credit _ _ _ _ _) as [b|]; [|discriminate]. destruct (IH _ _ H) as [A1 [A2 [A3 [A4 A5]]]]. unfold pot in A1 |- *. rs.
      assert (Y : (p_pr now (r_proc s') < p_pr now ((t, (vs, o)) :: q))%Z) by (unfold p_pr in *; cbn [lsum fold_right fst] in *; fold (lsum (fun e : Z * (list nat * nat) => (1 + Z.max 0 (fst e - now))%Z) q); lia).
      split; [lia|]. split; [lia|]. split; auto. split; auto. intros old Ho a b' E N. rewrite E in Y. assert (Z1 := p_pr_time old now a ltac:(lia)). unfold p_pr in *. rewrite lsum_app in Y. lia.
Qed.

(** Routes are computed. *)
Lemma route_pot : forall now x l s s', fold_opt (route_update c x) l s = Some s' -> (pot now s' + Z.of_nat (length l) <= pot now s)%Z.
Proof.
  intros now x l. induction l as [|[i v] l IH]; intros s s' H; cbn [fold_opt] in H; [injection H as <-; cbn; lia|].
  destruct (route_update c x (i, v) s) as [s1|] eqn:E; [|discriminate]. specialize (IH _ _ H). unfold route_update in E. destruct (negb _); [discriminate|]. destruct (front c Routing i v s) as [f|] eqn:Ef; [|discriminate].
  destruct (front_in _ _ _ _ _ Ef) as [Hi [Hv [St _]]]. destruct (f_head f); [|discriminate]. injection E as <-. unfold pot in *. rs. rewrite p_vc_upd in IH by auto. unfold vw in IH. cbn [v_buf v_state] in IH. rewrite St in IH. cbn [sw length] in *. lia.
Qed.
(** Channels are given out. *)
Lemma va_pot : forall now l s s', fold_opt (va_update c) l s = Some s' -> (pot now s' + given l <= pot now s)%Z.
Proof.
  intros now l. induction l as [|[[i v] g] l IH]; intros s s' H; cbn [fold_opt] in H; [injection H as <-; cbn; lia|].
  destruct (va_update c (i, v, g) s) as [s1|] eqn:E; [|discriminate]. specialize (IH _ _ H). unfold va_update in E. destruct (front c VAlloc i v s) as [f|] eqn:Ef; [|discriminate].
  destruct (front_in _ _ _ _ _ Ef) as [Hi [Hv [St _]]]. destruct (f_head f); [|discriminate]. rewrite given_cons; cbn [snd]. destruct g as [[o w]|].
  - destruct (_ && _); [|discriminate]. destruct (bs_take _ _ _ _ _); [|discriminate]. injection E as <-. unfold pot in *. rs. rewrite p_vc_upd in IH by auto. unfold vw in IH. cbn [v_buf v_state] in IH. rewrite St in IH. cbn [sw] in *. lia.
  - injection E as <-. unfold pot in *. rs. lia.
Qed.

(** Flits leave. *)
Definition down (s : router P) : Prop := forall i v o w, i < c_in c -> v < c_vcs c -> v_state (r_vc s i v) = Active -> v_out (r_vc s i v) = Some (o, w) -> Do o w < Di i v.
Lemma insert_len : forall v l, length (set_insert v l) <= length l + 1.
Proof. intros v l. induction l as [|a l IH]; cbn [set_insert length]; [lia|]. destruct (Nat.ltb v a); [cbn; lia|]. destruct (Nat.eqb v a); [cbn; lia|]. cbn. lia. Qed.
Lemma after_form : forall i v f rest (s : router P) s', after_send c i v f rest s = Some s' ->
  exists b rq va sa, s' = set_qs rq va sa (set_vc i v b s) /\ v_buf b = rest /\ (v_state b = Active -> v_state (r_vc s i v) = Active /\ v_out b = v_out (r_vc s i v)).
Proof.
  intros i v f rest s s' H. unfold after_send in H. destruct rest as [|nf rest].
  - injection H as <-. match goal with |- context [set_vc _ _ ?b s] => exists b, (r_rq s), (r_va s), (r_sa s) end. split; [reflexivity|]. split; auto. cbn. destruct (f_tail f); [discriminate|auto].
  - destruct (negb _); [discriminate|]. destruct (f_tail f).
    + destruct (negb _); [discriminate|]. destruct (c_rdelay c); injection H as <-; (eexists _, _, _, _; split; [reflexivity|]; split; [reflexivity|]; cbn; discriminate).
    + injection H as <-. eexists _, _, _, _. split; [reflexivity|]. split; [reflexivity|]. cbn. auto.
Qed.
Lemma sa_pot : forall now x l s s', down s -> fold_opt (sa_update c x) l s = Some s' -> (pot now s' + given l <= pot now s)%Z.
Proof.
  intros now x l. induction l as [|[[i v] g] l IH]; intros s s' D H; cbn [fold_opt] in H; [injection H as <-; cbn; lia|].
  destruct (sa_update c x (i, v, g) s) as [s1|] eqn:E; [|discriminate]. unfold sa_update in E. destruct (front c Active i v s) as [f|] eqn:Ef; [|discriminate].
  destruct (front_in _ _ _ _ _ Ef) as [Hi [Hv [St [r Eb]]]]. rewrite Eb in E. rewrite given_cons; cbn [snd]. destruct g as [o|].
  - destruct (v_out (r_vc s i v)) as [[o1 w]|] eqn:Eo; [|discriminate]. destruct (Nat.ltb_spec o (c_outs c)) as [Ho|]; [|discriminate]. destruct (Nat.eqb_spec o1 o) as [->|]; [|discriminate]. destruct (Nat.ltb w (c_vcs c)); [|discriminate]. cbn [andb] in E.
    destruct (bs_send _ _ _ _ _ _) as [b1|]; [|discriminate]. destruct (after_form _ _ _ _ _ _ E) as [b [rq [va [sa [-> [Bb Sb]]]]]]. clear E. pose proof (D i v o w Hi Hv St Eo) as Dw.
    assert (D1 : down (set_qs rq va sa (set_vc i v b (set_creds (fupd (r_oc s) i (set_insert v (r_oc s i))) (r_cb s) (set_xb (r_xb s ++ [(forward c x o w f, (i, o))]) (r_out s) (set_next o b1 (set_occ i (r_occ s i - 1)%Z s))))))).
    { intros i' v' o' w' Hi' Hv' S' E'. rs. destruct (nn_dec (i', v') (i, v)) as [Q|Q]; [|rewrite upd2_other in S', E' by auto; apply D; auto]. injection Q as -> ->. rewrite upd2_same in S', E'. destruct (Sb S') as [_ Sb2]. rewrite Sb2 in E'. apply D; auto. }
    specialize (IH _ _ D1 H). unfold pot in *. rs. rewrite p_vc_upd in IH by auto. unfold p_xb in *. rewrite lsum_app in IH. cbn [lsum fold_right snd fst] in IH. fold (lsum (fun e : flit * (nat * nat) => (ow (snd (snd e)) (f_vc (fst e)) + 1)%Z) (r_xb s)) in *.
    assert (Vw : f_vc (forward c x o w f) = w) by (unfold forward; destruct (_ && _); reflexivity). rewrite Vw in IH.
    assert (Oc : (p_oc (fupd (r_oc s) i (set_insert v (r_oc s i))) <= p_oc (r_oc s) + cw i)%Z).
    { unfold p_oc. rewrite (total_ext _ (fupd (fun a => (cw a * Z.of_nat (length (r_oc s a)))%Z) i (cw i * Z.of_nat (length (set_insert v (r_oc s i))))%Z)).
      - rewrite total_fupd by auto. pose proof (insert_len v (r_oc s i)). specialize (Hcw i). nia.
      - intros a _. unfold fupd. destruct (Nat.eqb_spec a i) as [->|]; auto. }
    assert (Vb : (vw i v b <= vw i v (r_vc s i v) - iw i v + 2)%Z).
    { unfold vw. rewrite Bb, Eb. cbn [length]. assert (Y : (sw (v_state b) <= 2 + sw (v_state (r_vc s i v)))%Z) by (destruct (v_state b), (v_state (r_vc s i v)); cbn; lia). nia. }
    assert (Kw : (ow o w + cw i + 4 <= iw i v)%Z). { unfold ow, iw. specialize (HK i o Hi Ho). specialize (Hxw o). specialize (Hcw i). nia. }
    lia.
  - injection E as <-. assert (D1 : down (set_qs (r_rq s) (r_va s) (r_sa s ++ [(i, v)]) s)) by exact D. specialize (IH _ _ D1 H). unfold pot in *. rs. lia.
Qed.
(** The crossbar. *)
Lemma xb_pot : forall now l s s', fold_opt (xb_update c) l s = Some s' -> (pot now s' + Z.of_nat (length l) <= pot now s + p_xb l)%Z.
Proof.
  intros now l. induction l as [|[f [i o]] l IH]; intros s s' H; cbn [fold_opt] in H; [injection H as <-; cbn; lia|].
  destruct (xb_update c (f, (i, o)) s) as [s1|] eqn:E; [|discriminate]. specialize (IH _ _ H). unfold xb_update in E. destruct (Nat.ltb i (c_in c)); [|discriminate]. destruct (Nat.ltb_spec o (c_outs c)) as [Ho|]; [|discriminate].
  destruct (_ && _) in E; [|discriminate]. injection E as <-. unfold pot in *. rs. unfold p_xb in *. cbn [lsum fold_right fst snd] in *. fold (lsum (fun e : flit * (nat * nat) => (ow (snd (snd e)) (f_vc (fst e)) + 1)%Z) l) in *.
  assert (Y : p_out (fupd (r_out s) o (r_out s o ++ [f])) = (p_out (r_out s) + ow o (f_vc f))%Z).
  { unfold p_out. rewrite (total_ext _ (fupd (fun o => lsum (fun g => ow o (f_vc g)) (r_out s o)) o (lsum (fun g => ow o (f_vc g)) (r_out s o ++ [f])))).
    - rewrite total_fupd, lsum_app by auto. cbn. lia.
    - intros a _. unfold fupd. destruct (Nat.eqb_spec a o) as [->|]; auto. }
  cbn [length]. lia.
Qed.

(** A step as far as the channels are given out. *)
Definition mid (x : rin) (fs : list (nat * flit)) (s : router P) : option (router P) :=
  match fold_opt (in_queue c) fs s with None => None | Some s1 =>
  match proc_credits c (i_now x) (r_proc s1) s1 with None => None | Some s2 =>
  match va_evaluate c x s2, sa_evaluate c x s2 with
  | Some va, Some (rr, sa) =>
      match fold_opt (route_update c x) (r_rq s2) (set_rr rr (set_xb [] (r_out s2) (set_qs [] [] [] s2))) with None => None | Some s4 => fold_opt (va_update c) va s4 end
  | _, _ => None
  end end end.
Lemma internal_pot : forall x fs s s', internal c x fs s = Some s' -> (forall s5, mid x fs s = Some s5 -> down s5) ->
  exists s1 s2 va rr sa, fold_opt (in_queue c) fs s = Some s1 /\ proc_credits c (i_now x) (r_proc s1) s1 = Some s2 /\ va_evaluate c x s2 = Some va /\ sa_evaluate c x s2 = Some (rr, sa) /\
    (pot (i_now x) s' + given va + given sa + Z.of_nat (length (r_rq s)) + Z.of_nat (length (r_xb s)) + (p_pr (i_now x) (r_proc s) - p_pr (i_now x) (r_proc s2)) <= pot (i_now x) s + lsum (fun e => iw (fst e) (f_vc (snd e))) fs)%Z /\
    r_proc s1 = r_proc s.
Proof.
  intros x fs s s' H D. unfold internal in H. unfold mid in D.
  destruct (fold_opt (in_queue c) fs s) as [s1|] eqn:E1; [|discriminate]. destruct (proc_credits c (i_now x) (r_proc s1) s1) as [s2|] eqn:E2; [|discriminate].
  destruct (va_evaluate c x s2) as [va|] eqn:Ev; [|discriminate]. destruct (sa_evaluate c x s2) as [[rr sa]|] eqn:Es; [|discriminate].
  set (s3 := set_rr rr (set_xb [] (r_out s2) (set_qs [] [] [] s2))) in *. destruct (fold_opt (route_update c x) (r_rq s2) s3) as [s4|] eqn:E4; [|discriminate].
  destruct (fold_opt (va_update c) va s4) as [s5|] eqn:E5; [|discriminate]. destruct (fold_opt (sa_update c x) sa s5) as [s6|] eqn:E6; [|discriminate]. destruct (fold_opt (xb_update c) (r_xb s2) s6) as [s7|] eqn:E7; [|discriminate]. injection H as <-.
  exists s1, s2, va, rr, sa. repeat (split; [auto; fail|]).
  destruct (in_queues_pot (i_now x) _ _ _ E1) as [A1 [A2 [A3 A4]]]. destruct (proc_pot _ _ _ _ E2) as [B1 [B2 [B3 [B4 _]]]]. pose proof (route_pot (i_now x) _ _ _ _ E4) as F4. pose proof (va_pot (i_now x) _ _ _ E5) as F5.
  pose proof (sa_pot (i_now x) _ _ _ _ (D _ eq_refl) E6) as F6. pose proof (xb_pot (i_now x) _ _ _ E7) as F7.
  assert (F3 : pot (i_now x) s3 = (pot (i_now x) s2 - p_xb (r_xb s2))%Z) by (unfold pot, s3; rs; unfold p_xb; cbn; lia).
  split; auto.
  assert (F8 : (pot (i_now x) (set_creds (fun _ => []) (fun i => match r_oc s7 i with [] => r_cb s7 i | cr => r_cb s7 i ++ [cr] end) (set_act (filled (r_proc s2) || filled (r_va s5) || filled (r_sa s6) || filled (r_xb s7)) s7)) <= pot (i_now x) s7)%Z).
  { unfold pot. rs. assert (Y : (p_oc (fun _ => []) + p_cb (fun i => match r_oc s7 i with [] => r_cb s7 i | cr => r_cb s7 i ++ [cr] end) <= p_oc (r_oc s7) + p_cb (r_cb s7))%Z); [|lia].
    unfold p_oc, p_cb. rewrite <- !total_add. apply total_le. intros i _. specialize (Hcw i). destruct (r_oc s7 i) as [|a r]; [cbn [length]; lia|]. rewrite app_length. cbn [length]. nia. }
  rewrite A3 in B1. rewrite B3, A2 in F3, F7. rewrite B4 in F4. lia.
Qed.
Lemma tl_sum : forall A (f : A -> Z) l, lsum f l = (lsum f (tl l) + match hd_error l with Some a => f a | None => 0 end)%Z.
Proof. intros A f [|a l]; cbn; [lia|]. fold (lsum f l). lia. Qed.
Definition paid (y : rout) : Z :=
  (total (fun o => match x_flit y o with Some f => ow o (f_vc f) | None => 0 end) (c_outs c) + total (fun i => match x_cred y i with Some _ => cw i | None => 0 end) (c_in c))%Z.
Definition got (x : rin) : Z :=
  (total (fun i => match i_flit x i with Some f => iw i (f_vc f) | None => 0 end) (c_in c) + total (fun o => match i_cred x o with Some _ => 1 + Z.max 0 (c_cdelay c) | None => 0 end) (c_outs c))%Z.
Lemma lsum_flat : forall A (h : nat -> option A) (f : nat * A -> Z) n, lsum f (flat_map (fun i => match h i with Some a => [(i, a)] | None => [] end) (seq 0 n)) = total (fun i => match h i with Some a => f (i, a) | None => 0 end)%Z n.
Proof.
  intros A h f n. induction n as [|n IH]; [reflexivity|]. rewrite seq_S, flat_map_app, lsum_app, total_S, IH. cbn [plus flat_map]. rewrite app_nil_r. f_equal. destruct (h n); cbn; lia.
Qed.
Lemma arr_sum : forall x, lsum (fun e => iw (fst e) (f_vc (snd e))) (arrivals c x) = total (fun i => match i_flit x i with Some f => iw i (f_vc f) | None => 0 end)%Z (c_in c).
Proof. intros x. unfold arrivals. rewrite lsum_flat. reflexivity. Qed.
Lemma cred_sum : forall x, p_pr (i_now x) (credits_in c x) = total (fun o => match i_cred x o with Some _ => 1 + Z.max 0 (c_cdelay c) | None => 0 end)%Z (c_outs c).
Proof.
  intros x. clear HK. unfold credits_in, p_pr. induction (c_outs c) as [|n IH]; [reflexivity|]. rewrite seq_S, flat_map_app, lsum_app, total_S, IH. cbn [plus flat_map]. rewrite app_nil_r. destruct (i_cred x n); cbn [lsum fold_right fst]; lia.
Qed.

Lemma step_pot : forall old x s s' y, iq_step c x s = Some (s', y) -> (old < i_now x)%Z ->
  (r_act s = false -> r_proc s = [] /\ r_rq s = [] /\ r_va s = [] /\ r_sa s = [] /\ r_xb s = []) ->
  let s0 := set_act (r_act s || filled (arrivals c x) || filled (credits_in c x)) (set_proc (r_proc s ++ credits_in c x) s) in
  (forall s5, mid x (arrivals c x) s0 = Some s5 -> down s5) ->
  exists G, (0 <= G)%Z /\ (pot (i_now x) s' + paid y + G <= pot old s + got x)%Z /\ (r_xb s <> [] \/ r_proc s <> [] \/ r_rq s <> [] -> 0 < G)%Z /\
    (r_act s0 = true -> forall s1 s2 va rr sa, fold_opt (in_queue c) (arrivals c x) s0 = Some s1 -> proc_credits c (i_now x) (r_proc s1) s1 = Some s2 -> va_evaluate c x s2 = Some va -> sa_evaluate c x s2 = Some (rr, sa) -> (given va + given sa <= G)%Z).
Proof.
  intros old x s s' y H Ho Ra s0 D. unfold iq_step in H. fold s0 in H.
  assert (PP : (p_pr (i_now x) (r_proc s0) = p_pr (i_now x) (r_proc s) + p_pr (i_now x) (credits_in c x))%Z) by (unfold s0; rs; apply lsum_app).
  assert (P0 : (pot (i_now x) s0 = pot (i_now x) s + p_pr (i_now x) (credits_in c x))%Z) by (unfold pot; rewrite PP; unfold s0; rs; lia).
  assert (Pt : (pot (i_now x) s - p_pr (i_now x) (r_proc s) = pot old s - p_pr old (r_proc s))%Z) by (unfold pot; lia).
  assert (Pm := p_pr_time old (i_now x) (r_proc s) ltac:(lia)).
  assert (FIN : forall s2 s' y, Some (set_creds (r_oc s2) (fun i : nat => tl (r_cb s2 i)) (set_xb (r_xb s2) (fun o : nat => tl (r_out s2 o)) s2), {| x_flit := fun o : nat => hd_error (r_out s2 o); x_cred := fun i : nat => hd_error (r_cb s2 i) |}) = Some (s', y) ->
    pot (i_now x) s2 = (pot (i_now x) s' + paid y)%Z).
  { intros s2 s'' y' E. injection E as <- <-. unfold pot, paid. rs. cbn [x_flit x_cred].
    assert (Y1 : p_out (r_out s2) = (p_out (fun o => tl (r_out s2 o)) + total (fun o => match hd_error (r_out s2 o) with Some f => ow o (f_vc f) | None => 0 end)%Z (c_outs c))%Z) by (unfold p_out; rewrite <- total_add; apply total_ext; intros o _; apply tl_sum).
    assert (Y2 : p_cb (r_cb s2) = (p_cb (fun i => tl (r_cb s2 i)) + total (fun i => match hd_error (r_cb s2 i) with Some _ => cw i | None => 0 end)%Z (c_in c))%Z) by (unfold p_cb; rewrite <- total_add; apply total_ext; intros o _; destruct (r_cb s2 o); cbn [tl hd_error length]; lia).
    lia. }
  unfold got. rewrite <- arr_sum, <- cred_sum.
  destruct (r_act s0) eqn:A.
  - destruct (internal c x (arrivals c x) s0) as [s2|] eqn:Ei; [|discriminate]. pose proof (FIN _ _ _ H) as F. clear H.
    destruct (internal_pot _ _ _ _ Ei D) as [a1 [a2 [va [rr [sa [E1 [E2 [E3 [E4 [Ineq Epr]]]]]]]]]]. destruct (proc_pot _ _ _ _ E2) as [_ [B2 [_ [_ B5]]]]. rewrite Epr in B2, B5.
    assert (Gv := given_nonneg _ _ va). assert (Gs := given_nonneg _ _ sa).
    exists (given va + given sa + Z.of_nat (length (r_rq s)) + Z.of_nat (length (r_xb s)) + (p_pr old (r_proc s) + p_pr (i_now x) (credits_in c x) - p_pr (i_now x) (r_proc a2)))%Z.
    change (r_rq s0) with (r_rq s) in Ineq. change (r_xb s0) with (r_xb s) in Ineq. split; [lia|]. split; [lia|]. split.
    + intros [X|[X|X]].
      * destruct (r_xb s); [congruence|]. cbn [length]. lia.
      * specialize (B5 old Ho (r_proc s) (credits_in c x) eq_refl X). lia.
      * destruct (r_rq s); [congruence|]. cbn [length]. lia.
    + intros _ b1 b2 va' rr' sa' X1 X2 X3 X4. rewrite E1 in X1. injection X1 as <-. rewrite E2 in X2. injection X2 as <-. rewrite E3 in X3. injection X3 as <-. rewrite E4 in X4. injection X4 as <- <-. lia.
  - pose proof (FIN _ _ _ H) as F. unfold s0 in A. rs. apply orb_false_iff in A. destruct A as [A A3]. apply orb_false_iff in A. destruct A as [A1 A2]. apply filled_false in A2, A3. rewrite A2, A3 in *. destruct (Ra A1) as [Q1 [Q2 [_ [_ Q3]]]].
    exists 0%Z. split; [lia|]. change (lsum (fun e : nat * flit => iw (fst e) (f_vc (snd e))) []) with 0%Z. split; [rewrite Q1 in *; change (p_pr (i_now x) []) with 0%Z in *; change (p_pr old []) with 0%Z in *; lia|].
    split; [rewrite Q1, Q2, Q3; intros [X|[X|X]]; congruence|discriminate].
Qed.
End Pot.
