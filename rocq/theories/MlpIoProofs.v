(** Driver, dispatchers and collector of the MLP design: lemmas. *)
From Coq Require Import ZArith Arith Bool List Lia.
From Verif Require Import StreamSpec MvmModel MvmSpec MvmProofs MlpIoModel.
Import ListNotations.
Open Scope nat_scope.

Lemma tick_ok : forall cap afull width ren wen w f, (ren = true -> f_mem f <> []) -> (wen = true -> length (f_mem f) - (if ren then 1 else 0) < cap) ->
  exists f', fifo_tick cap afull width ren wen w f = Some f' /\ f_mem f' = (if ren then tl (f_mem f) else f_mem f) ++ (if wen then [w] else []) /\
  f_empty f' = match f_mem f' with [] => true | _ => false end /\ f_afull f' = (afull <=? length (f_mem f')) /\ f_rdata f' = match f_mem f' with [] => repeat 0%Z width | x :: _ => x end.
Proof.
  intros cap afull width ren wen w f A B. unfold fifo_tick. assert (E : (if ren then match f_mem f with [] => None | _ :: q => Some q end else Some (f_mem f)) = Some (if ren then tl (f_mem f) else f_mem f)).
  { destruct ren; [|reflexivity]. specialize (A eq_refl). destruct (f_mem f); [congruence|reflexivity]. }
  rewrite E. set (q := if ren then tl (f_mem f) else f_mem f) in *. assert (L : length q = length (f_mem f) - (if ren then 1 else 0)). { unfold q. destruct ren; [|lia]. destruct (f_mem f); cbn; lia. }
  destruct wen.
  - specialize (B eq_refl). destruct (Nat.eqb_spec (length q) cap); [lia|]. eexists. split; [reflexivity|]. cbn [f_mem f_empty f_afull f_rdata]. auto.
  - eexists. split; [reflexivity|]. cbn [f_mem f_empty f_afull f_rdata]. rewrite app_nil_r. auto.
Qed.

Section Io.
Variable P : mparams.
Notation n := (m_dim P).
Hypothesis NP : 0 < n.
Hypothesis SP : 1 < m_fifo P.

(** ** Input *)
Definition txs (vs : list vec) : list (Z * Z) := map (fun v => (3 * 2 ^ 13, packed v)%Z) vs.
Record finv (inputs : list vec) (sent : list vec) (s : feeder) : Prop := {
  fi_split : sent ++ f_mem (u_fifo s) ++ (if u_wen s then [u_wdata s] else []) = firstn (u_written s) inputs;
  fi_le : u_written s <= length inputs; fi_room : length (f_mem (u_fifo s)) + (if u_wen s then 1 else 0) <= m_fifo P;
  fi_empty : f_empty (u_fifo s) = match f_mem (u_fifo s) with [] => true | _ => false end;
  fi_afull : f_afull (u_fifo s) = (m_fifo P - 1 <=? length (f_mem (u_fifo s)));
  fi_rdata : forall x q, f_mem (u_fifo s) = x :: q -> f_rdata (u_fifo s) = x }.
Lemma finv0 : forall inputs, finv inputs [] feeder0.
Proof. intros. split; cbn; auto; try lia; try discriminate. symmetry. apply Nat.leb_gt. lia. Qed.

Definition ftogo (inputs : list vec) (s : feeder) : nat := 3 * (length inputs - u_written s) + (if u_wen s then 2 else 0) + length (f_mem (u_fifo s)).

Lemma feed_ok : forall inputs sent s r, Forall (fun v => length v = n) inputs -> finv inputs sent s -> exists s' vs, feed P inputs s r = Some s' /\ u_event s r = txs vs /\ finv inputs (sent ++ vs) s' /\
  (if r then ftogo inputs s' = 0 \/ ftogo inputs s' < ftogo inputs s else ftogo inputs s' <= ftogo inputs s).
Proof.
  intros inputs sent s r FA I. pose proof (fi_split _ _ _ I) as SPL. pose proof (fi_room _ _ _ I) as RM.
  assert (V : u_valid s = match f_mem (u_fifo s) with [] => false | _ => true end).
  { unfold u_valid. rewrite (fi_empty _ _ _ I). destruct (f_mem (u_fifo s)) as [|x q] eqn:E; [rewrite andb_false_r; reflexivity|]. rewrite (fi_rdata _ _ _ I x q E).
    assert (L : length x = n). { rewrite Forall_forall in FA. apply FA. rewrite <- (firstn_skipn (u_written s) inputs). apply in_or_app. left. rewrite <- SPL. apply in_or_app. right. left. reflexivity. }
    rewrite L. destruct (Nat.eqb_spec n 0); [lia|reflexivity]. }
  destruct (tick_ok (m_fifo P) (m_fifo P - 1) n (u_valid s && r) (u_wen s) (u_wdata s) (u_fifo s)) as [f [T [M [E [A R]]]]].
  { intros H. apply andb_true_iff in H as [H _]. rewrite V in H. destruct (f_mem (u_fifo s)); discriminate. }
  { intros H. rewrite H in RM. lia. }
  unfold feed. rewrite T. set (W := match f_afull (u_fifo s) with true => _ | false => _ end).
  assert (CW : (W = (false, u_wdata s, u_written s) /\ (f_afull (u_fifo s) = true \/ u_written s = length inputs)) \/ exists v, nth_error inputs (u_written s) = Some v /\ W = (true, v, u_written s + 1) /\ f_afull (u_fifo s) = false).
  { unfold W. destruct (f_afull (u_fifo s)); [left; auto|]. destruct (nth_error inputs (u_written s)) as [v|] eqn:Z; [right; exists v; auto|left; split; [reflexivity|right]]. apply nth_error_None in Z. pose proof (fi_le _ _ _ I). lia. }
  exists {| u_fifo := f; u_wen := fst (fst W); u_wdata := snd (fst W); u_written := snd W |}.
  set (pop := u_valid s && r) in *. exists (if pop then match f_mem (u_fifo s) with [] => [] | x :: _ => [x] end else []).
  assert (PP : pop = true -> f_mem (u_fifo s) <> []) by (unfold pop; rewrite V; destruct (f_mem (u_fifo s)); [discriminate|discriminate]).
  assert (LM : length (f_mem f) = length (f_mem (u_fifo s)) - (if pop then 1 else 0) + (if u_wen s then 1 else 0)).
  { rewrite M, app_length. f_equal; [destruct pop; [destruct (f_mem (u_fifo s)); cbn; lia|lia]|destruct (u_wen s); reflexivity]. }
  split; [destruct W as [[a b] c]; reflexivity|]. split; [|split].
  - unfold u_event. fold pop. destruct pop eqn:PO; [|reflexivity]. specialize (PP eq_refl). destruct (f_mem (u_fifo s)) as [|x q] eqn:MM; [congruence|]. rewrite (fi_rdata _ _ _ I x q MM), bus_packed. reflexivity.
  - assert (BASE : (sent ++ (if pop then match f_mem (u_fifo s) with [] => [] | x :: _ => [x] end else [])) ++ f_mem f = firstn (u_written s) inputs).
    { rewrite <- SPL, M. rewrite <- !app_assoc. f_equal. rewrite app_assoc. f_equal. destruct pop; [|reflexivity]. specialize (PP eq_refl). destruct (f_mem (u_fifo s)); [congruence|reflexivity]. }
    destruct CW as [[CW _]|[v [NE [CW AF]]]]; rewrite CW; split; cbn [u_fifo u_wen u_wdata u_written fst snd]; auto; try (intros x q Q; rewrite R, Q; reflexivity).
    + rewrite app_nil_r. exact BASE.
    + apply (fi_le _ _ _ I).
    + destruct pop, (u_wen s); lia.
    + rewrite app_assoc, BASE. replace (u_written s + 1) with (S (u_written s)) by lia. clear - NE. revert NE. generalize (u_written s). induction inputs as [|y l IH]; intros k H; [destruct k; discriminate|]. destruct k; cbn in *; [congruence|]. f_equal. apply IH. exact H.
    + assert (u_written s < length inputs) by (apply nth_error_Some; congruence). lia.
    + rewrite (fi_afull _ _ _ I) in AF. apply Nat.leb_gt in AF. destruct pop, (u_wen s); lia.
  - unfold ftogo. cbn [u_fifo u_wen u_written]. rewrite LM. destruct CW as [[CW WHY]|[v [NE [CW AF]]]]; rewrite CW; cbn [fst snd].
    + assert (PR : r = true -> pop = match f_mem (u_fifo s) with [] => false | _ => true end) by (intros ->; unfold pop; rewrite andb_true_r; exact V).
      destruct r; [|destruct pop, (u_wen s); lia]. specialize (PR eq_refl). destruct (f_mem (u_fifo s)) as [|x q] eqn:MM; rewrite PR; cbn [length] in *.
      * destruct WHY as [AF|WR]; [rewrite (fi_afull _ _ _ I), MM in AF; cbn in AF; apply Nat.leb_le in AF; lia|]. destruct (u_wen s); lia.
      * destruct (u_wen s); lia.
    + assert (u_written s < length inputs) by (apply nth_error_Some; congruence). destruct r, pop, (u_wen s); lia.
Qed.

Lemma feeds_ok : forall inputs rs sent s, Forall (fun v => length v = n) inputs -> finv inputs sent s -> exists s' vs, feeds P inputs s rs = (txs vs, Some s') /\ finv inputs (sent ++ vs) s' /\
  (ftogo inputs s' = 0 \/ ftogo inputs s' + length (filter (fun b => b) rs) <= ftogo inputs s).
Proof.
  intros inputs rs. induction rs as [|r rs IH]; intros sent s FA I; cbn [feeds].
  - exists s, []. split; [reflexivity|]. rewrite app_nil_r. split; [exact I|]. right. cbn. lia.
  - destruct (feed_ok inputs sent s r FA I) as [s1 [v1 [F1 [E1 [I1 G1]]]]]. rewrite F1. destruct (IH _ s1 FA I1) as [s2 [v2 [F2 [I2 G2]]]]. rewrite F2. exists s2, (v1 ++ v2). rewrite E1. unfold txs. rewrite <- map_app. rewrite app_assoc.
    split; [reflexivity|]. split; [exact I2|]. cbn [filter]. destruct r; cbn [length]; [|lia]. destruct G1 as [G1|G1]; lia.
Qed.

(** ** Output *)
Fixpoint agree (a b : list vec) : bool := match a, b with x :: p, y :: q => vec_eqb x y && agree p q | _, _ => true end.
Lemma agree_snoc : forall a x b, agree (a ++ [x]) b = agree a b && match nth_error b (length a) with Some y => vec_eqb x y | None => true end.
Proof. induction a as [|y a IH]; intros x b; destruct b as [|z b]; cbn; [reflexivity|rewrite andb_true_r; reflexivity|reflexivity|]. rewrite IH. apply andb_assoc. Qed.
Lemma agree_all : forall a x b, length b <= length a -> agree (a ++ [x]) b = agree a b.
Proof. intros a x b L. rewrite agree_snoc. replace (nth_error b (length a)) with (@None vec) by (symmetry; apply nth_error_None; exact L). apply andb_true_r. Qed.

Record vinv (golden : list vec) (got : list Z) (seen : list vec) (s : sink) : Prop := {
  vi_split : seen ++ f_mem (v_fifo s) = map (lanes n) got; vi_one : length (f_mem (v_fifo s)) <= 1;
  vi_empty : f_empty (v_fifo s) = match f_mem (v_fifo s) with [] => true | _ => false end;
  vi_afull : f_afull (v_fifo s) = (m_fifo P - 1 <=? length (f_mem (v_fifo s)));
  vi_rdata : forall x q, f_mem (v_fifo s) = x :: q -> f_rdata (v_fifo s) = x;
  vi_read : v_read s = Nat.min (length seen) (length golden); vi_mistake : v_mistake s = negb (agree seen golden) }.
Lemma vinv0 : forall golden, vinv golden [] [] sink0.
Proof. intros. split; cbn; auto; try discriminate. symmetry. apply Nat.leb_gt. lia. Qed.

Lemma collect_ok : forall golden got seen s rx, vinv golden got seen s -> exists s' vs, collect P golden s rx = Some s' /\ vinv golden (got ++ v_event s rx) (seen ++ vs) s' /\ vs = f_mem (v_fifo s).
Proof.
  intros golden got seen s rx I. pose proof (vi_one _ _ _ _ I) as ONE. set (wen := fst rx && negb (f_afull (v_fifo s))).
  destruct (tick_ok (m_fifo P) (m_fifo P - 1) n (negb (f_empty (v_fifo s))) wen (lanes n (snd rx)) (v_fifo s)) as [f [T [M [E [A R]]]]].
  { rewrite (vi_empty _ _ _ _ I). destruct (f_mem (v_fifo s)); [discriminate|discriminate]. }
  { rewrite (vi_empty _ _ _ _ I). intros _. destruct (f_mem (v_fifo s)); cbn [negb length]; cbn [length] in ONE; lia. }
  assert (MF : f_mem f = if wen then [lanes n (snd rx)] else []).
  { rewrite M, (vi_empty _ _ _ _ I). destruct (f_mem (v_fifo s)) as [|x [|y q]]; cbn [negb tl app]; [reflexivity|reflexivity|cbn in ONE; lia]. }
  assert (EV : map (lanes n) (got ++ v_event s rx) = (seen ++ f_mem (v_fifo s)) ++ f_mem f). { rewrite map_app, <- (vi_split _ _ _ _ I). f_equal. unfold v_event. fold wen. rewrite MF. destruct wen; reflexivity. }
  unfold collect. fold wen. rewrite T.
  assert (LF : length (f_mem f) <= 1) by (rewrite MF; destruct wen; cbn; lia).
  destruct (f_mem (v_fifo s)) as [|x q] eqn:MM.
  - rewrite (vi_empty _ _ _ _ I), MM. cbn [negb andb]. set (s' := {| v_fifo := f; v_read := v_read s; v_mistake := v_mistake s |}). exists s', []. split; [destruct (nth_error golden (v_read s)); reflexivity|]. split; [|reflexivity].
    rewrite app_nil_r in *. split; cbn [s' v_fifo v_read v_mistake]; auto; try (intros z w Q; rewrite R, Q; reflexivity). apply (vi_read _ _ _ _ I). apply (vi_mistake _ _ _ _ I).
  - assert (q = []) by (destruct q; [reflexivity|cbn in ONE; lia]). subst q. rewrite (vi_empty _ _ _ _ I), MM. rewrite (vi_rdata _ _ _ _ I x [] MM).
    assert (LX : length x = n). { assert (IX : In x (map (lanes n) got)) by (rewrite <- (vi_split _ _ _ _ I), MM; apply in_or_app; right; left; reflexivity). apply in_map_iff in IX as [z [<- _]]. unfold lanes. rewrite map_length, seq_length. reflexivity. }
    rewrite LX. destruct (Nat.eqb_spec n 0); [lia|]. cbn [negb andb]. pose proof (vi_read _ _ _ _ I) as RD. pose proof (vi_mistake _ _ _ _ I) as MI.
    destruct (nth_error golden (v_read s)) as [g|] eqn:G.
    + assert (LG : v_read s < length golden) by (apply nth_error_Some; congruence). assert (RS : v_read s = length seen) by lia. eexists. exists [x]. split; [reflexivity|]. split; [|reflexivity].
      split; cbn [v_fifo v_read v_mistake]; auto; try (intros z w Q; rewrite R, Q; reflexivity).
      * rewrite app_length. cbn [length]. lia.
      * rewrite agree_snoc, MI, <- RS, G. rewrite negb_andb. reflexivity.
    + apply nth_error_None in G. eexists. exists [x]. split; [reflexivity|]. split; [|reflexivity].
      split; cbn [v_fifo v_read v_mistake]; auto; try (intros z w Q; rewrite R, Q; reflexivity).
      * rewrite app_length. cbn [length]. lia.
      * rewrite agree_all by lia. exact MI.
Qed.
Lemma collects_ok : forall golden rxs got seen s, vinv golden got seen s -> exists s' new vs, collects P golden s rxs = (new, Some s') /\ vinv golden (got ++ new) (seen ++ vs) s'.
Proof.
  intros golden rxs. induction rxs as [|r rxs IH]; intros got seen s I; cbn [collects].
  - exists s, [], []. split; [reflexivity|]. rewrite !app_nil_r. exact I.
  - destruct (collect_ok golden got seen s r I) as [s1 [v1 [C1 [I1 _]]]]. rewrite C1. destruct (IH _ _ s1 I1) as [s2 [n2 [v2 [C2 I2]]]]. rewrite C2. exists s2, (v_event s r ++ n2), (v1 ++ v2). split; [reflexivity|]. rewrite !app_assoc. exact I2.
Qed.
End Io.

Lemma read_line_id : forall l, Forall (fun x => (- 2 ^ 31 <= x < 2 ^ 31)%Z) l -> read_line None l = l.
Proof. intros l H. induction H as [|x l X _ IH]; [reflexivity|]. cbn [read_line]. destruct (Z.ltb_spec x (- 2 ^ 31)); [lia|]. destruct (Z.ltb_spec (2 ^ 31 - 1) x); [lia|]. rewrite IH. reflexivity. Qed.
Lemma parse_io_id : forall ls, Forall (Forall (fun x => (- 2 ^ 31 <= x < 2 ^ 31)%Z)) ls -> parse_io ls = ls.
Proof. intros ls H. induction H as [|l ls X _ IH]; [reflexivity|]. unfold parse_io in *. cbn [map]. rewrite read_line_id by exact X. rewrite IH. reflexivity. Qed.
