(** C116: what the priority arbiter keeps and grants. *)
From Coq Require Import ZArith Arith Bool List Lia Sorted.
From Verif Require Import PrioArbModel PrioArbSpec PrioArbProofs.
Import ListNotations.
Open Scope Z_scope.

(** AddRequest keeps one request per input: the first of those with the highest priority. *)
Theorem C116_add : forall inputs l r, requests_ok inputs l -> 0 <= q_in r < inputs ->
  requests_ok inputs (p_add r l) /\
  (forall x, In x (p_add r l) <-> (In x l /\ q_in x <> q_in r) \/ (q_in x = q_in r /\ ((x = r /\ forall y, In y l -> q_in y = q_in r -> q_pri y < q_pri r) \/ (In x l /\ q_pri r <= q_pri x)))).
Proof.
  intros inputs l r [S R] H. split; [|intros x; apply add_view; exact S]. split; [apply add_sorted; exact S|]. intros x Hx. apply add_in in Hx. destruct Hx as [-> | Hx]; auto.
Qed.
Print Assumptions C116_add.
Example C116_add_ex : requests_ok 5 [mkReq 1 0 3; mkReq 4 0 0] /\ p_add (mkReq 1 7 4) [mkReq 1 0 3; mkReq 4 0 0] = [mkReq 1 7 4; mkReq 4 0 0] /\ p_add (mkReq 1 7 3) [mkReq 1 0 3; mkReq 4 0 0] = [mkReq 1 0 3; mkReq 4 0 0].
Proof. split; [|split; reflexivity]. split; [repeat constructor|]. intros x [<-|[<-|[]]]; cbn; lia. Qed.

(** RemoveRequest of an input that requests takes away its request alone. *)
Theorem C116_remove : forall inputs l r, requests_ok inputs l -> In r l ->
  exists l', p_remove (q_in r) l = Some l' /\ requests_ok inputs l' /\ (forall x, In x l' <-> In x l /\ q_in x <> q_in r).
Proof.
  intros inputs l r [S R]. induction S as [|a t S IH F]; intros H; [contradiction|]. rewrite Forall_forall in F. cbn [p_remove]. destruct (Z.ltb_spec (q_in a) (q_in r)) as [L|G].
  - destruct H as [-> | H]; [lia|]. destruct IH as [l' [-> [[S' R'] V]]]; auto; [intros; apply R; right; auto|]. exists (a :: l'). split; auto. split; [split|].
    + constructor; auto. rewrite Forall_forall. intros y Hy. apply F. apply V. exact Hy.
    + intros x [<-|Hx]; [apply R; left; auto|auto].
    + intros x. cbn [In]. rewrite V. split; [intros [<-|[A B]]; split; auto; lia|intros [[<-|A] B]; auto].
  - assert (E : a = r) by (destruct H as [-> | H]; auto; specialize (F r H); lia). subst a. exists t. split; auto. split; [split; auto; intros; apply R; right; auto|]. intros x. cbn [In]. split; [intros Hx; split; auto; specialize (F x Hx); lia|intros [[<-|A] B]; auto; congruence].
Qed.
Print Assumptions C116_remove.
Example C116_remove_ex : In (mkReq 4 0 0) [mkReq 1 0 3; mkReq 4 0 0] /\ p_remove 4 [mkReq 1 0 3; mkReq 4 0 0] = Some [mkReq 1 0 3].
Proof. split; [right; left|]; reflexivity. Qed.
(** For an input that does not request it takes away the request of another. *)
Theorem C116_remove_refuted : exists inputs l i x, requests_ok inputs l /\ In x l /\ q_in x <> i /\ (exists l', p_remove i l = Some l' /\ ~ In x l').
Proof.
  exists 5, [mkReq 1 0 3; mkReq 4 0 0], 2, (mkReq 4 0 0). split; [split; [repeat constructor|intros x [<-|[<-|[]]]; cbn; lia]|]. split; [right; left; reflexivity|]. split; [discriminate|]. exists [mkReq 1 0 3]. split; [reflexivity|]. intros [H|[]]. discriminate.
Qed.
Print Assumptions C116_remove_refuted.

(** Arbitrate grants the highest priority and among those the first from the pointer on, whatever lies behind the end of the list, and moves the pointer behind the granted input. *)
Theorem C116_match : forall inputs rr e l, 0 <= rr < inputs -> requests_ok inputs l ->
  match l with
  | [] => p_arbitrate inputs rr e l = Some (-1, rr, false)
  | _ => exists x r, p_arbitrate inputs rr e l = Some (q_in x, (q_in x + 1) mod inputs, r) /\ chosen inputs rr l x
  end.
Proof.
  intros inputs rr e l Hr Hl. destruct l as [|h t]; [reflexivity|]. destruct (arb_ok inputs rr e (h :: t) Hr Hl) as [x [r [E [C _]]]]; [discriminate|]. exists x, r. auto.
Qed.
Print Assumptions C116_match.
Example C116_match_ex : p_arbitrate 5 2 0 [mkReq 1 0 3; mkReq 3 0 2; mkReq 4 0 3] = Some (4, 0, false) /\ p_arbitrate 5 0 0 [mkReq 1 0 3; mkReq 3 0 2; mkReq 4 0 3] = Some (1, 2, false) /\ 0 <= 2 < 5 /\ requests_ok 5 [mkReq 1 0 3; mkReq 3 0 2; mkReq 4 0 3].
Proof. split; [reflexivity|]. split; [reflexivity|]. split; [lia|]. split; [repeat constructor|]. intros x [<-|[<-|[<-|[]]]]; cbn; lia. Qed.

(** The loop reads through the iterator at the end of the list exactly if all requests but the first are before the pointer. *)
Theorem C116_end : forall inputs rr e l, 0 <= rr < inputs -> requests_ok inputs l -> l <> [] ->
  exists m rr' r, p_arbitrate inputs rr e l = Some (m, rr', r) /\ (r = true <-> forall y, In y (tl l) -> q_in y < rr).
Proof. intros inputs rr e l Hr Hl N. destruct (arb_ok inputs rr e l Hr Hl N) as [x [r [E [_ R]]]]. exists (q_in x), ((q_in x + 1) mod inputs), r. auto. Qed.
Print Assumptions C116_end.
Example C116_end_ex : p_arbitrate 5 0 1 [mkReq 3 0 0] = Some (3, 4, true) /\ p_arbitrate 5 4 9 [mkReq 1 0 0; mkReq 3 0 0] = Some (1, 2, true).
Proof. split; reflexivity. Qed.

(** An input that requests in every round with the highest priority is granted within as many rounds as there are inputs. *)
Theorem C116_served : forall inputs rr ls i, 0 <= rr < inputs -> inputs <= Z.of_nat (length ls) ->
  (forall e l, In (e, l) ls -> requests_ok inputs l /\ exists x, In x l /\ q_in x = i /\ forall y, In y l -> q_pri y <= q_pri x) ->
  exists ms, rounds inputs rr ls = Some ms /\ length ms = length ls /\ In i (firstn (Z.to_nat inputs) ms).
Proof.
  intros inputs rr ls i Hr Hn H.
  assert (T : forall ls rr, 0 <= rr < inputs -> (forall e l, In (e, l) ls -> requests_ok inputs l /\ exists x, In x l /\ q_in x = i /\ forall y, In y l -> q_pri y <= q_pri x) -> exists ms, rounds inputs rr ls = Some ms /\ length ms = length ls /\ forall n, (i - rr) mod inputs < Z.of_nat n -> (n <= length ls)%nat -> In i (firstn n ms)).
  { clear. intros ls. induction ls as [|[e l] ls IH]; intros rr Hr H.
    - exists []. split; auto. split; auto. intros n Hn Hl. pose proof (Z.mod_pos_bound (i - rr) inputs ltac:(lia)). cbn in Hl. lia.
    - destruct (H e l (or_introl eq_refl)) as [Rq [x [Hx [Ei Mx]]]]. destruct (arb_ok inputs rr e l Hr Rq) as [y [r [E [[Hy Ch] _]]]]; [intros ->; contradiction|]. pose proof (Z.mod_pos_bound (q_in y + 1) inputs ltac:(lia)) as B. destruct (IH ((q_in y + 1) mod inputs) B) as [ms [E2 [L V]]]; [intros; apply (H e0); right; auto|].
      exists (q_in y :: ms). cbn [rounds]. rewrite E, E2. split; auto. split; [cbn; congruence|]. intros n Hn Hl. pose proof (Z.mod_pos_bound (i - rr) inputs ltac:(lia)) as B2. destruct n as [|n]; [lia|]. cbn [firstn]. destruct (Z.eq_dec (q_in y) i) as [Ey|Ny]; [left; auto|]. right. apply V; [|cbn in Hl; lia].
      destruct Rq as [_ Rg]. destruct (Ch x Hx) as [C|[C D]]; [specialize (Mx y Hy); lia|]. pose proof (closer inputs rr y x Hr (Rg y Hy) (Rg x Hx) ltac:(congruence) D) as K. unfold behind in K. rewrite Ei in K. lia. }
  destruct (T ls rr Hr H) as [ms [E [L V]]]. exists ms. split; auto. split; auto. apply V; [|lia]. pose proof (Z.mod_pos_bound (i - rr) inputs ltac:(lia)). lia.
Qed.
Print Assumptions C116_served.
Example C116_served_ex : rounds 3 1 (repeat (0, [mkReq 0 0 2; mkReq 1 0 2; mkReq 2 0 2]) 3) = Some [1; 2; 0] /\ 0 <= 1 < 3 /\
  (forall e l, In (e, l) (repeat (0, [mkReq 0 0 2; mkReq 1 0 2; mkReq 2 0 2]) 3) -> requests_ok 3 l /\ exists x, In x l /\ q_in x = 0 /\ forall y, In y l -> q_pri y <= q_pri x).
Proof.
  split; [reflexivity|]. split; [lia|]. intros e l H. apply repeat_spec in H. inversion H. subst. split; [split; [repeat constructor|intros x [<-|[<-|[<-|[]]]]; cbn; lia]|]. exists (mkReq 0 0 2). split; [left; auto|]. split; auto. intros y [<-|[<-|[<-|[]]]]; cbn; lia.
Qed.

(** Update moves the pointer to the next input. *)
Theorem C116_update : forall inputs rr, 0 <= rr < inputs -> p_update inputs rr = (if rr =? inputs - 1 then 0 else rr + 1).
Proof. intros inputs rr H. unfold p_update. destruct (Z.eqb_spec rr (inputs - 1)) as [->|]; [replace (inputs - 1 + 1) with inputs by lia; apply Z.rem_same; lia|apply Z.rem_small; lia]. Qed.
Print Assumptions C116_update.
Example C116_update_ex : 0 <= 4 < 5 /\ p_update 5 4 = 0 /\ p_update 5 2 = 3.
Proof. split; [lia|]. split; reflexivity. Qed.
