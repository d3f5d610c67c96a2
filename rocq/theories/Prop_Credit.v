(** C07 : ejection credits. *)
From Coq Require Import ZArith Bool List Lia.
From Verif Require Import Fupd CreditModel CreditSpec CreditProofs AxisSlaveModel AxisMasterModel AxisMasterSpec Prop_AxisMaster.
Import ListNotations.

(** C07. If node [n] consumes at most one flit between two NoC edges, the credits written for
    it are the consumed channels in order, up to the one still in the map; after a NoC edge
    none is missing. *)
Theorem C07_credits_conserved : forall nn n evs m o, n < nn -> one_per_tick n false evs ->
  c_run nn (fun _ => None) evs = (m, o) ->
  exists pend, consumed n evs = credited n o ++ pend /\ length pend <= 1 /\
    (forall evs', evs = evs' ++ [NocTick] -> pend = []).
Proof.
  intros nn n evs m o Hn H E. exists (match m n with Some v => [v] | None => [] end).
  pose proof (run_conserved nn n Hn evs (fun _ => None) m o H E) as R. cbn in R.
  split; [exact R|]. split; [destruct (m n); cbn; lia|].
  intros evs' ->. rewrite run_app in E. destruct (c_run nn (fun _ => None) evs') as [m1 o1].
  cbn in E. inversion E; subst. reflexivity.
Qed.
Print Assumptions C07_credits_conserved.

Example C07_credits_conserved_ex :
  let evs := [Consume 2 0; Consume 1 4; NocTick; Consume 2 3; NocTick] in
  one_per_tick 2 false evs /\
  credited 2 (snd (c_run 3 (fun _ => None) evs)) = [0; 3] /\ credited 1 (snd (c_run 3 (fun _ => None) evs)) = [4].
Proof. cbn. auto. Qed.

(** C07. A credit is never invented: the credits of a node are some of its consumed flits, in order. *)
Theorem C07_no_credit_invented : forall nn n evs m o, c_run nn (fun _ => None) evs = (m, o) ->
  sublist (credited n o) (consumed n evs).
Proof.
  intros nn n evs m o E. pose proof (run_sub nn n evs _ _ _ E) as R. cbn in R.
  remember (credited n o) as a. clear Heqa E. revert R. generalize (consumed n evs) as b.
  induction a as [|x a IH]; intros b R; [constructor|].
  cbn in R. remember (x :: a ++ pnd m n) as l. induction R; inversion Heql; subst.
  - constructor. auto.
  - constructor. auto.
Qed.
Print Assumptions C07_no_credit_invented.

Example C07_no_credit_invented_ex :
  credited 2 (snd (c_run 3 (fun _ => None) [Consume 2 0; Consume 2 1; NocTick; Consume 2 2; NocTick])) = [0; 2].
Proof. reflexivity. Qed.

(** C07. Two consumptions of one node between two NoC edges lose a credit for good: after any
    continuation of the execution there is at least one credit less than consumed flits. *)
Theorem C07_extra_credit_lost : forall nn n v1 v2 a mid b m o, ~ In NocTick mid ->
  c_run nn (fun _ => None) (a ++ Consume n v1 :: mid ++ Consume n v2 :: b) = (m, o) ->
  length (credited n o) + 1 <= length (consumed n (a ++ Consume n v1 :: mid ++ Consume n v2 :: b)).
Proof. exact extra_lost. Qed.
Print Assumptions C07_extra_credit_lost.

Example C07_extra_credit_lost_ex :
  let evs := [Consume 2 0] ++ NocTick :: Consume 2 1 :: [Consume 0 0] ++ Consume 2 1 :: [NocTick; NocTick; NocTick] in
  credited 2 (snd (c_run 3 (fun _ => None) evs)) = [0; 1] /\ consumed 2 evs = [0; 1; 1].
Proof. cbn. auto. Qed.

(** C07, adapter side. For every run of the AXI-S master adapter and every channel: flits read
    from the NoC = slots freed + flits in the ejection FIFO + the flit being held; the FIFO
    never exceeds its depth. *)
Theorem C07_slots_conserved : forall c input evs s o, m_run c evs (m_init c input) = Some (s, o) ->
  forall v, arrivals v o = frees v o + length (ejf s v) +
              (match pendfl s with Some f => if on_vc v f then 1 else 0 | None => 0 end) /\
            length (ejf s v) <= m_ejdepth c.
Proof.
  intros c input evs s o E v. destruct (run_slots c evs _ _ _ E) as (A & B). split.
  - specialize (A v). unfold infl in A. cbn in A. lia.
  - apply B. intros u. cbn. lia.
Qed.
Print Assumptions C07_slots_conserved.

Example C07_slots_conserved_ex :
  match m_run ex_mcfg (concat (repeat ex_round 5)) (m_init ex_mcfg ex_minput) with
  | Some (s, o) => (arrivals 0 o, frees 0 o, length (ejf s 0)) = (3, 1, 2) /\ frees 1 o = 2
  | None => False
  end.
Proof. vm_compute. auto. Qed.

(** C07. One activation of an adapter thread frees at most one slot, and only the
    depacketiser frees; so the condition of [C07_credits_conserved] holds when the
    depacketiser runs at most once between two NoC edges. *)
Theorem C07_one_free_per_edge : forall c ev t s s' o, m_thread c ev t s = Some (s', o) ->
  length (filter (fun x => match x with Free _ => true | _ => false end) o) <= match t with TDepk => 1 | _ => 0 end.
Proof. intros c ev t s s' o E. apply (thread_slots c ev t s s' o E). Qed.
Print Assumptions C07_one_free_per_edge.

Example C07_one_free_per_edge_ex :
  match m_run ex_mcfg (concat (repeat ex_round 3)) (m_init ex_mcfg ex_minput) with
  | Some (s, _) => match m_thread ex_mcfg {| mths := []; mavail := true; mrdy := fun _ => true |} TDepk s with
                   | Some (_, o) => o = [Free 1] | None => False end
  | None => False
  end.
Proof. vm_compute. auto. Qed.
