From Coq Require Import ZArith Bool List Lia Permutation Sorted.
From Verif Require Import ZMap TelemetryModel TelemetrySpec.
Import ListNotations.
Local Open Scope Z_scope.

Lemma trun_ids : forall fw l b b' ids, trun fw l b = (b', ids) ->
  ids = map (fun k => gid b + Z.of_nat k) (seq 1 (length (inits l))) /\ gid b' = gid b + Z.of_nat (length (inits l)).
Proof.
  induction l as [|c l IH]; intros b b' ids H; cbn [trun] in H.
  - inversion H; subst. cbn. split; [auto|lia].
  - destruct (tstep fw c b) as [b1 i1] eqn:S. destruct (trun fw l b1) as [b2 i2] eqn:R. inversion H; subst; clear H.
    destruct (IH _ _ _ R) as [A B]. destruct c; cbn in S; injection S as <- <-; cbn [gid] in *; cbn [inits filter].
    + fold (inits l). cbn [length seq map]. split; [|lia]. cbn [app]. f_equal. rewrite <- seq_shift, map_map. rewrite A. apply map_ext. intros; lia.
    + fold (inits l). auto.
    + fold (inits l). auto.
Qed.

(** One entry under further calls that do not recreate it. *)
Lemma at_same : forall id f m, mfind id (at_entry id f m) = Some (f (match mfind id m with Some e => e | None => trace0 end)).
Proof. intros. unfold at_entry. apply mfind_set_same. Qed.
Lemma at_other : forall id id' f m, id' <> id -> mfind id' (at_entry id f m) = mfind id' m.
Proof. intros. unfold at_entry. apply mfind_set_other. auto. Qed.

Definition summary (id : Z) (l : list call) (e e' : trace) : Prop :=
  src_node e' = src_node e /\ dest_node e' = dest_node e /\ ttype e' = ttype e /\ dataw e' = dataw e /\ network_id e' = network_id e /\ t_init e' = t_init e /\
  num_hops e' = last_hops id l (num_hops e) /\ (forall k, time_of k e' = last_time k id l (time_of k e)) /\
  latency e' = match filter (fun c => match c with Ev Receipt i _ => id =? i | _ => false end) l with [] => latency e | _ => time_of Receipt e' - t_init e end.

Lemma summary_nil : forall id e, summary id [] e e.
Proof. intros. unfold summary. cbn. auto 12. Qed.

Lemma last_time_hops : forall k id i h r d, last_time k id (Hops i h :: r) d = last_time k id r d.
Proof. auto. Qed.

Lemma trun_entry : forall fw l b b' ids id e, trun fw l b = (b', ids) -> id <= gid b -> mfind id (table b) = Some e ->
  exists e', mfind id (table b') = Some e' /\ summary id l e e'.
Proof.
  induction l as [|c l IH]; intros b b' ids id e H G F; cbn [trun] in H.
  - inversion H; subst. exists e. split; auto. apply summary_nil.
  - destruct (tstep fw c b) as [b1 i1] eqn:S. destruct (trun fw l b1) as [b2 i2] eqn:R. inversion H; subst; clear H.
    destruct c as [src dest ty dw net t|k i t|i h]; cbn in S; inversion S; subst; clear S.
    + edestruct (IH _ _ _ id e R) as (e' & A & B).
      * cbn. lia.
      * cbn [table]. rewrite mfind_set_other by lia. exact F.
      * exists e'. split; [exact A|]. exact B.
    + destruct (Z.eq_dec id i) as [->|N].
      * edestruct (IH _ _ _ i (stamp k t e) R) as (e' & A & B); [exact G|cbn [table]; rewrite at_same, F; reflexivity|].
        exists e'. split; [exact A|]. destruct B as (B1 & B2 & B3 & B4 & B5 & B6 & B7 & B8 & B9).
        assert (I : t_init (stamp k t e) = t_init e) by (destruct k; auto).
        split; [destruct k; exact B1|]. split; [destruct k; exact B2|]. split; [destruct k; exact B3|]. split; [destruct k; exact B4|]. split; [destruct k; exact B5|].
        split; [destruct k; exact B6|]. split; [destruct k; exact B7|]. split.
        -- intros k'. cbn [last_time]. rewrite Z.eqb_refl, andb_true_r. rewrite B8. f_equal. destruct k, k'; reflexivity.
        -- rewrite B9. cbn [filter]. pose proof (B8 Receipt) as BR. rewrite I.
           destruct k; cbn [stamp latency]; try reflexivity. rewrite Z.eqb_refl.
           set (fl := filter _ l). destruct fl eqn:FL; [|reflexivity].
           assert (X : time_of Receipt e' = t); [|rewrite X; reflexivity].
           rewrite BR. cbn [stamp time_of t_receive]. revert FL. unfold fl. clear. intros FL. revert FL. generalize t as d. intros d. induction l as [|c l IH]; cbn [filter last_time]; auto.
           destruct c as [| k j t' |]; auto. destruct k; cbn [kind_eqb andb]; auto. destruct (i =? j); [discriminate|auto].
      * edestruct (IH _ _ _ id e R) as (e' & A & B); [exact G|cbn [table]; rewrite at_other by auto; exact F|].
        exists e'. split; [exact A|]. destruct B as (B1 & B2 & B3 & B4 & B5 & B6 & B7 & B8 & B9).
        assert (NE : id =? i = false) by (apply Z.eqb_neq; auto).
        split; [auto|]. split; [auto|]. split; [auto|]. split; [auto|]. split; [auto|]. split; [auto|]. split; [auto|]. split.
        -- intros k'. cbn [last_time]. rewrite NE, andb_false_r. auto.
        -- cbn [filter]. rewrite NE. destruct k; auto.
    + destruct (Z.eq_dec id i) as [->|N].
      * edestruct (IH _ _ _ i (set_hops h e) R) as (e' & A & B); [exact G|cbn [table]; rewrite at_same, F; reflexivity|].
        exists e'. split; [exact A|]. destruct B as (B1 & B2 & B3 & B4 & B5 & B6 & B7 & B8 & B9).
        split; [auto|]. split; [auto|]. split; [auto|]. split; [auto|]. split; [auto|]. split; [auto|]. split.
        -- cbn [last_hops]. rewrite Z.eqb_refl. auto.
        -- split; [|auto]. intros k. rewrite B8. destruct k; auto.
      * edestruct (IH _ _ _ id e R) as (e' & A & B); [exact G|cbn [table]; rewrite at_other by auto; exact F|].
        exists e'. split; [exact A|]. destruct B as (B1 & B2 & B3 & B4 & B5 & B6 & B7 & B8 & B9).
        assert (NE : id =? i = false) by (apply Z.eqb_neq; auto).
        split; [auto|]. split; [auto|]. split; [auto|]. split; [auto|]. split; [auto|]. split; [auto|]. split; [|auto].
        cbn [last_hops]. rewrite NE. auto.
Qed.

Lemma trun_app : forall fw l1 l2 b, trun fw (l1 ++ l2) b = let '(b1, i1) := trun fw l1 b in let '(b2, i2) := trun fw l2 b1 in (b2, i1 ++ i2).
Proof.
  induction l1 as [|c l1 IH]; intros l2 b; cbn [trun app].
  - destruct (trun fw l2 b). auto.
  - destruct (tstep fw c b) as [b1 i1]. rewrite IH. destruct (trun fw l1 b1) as [b2 i2]. destruct (trun fw l2 b2). rewrite app_assoc. auto.
Qed.

Lemma mask_mod : forall fw d, 0 <= fw -> Z.land (Z.shiftl 1 fw - 1) d = d mod 2 ^ fw.
Proof.
  intros fw d H. rewrite Z.shiftl_1_l, Z.land_comm. replace (2 ^ fw - 1) with (Z.ones fw) by (rewrite Z.ones_equiv; lia). apply Z.land_ones. auto.
Qed.

(** The record of a transaction: its initiation, and the last event of each kind naming it. *)
Lemma record_of : forall fw l1 src dest ty dw net t l2 b' ids, 0 <= fw ->
  trun fw (l1 ++ Init src dest ty dw net t :: l2) book0 = (b', ids) ->
  let id := Z.of_nat (length (inits l1)) + 1 in
  exists e, mfind id (table b') = Some e /\
    src_node e = src /\ dest_node e = dest mod 2 ^ fw /\ ttype e = ty /\ dataw e = dw /\ network_id e = net /\ t_init e = t /\
    num_hops e = last_hops id l2 0 /\ (forall k, time_of k e = last_time k id l2 0) /\
    latency e = (if existsb (fun c => match c with Ev Receipt i _ => id =? i | _ => false end) l2 then time_of Receipt e - t else 0).
Proof.
  intros fw l1 src dest ty dw net t l2 b' ids HF H id. rewrite trun_app in H. destruct (trun fw l1 book0) as [b1 i1] eqn:R1.
  cbn [trun tstep] in H. destruct (trun fw l2 _) as [b2 i2] eqn:R2. inversion H; subst; clear H.
  destruct (trun_ids _ _ _ _ _ R1) as [_ G]. cbn [gid book0] in G.
  edestruct (trun_entry _ _ _ _ _ id (new_entry fw src dest ty dw net t) R2) as (e & A & B).
  { cbn [gid]. unfold id. lia. }
  { cbn [table]. replace id with (gid b1 + 1) by (unfold id; lia). apply mfind_set_same. }
  destruct B as (B1 & B2 & B3 & B4 & B5 & B6 & B7 & B8 & B9). exists e. split; [auto|]. split; [auto|]. split; [rewrite B2; apply mask_mod; auto|].
  split; [auto|]. split; [auto|]. split; [auto|]. split; [auto|]. split; [auto|].
  split; [intros k; rewrite B8; destruct k; auto|]. rewrite B9. cbn [latency t_init new_entry].
  set (f := fun c : call => match c with Ev Receipt i _ => id =? i | _ => false end).
  assert (X : forall l, existsb f l = match filter f l with [] => false | _ => true end).
  { clear. induction l as [|c l IH]; cbn; auto. destruct (f c); auto. }
  rewrite X. destruct (filter f l2); auto.
Qed.

(** Volumes. *)
Definition flow_at (f : flows) (n s d : Z) : Z := match mfind d (f n s) with Some v => v | None => 0 end.

Definition part (n s d : Z) (e : trace) : Z := if (network_id e =? n) && (src_node e =? s) && (dest_node e =? d) then dataw e else 0.
Definition okt (e : trace) := small (network_id e) /\ small (src_node e) /\ small (dest_node e) /\ 0 <= dataw e.

Lemma u32_small : forall x, 0 <= x < 2 ^ 31 -> u32 x = x.
Proof. intros x H. unfold u32. apply Z.mod_small. change (2 ^ 32) with (2 * 2 ^ 31). lia. Qed.

Lemma add_flows_sum : forall nodes l f f', add_flows nodes l f = Some f' -> Forall okt l ->
  forall n s d, 0 <= flow_at f n s d -> flow_at f n s d + fold_right Z.add 0 (map (part n s d) l) < 2 ^ 32 ->
  flow_at f' n s d = flow_at f n s d + fold_right Z.add 0 (map (part n s d) l).
Proof.
  induction l as [|e l IH]; intros f f' H F n s d N B; cbn [add_flows] in H.
  - inversion H; subst. cbn. lia.
  - destruct (add_flow nodes e f) as [f1|] eqn:E; [|discriminate]. inversion F as [|? ? (O1 & O2 & O3 & O4) F2]; subst.
    assert (S0 : 0 <= fold_right Z.add 0 (map (part n s d) l)).
    { clear -F2. induction F2 as [|x l (_ & _ & _ & X) F IH]; cbn; [lia|]. unfold part at 1. destruct (_ && _); lia. }
    assert (X : flow_at f1 n s d = flow_at f n s d + part n s d e).
    { cbn [map fold_right] in B. unfold add_flow in E. destruct (in_bounds _ _ _); [|discriminate].
      rewrite !u32_small in E by (unfold small in *; lia).
      injection E as <-. unfold flow_at in *. unfold part in *. rewrite (Z.eqb_sym (network_id e)), (Z.eqb_sym (src_node e)), (Z.eqb_sym (dest_node e)).
      rewrite (Z.eqb_sym (network_id e)), (Z.eqb_sym (src_node e)), (Z.eqb_sym (dest_node e)) in B.
      destruct (Z.eqb_spec n (network_id e)) as [->|]; cbn [andb] in *; [|lia].
      destruct (Z.eqb_spec s (src_node e)) as [->|]; cbn [andb] in *; [|lia].
      destruct (Z.eqb_spec d (dest_node e)) as [->|D].
      - rewrite mfind_set_same. destruct (mfind (dest_node e) (f (network_id e) (src_node e))); unfold u32; rewrite Z.mod_small; lia.
      - rewrite mfind_set_other by auto. lia. }
    cbn [map fold_right] in *. rewrite (IH f1 f' H F2 n s d); unfold part in X at 1; rewrite ?X; fold (part n s d e); try lia.
    unfold part. destruct (_ && _); lia.
Qed.

Definition parts (n s d : Z) (m : list (Z * trace)) : Z := fold_right Z.add 0 (map (fun x => part n s d (snd x)) m).

Lemma parts_mset : forall n s d k e m, msorted m ->
  parts n s d (mset k e m) = parts n s d m + part n s d e - match mfind k m with Some e0 => part n s d e0 | None => 0 end.
Proof.
  unfold parts, msorted. induction m as [|[k' e'] m IH]; intros S; cbn [mset mfind map fold_right snd]; [lia|].
  cbn in S. inversion S as [|? ? S1 S2]; subst. destruct (Z.eqb_spec k k') as [->|N]; cbn [map fold_right snd]; [lia|].
  destruct (Z.ltb_spec k k'); cbn [map fold_right snd].
  - assert (M : mfind k m = None); [|rewrite M; lia]. apply mfind_None. intros I. rewrite Forall_forall in S2. specialize (S2 _ I). lia.
  - rewrite IH by auto. lia.
Qed.

Lemma part_stamp : forall n s d k t e, part n s d (stamp k t e) = part n s d e.
Proof. intros. unfold part. destruct k; auto. Qed.

Lemma volume_cons : forall fw n s d c l, volume fw n s d (c :: l) =
  (match c with Init src dest _ dw net _ => if (net =? n) && (src =? s) && (dest mod 2 ^ fw =? d) then dw else 0 | _ => 0 end) + volume fw n s d l.
Proof. intros. unfold volume. cbn [map fold_right]. destruct c; auto. Qed.

Lemma table_parts : forall fw l b b' ids n s d, 0 <= fw -> trun fw l b = (b', ids) -> msorted (table b) -> names_known (gid b) l ->
  (forall k, In k (map fst (table b)) <-> 1 <= k <= gid b) -> 0 <= gid b -> Forall (sane fw) l -> Forall okt (map snd (table b)) ->
  parts n s d (table b') = parts n s d (table b) + volume fw n s d l /\ Forall okt (map snd (table b')).
Proof.
  assert (OK : forall k e m, okt e -> Forall okt (map snd m) -> Forall okt (map snd (mset k e m))).
  { induction m as [|[k' e'] m IH]; intros O F; cbn; [repeat constructor; auto; apply O|]. cbn in F. inversion F; subst.
    destruct (k =? k'); cbn; [constructor; auto|]. destruct (k <? k'); cbn; constructor; auto. }
  induction l as [|c l IH]; intros b b' ids n s d HF H S K D G SN F; cbn [trun] in H.
  - inversion H; subst. split; auto. unfold volume. cbn. lia.
  - destruct (tstep fw c b) as [b1 i1] eqn:E. destruct (trun fw l b1) as [b2 i2] eqn:R. inversion H; subst; clear H.
    inversion SN as [|? ? SN1 SN2]; subst. rewrite volume_cons.
    destruct c as [src dest ty dw net t|k i t|i h]; cbn in E; inversion E; subst; clear E; cbn [names_known] in K.
    + edestruct (IH _ _ _ n s d HF R) as [A B]; cbn [table gid].
      * apply mset_sorted. auto.
      * exact K.
      * intros k. rewrite mset_keys, D. lia.
      * lia.
      * auto.
      * apply OK; auto. destruct SN1 as (X1 & X2 & X3 & X4). unfold okt, new_entry. cbn. rewrite mask_mod by auto. auto.
      * split; auto. cbn [table] in A. rewrite A, parts_mset by auto.
        assert (M : mfind (gid b + 1) (table b) = None). { apply mfind_None. rewrite D. lia. }
        rewrite M. unfold part at 1, new_entry. cbn [network_id src_node dest_node dataw]. rewrite mask_mod by auto. lia.
    + destruct K as [K1 K2]. assert (M : exists e0, mfind i (table b) = Some e0).
      { destruct (mfind i (table b)) eqn:M; [eauto|]. exfalso. apply mfind_None in M. apply M. apply D. auto. }
      destruct M as [e0 M].
      assert (O0 : okt e0). { apply mfind_In in M. rewrite Forall_forall in F. apply F. apply (in_map snd) in M. auto. }
      edestruct (IH _ _ _ n s d HF R) as [A B]; cbn [table gid].
      * apply mset_sorted. auto.
      * exact K2.
      * intros x. unfold at_entry. rewrite mset_keys, D. split; [intros [->|]|]; auto.
      * lia.
      * auto.
      * apply OK; auto. rewrite M. destruct k; exact O0.
      * split; auto. cbn [table] in A. rewrite A. unfold at_entry. rewrite parts_mset, M, part_stamp by auto. lia.
    + destruct K as [K1 K2]. assert (M : exists e0, mfind i (table b) = Some e0).
      { destruct (mfind i (table b)) eqn:M; [eauto|]. exfalso. apply mfind_None in M. apply M. apply D. auto. }
      destruct M as [e0 M].
      assert (O0 : okt e0). { apply mfind_In in M. rewrite Forall_forall in F. apply F. apply (in_map snd) in M. auto. }
      edestruct (IH _ _ _ n s d HF R) as [A B]; cbn [table gid].
      * apply mset_sorted. auto.
      * exact K2.
      * intros x. unfold at_entry. rewrite mset_keys, D. split; [intros [->|]|]; auto.
      * lia.
      * auto.
      * apply OK; auto. rewrite M. exact O0.
      * split; auto. cbn [table] in A. rewrite A. unfold at_entry. rewrite parts_mset, M by auto. unfold set_hops, part. cbn. lia.
Qed.

Lemma sum_perm : forall f (a b : list trace), Permutation a b -> fold_right Z.add 0 (map f a) = fold_right Z.add 0 (map f b).
Proof. intros f a b P. induction P; cbn; lia. Qed.

Lemma dump_sum : forall fw nodes l b ids order f n s d, 0 <= fw -> trun fw l book0 = (b, ids) -> names_known 0 l ->
  Forall (sane fw) l -> Permutation order (map snd (table b)) -> add_flows nodes order no_flows = Some f ->
  volume fw n s d l < 2 ^ 32 ->
  (match mfind d (f n s) with Some v => v | None => 0 end) = volume fw n s d l.
Proof.
  intros fw nodes l b ids order f n s d HF H K SN P A B.
  destruct (table_parts fw l book0 b ids n s d HF H) as [X Y].
  - constructor.
  - exact K.
  - intros k. cbn. lia.
  - cbn. lia.
  - exact SN.
  - constructor.
  - unfold parts in X. cbn [table book0 map fold_right] in X.
    pose proof (sum_perm (part n s d) _ _ P) as Q. rewrite map_map in Q. rewrite X in Q.
    pose proof (add_flows_sum nodes order no_flows f A) as Z. fold (flow_at f n s d). rewrite Z.
    + rewrite Q. cbn. lia.
    + apply (Permutation_Forall (Permutation_sym P)) in Y. auto.
    + cbn. lia.
    + rewrite Q. cbn. lia.
Qed.

(** The volume of all devices. *)
Lemma volume_split : forall fw n s d (l : list (nat * call)) devs, NoDup devs -> (forall x, In x l -> In (fst x) devs) ->
  volume fw n s d (map snd l) = fold_right Z.add 0 (map (fun r => volume fw n s d (map snd (filter (fun x => Nat.eqb (fst x) r) l))) devs).
Proof.
  intros fw n s d l devs ND. induction l as [|[r c] l IH]; intros H.
  - cbn [map filter]. unfold volume at 1. cbn. clear. induction devs as [|x devs IH]; [reflexivity|]. cbn [map fold_right]. rewrite <- IH. reflexivity.
  - cbn [map snd]. rewrite volume_cons, IH by (intros x X; apply H; right; exact X).
    set (w := match c with Init _ _ _ _ _ _ => _ | _ => _ end).
    assert (K : In r devs) by (apply (H (r, c)); left; reflexivity). clear H IH.
    assert (G : forall ds, NoDup ds ->
      fold_right Z.add 0 (map (fun r0 => volume fw n s d (map snd (filter (fun x => Nat.eqb (fst x) r0) ((r, c) :: l)))) ds) =
      (if in_dec Nat.eq_dec r ds then w else 0) + fold_right Z.add 0 (map (fun r0 => volume fw n s d (map snd (filter (fun x => Nat.eqb (fst x) r0) l))) ds)).
    { clear devs ND K. induction ds as [|x ds IH]; intros N; [reflexivity|]. inversion N as [|? ? N1 N2]; subst.
      cbn [map fold_right]. rewrite (IH N2). cbn [filter fst].
      destruct (Nat.eqb_spec r x) as [->|NE].
      - cbn [map snd]. rewrite volume_cons. fold w. destruct (in_dec Nat.eq_dec x ds); [contradiction|].
        destruct (in_dec Nat.eq_dec x (x :: ds)) as [|B]; [lia|exfalso; apply B; left; reflexivity].
      - destruct (in_dec Nat.eq_dec r ds) as [A|A]; destruct (in_dec Nat.eq_dec r (x :: ds)) as [B|B]; try lia.
        + exfalso. apply B. right. exact A.
        + destruct B as [B|B]; [congruence|contradiction]. }
    rewrite (G devs ND). destruct (in_dec Nat.eq_dec r devs); [reflexivity|contradiction].
Qed.
