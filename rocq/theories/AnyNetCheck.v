(** A decision procedure for ranks, for the examples. *)
From Coq Require Import ZArith Arith Bool List Lia.
From Verif Require Import Fupd NetModel AnyNetModel AnyNetSpec AnyNetRoute AnyNetWires AnyNetProofs AnyNetText.
Import ListNotations.
Open Scope nat_scope.

Definition rankedb (F : anyfile) (rank : list nat) : bool :=
  let ls := links F in let rts := map (route F) (seq 0 (an_size F)) in let os := map (fun r => map Ej (locals F r) ++ map Ch (outs F r)) (seq 0 (an_size F)) in
  let to := fun u d => match nth u rts None with
                       | Some l => match find (fun e => Nat.eqb (fst e) d) (rev l) with
                                   | Some (_, p) => match nth p (nth u os []) (Ch (length ls)) with Ch c => Some c | _ => None end
                                   | None => None
                                   end
                       | None => None
                       end in
  forallb (fun u => forallb (fun d => match to u d with
                                      | Some c => match nth_error ls c with
                                                  | Some (_, v) => match to v d with Some c' => Nat.ltb (nth c' rank 0) (nth c rank 0) | None => true end
                                                  | None => true
                                                  end
                                      | None => true
                                      end) (seq 0 (an_nodes F))) (seq 0 (an_size F)).
Lemma rankedb_ok : forall F rank, clean F -> rankedb F rank = true -> ranked F (fun c => nth c rank 0).
Proof.
  intros F rank CL H a d u p c v p' c' Ha Hd Re E1 E2 E3 E4 F1 F2 F3. pose proof (reached_lt F CL _ _ _ Re Ha) as Hu. destruct (link_at F CL _ _ _ E4) as [_ [Hv _]].
  unfold rankedb in H. cbv zeta in H. rewrite forallb_forall in H. specialize (H u ltac:(apply in_seq; lia)). rewrite forallb_forall in H. specialize (H d ltac:(apply in_seq; lia)).
  assert (TO : forall x q k, x < an_size F -> table F x d = Some q -> any_out F x q = Ch k ->
    match nth x (map (route F) (seq 0 (an_size F))) None with
    | Some l => match find (fun e => Nat.eqb (fst e) d) (rev l) with
                | Some (_, p) => match nth p (nth x (map (fun r => map Ej (locals F r) ++ map Ch (outs F r)) (seq 0 (an_size F))) []) (Ch (length (links F))) with Ch c => Some c | _ => None end
                | None => None
                end
    | None => None
    end = Some k).
  { intros x q k Hx Et Eo. rewrite (nth_indep _ None (route F 0)) by (rewrite map_length, seq_length; auto). rewrite map_nth, seq_nth by auto. cbn [plus]. unfold table in Et. destruct (route F x) as [l|]; [|discriminate].
    destruct (find _ (rev l)) as [[y z]|]; [|discriminate]. cbn [option_map snd] in Et. injection Et as ->. rewrite (nth_indep _ [] (map Ej (locals F 0) ++ map Ch (outs F 0))) by (rewrite map_length, seq_length; auto).
    rewrite (map_nth (fun r => map Ej (locals F r) ++ map Ch (outs F r))), seq_nth by auto. cbn [plus]. unfold any_out in Eo. rewrite Eo. reflexivity. }
  rewrite (TO u p c Hu E1 E3), E4, (TO v p' c' Hv F1 F3) in H. apply Nat.ltb_lt. exact H.
Qed.
