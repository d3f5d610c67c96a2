(** C15, C59 : NoC placement. *)
From Coq Require Import ZArith Bool List String Lia.
From Verif Require Import PlacementModel PlacementSpec PlacementProofs.
Import ListNotations.
Local Open Scope string_scope.

(** C15. The placed ports of one node and direction are numbered 0, 1, 2, ... without gaps or
    repetitions: a list of distinct ports exists in which the id of a port is its position. *)
Theorem C15_ids_gapless : forall nn mods isl mmp clk f s pl ads,
  parse nn mods f = Some s -> build nn isl mmp clk s = Some (pl, ads) ->
  NoDup (all_ports mods f) -> (forall l, In l f -> line_axis l = true -> line_ports mods l <> []) ->
  forall noc node dir, exists names, NoDup names /\
    forall p i, (pl p = Some (noc, node, i) /\ isl p = Some dir) <-> nth_error names i = Some p.
Proof. exact final_ids. Qed.
Print Assumptions C15_ids_gapless.

(** C15. Every port that the file names ends up on the node the file gives. *)
Theorem C15_all_placed : forall nn mods isl mmp clk f s pl ads,
  parse nn mods f = Some s -> build nn isl mmp clk s = Some (pl, ads) ->
  NoDup (all_ports mods f) -> (forall l, In l f -> line_axis l = true -> line_ports mods l <> []) ->
  forall p, In p (all_ports mods f) -> exists noc node axis i, puts mods f p noc node axis /\ pl p = Some (noc, node, i).
Proof. exact final_all. Qed.
Print Assumptions C15_all_placed.

(** C15. The port number is the position of the port on the adapter of its node and direction
    (module slave ports hang on master adapters and the other way round). *)
Theorem C15_adapter_agrees : forall nn mods isl mmp clk f s pl ads,
  parse nn mods f = Some s -> build nn isl mmp clk s = Some (pl, ads) ->
  NoDup (all_ports mods f) -> (forall l, In l f -> line_axis l = true -> line_ports mods l <> []) ->
  forall p noc node i dir, pl p = Some (noc, node, i) -> isl p = Some dir ->
  exists a, In a ads /\ a_noc a = noc /\ a_node a = node /\ a_slave a = negb dir /\ nth_error (a_names a) i = Some p.
Proof. exact final_adapter. Qed.
Print Assumptions C15_adapter_agrees.

(** C15. No node hosts ports of both kinds, and an AXI-MM node hosts one port.  Port names may
    repeat here. *)
Theorem C15_no_mix : forall nn mods f s p q noc node axis1 axis2, parse nn mods f = Some s ->
  (forall l, In l f -> line_axis l = true -> line_ports mods l <> []) ->
  puts mods f p noc node axis1 -> puts mods f q noc node axis2 -> axis1 = axis2 /\ (axis1 = false -> p = q).
Proof. exact no_mix. Qed.
Print Assumptions C15_no_mix.

(** A design with two modules and a file that uses both line forms. *)
Definition ex_mods (m : string) : option mdesc :=
  if String.eqb m "a" then Some {| m_axs := ["a.in0"; "a.in1"]; m_axm := ["a.out"]; m_mms := []; m_mmm := ["a.mem"] |} else
  if String.eqb m "b" then Some {| m_axs := ["b.in"]; m_axm := []; m_mms := ["b.mem"]; m_mmm := [] |} else None.
Definition ex_isl (p : string) : option bool :=
  Some (existsb (String.eqb p) ["a.in0"; "a.in1"; "b.in"; "b.mem"]).
Definition ex_mmp (p : string) : bool := existsb (String.eqb p) ["a.mem"; "b.mem"].
Definition ex_clk (m : string) : Z * Z := if String.eqb m "a" then (0, 0)%Z else (1, 2)%Z.
Definition ex_file : list line := [ModLine "a" 0 3 true; PortLine "b.in" 0 3 true; PortLine "a.mem" 0 5 false; ModLine "b" 1 3 false].

Definition ex_final : option (list (option (nat * Z * nat)) * nat) :=
  match parse 2 ex_mods ex_file with
  | Some s => match build 2 ex_isl ex_mmp ex_clk s with
              | Some (pl, ads) => Some (map pl (all_ports ex_mods ex_file), List.length ads)
              | None => None
              end
  | None => None
  end.

Example C15_ids_gapless_ex :
  NoDup (all_ports ex_mods ex_file) /\ (forall l, In l ex_file -> line_axis l = true -> line_ports ex_mods l <> []) /\
  ex_final = Some ([Some (0%nat, 3%Z, 0%nat); Some (0%nat, 3%Z, 1%nat); Some (0%nat, 3%Z, 0%nat); Some (0%nat, 3%Z, 2%nat);
                    Some (0%nat, 5%Z, 0%nat); Some (1%nat, 3%Z, 0%nat)], 4%nat).
Proof.
  split; [|split; [|vm_compute; reflexivity]].
  - vm_compute. repeat (constructor; [cbn; intuition discriminate|]). constructor.
  - intros l H _. cbn in H. intuition; subst; discriminate.
Qed.

Example C15_no_mix_ex : exists s, parse 2 ex_mods ex_file = Some s /\ puts ex_mods ex_file "b.in" 0 3 true /\ puts ex_mods ex_file "a.out" 0 3 true.
Proof.
  eexists. split; [reflexivity|]. split; eexists; (split; [|split; [|split; [|split]]]);
    [right; left; reflexivity|left; reflexivity|..]; try reflexivity; [left; reflexivity|right; right; left; reflexivity|..]; reflexivity.
Qed.

(** The condition on module lines is needed: an AXI-S line for a module without AXI-S ports
    skips the check and clears the AXI-MM mark of the node. *)
Theorem C15_no_mix_empty_module_refuted :
  ~ (forall nn mods f s p q noc node axis1 axis2, parse nn mods f = Some s ->
       puts mods f p noc node axis1 -> puts mods f q noc node axis2 -> axis1 = axis2).
Proof.
  intros H.
  pose (mods := fun m => if String.eqb m "c" then Some {| m_axs := []; m_axm := []; m_mms := []; m_mmm := [] |} else None).
  pose (f := [PortLine "a.mem" 0 3%Z false; ModLine "c" 0 3%Z true; PortLine "b.in" 0 3%Z true]).
  assert (E : parse 1 mods f <> None) by (vm_compute; discriminate).
  destruct (parse 1 mods f) as [s|] eqn:P; [|congruence].
  specialize (H 1%nat mods f s "a.mem" "b.in" 0%nat 3%Z false true P). discriminate H.
  - exists (PortLine "a.mem" 0 3%Z false). repeat split; cbn; auto.
  - exists (PortLine "b.in" 0 3%Z true). repeat split; cbn; auto.
Qed.
Print Assumptions C15_no_mix_empty_module_refuted.

Example C15_no_mix_empty_module_refuted_ex :
  parse 1 (fun _ => Some {| m_axs := []; m_axm := []; m_mms := []; m_mmm := [] |})
    [PortLine "a.mem" 0 3%Z false; ModLine "c" 0 3%Z true; PortLine "b.in" 0 3%Z true] <> None.
Proof. vm_compute. discriminate. Qed.

(** The condition on names is needed: a port that the file names twice on one node takes two
    numbers and keeps the second. *)
Theorem C15_repeated_port_refuted :
  ~ (forall nn mods isl mmp clk f s pl ads,
       parse nn mods f = Some s -> build nn isl mmp clk s = Some (pl, ads) ->
       (forall l, In l f -> line_axis l = true -> line_ports mods l <> []) ->
       forall noc node dir, exists names, NoDup names /\
         forall p i, (pl p = Some (noc, node, i) /\ isl p = Some dir) <-> nth_error names i = Some p).
Proof.
  intros H.
  pose (f := [PortLine "a.in0" 0 3%Z true; PortLine "a.in0" 0 3%Z true]).
  assert (E : match parse 1 ex_mods f with
              | Some s => match build 1 ex_isl ex_mmp ex_clk s with
                          | Some (pl, _) => pl "a.in0" = Some (0%nat, 3%Z, 1%nat) /\ (forall p, p <> "a.in0" -> pl p = None)
                          | None => False
                          end
              | None => False
              end).
  { cbn. split; [reflexivity|]. intros p N. unfold sfupd. apply String.eqb_neq in N. rewrite !N. reflexivity. }
  destruct (parse 1 ex_mods f) as [s|] eqn:P; [|contradiction].
  destruct (build 1 ex_isl ex_mmp ex_clk s) as [[pl ads]|] eqn:B; [|contradiction].
  destruct E as [E1 E2].
  destruct (H 1%nat ex_mods ex_isl ex_mmp ex_clk f s pl ads P B) with (noc := 0%nat) (node := 3%Z) (dir := true) as (names & ND & K).
  { intros l [<-|[<-|[]]] _; discriminate. }
  assert (X : nth_error names 1 = Some "a.in0") by (apply K; split; [exact E1|reflexivity]).
  destruct (nth_error names 0) as [q|] eqn:Q; [|destruct names; discriminate].
  apply K in Q. destruct Q as [Q _]. destruct (string_dec q "a.in0") as [->|N]; [congruence|]. rewrite (E2 q N) in Q. discriminate.
Qed.
Print Assumptions C15_repeated_port_refuted.

Example C15_repeated_port_refuted_ex : parse 1 ex_mods [PortLine "a.in0" 0 3%Z true; PortLine "a.in0" 0 3%Z true] <> None.
Proof. vm_compute. discriminate. Qed.

(** C59 is false: the adapter of a node that hosts ports of two modules runs on the clock of
    the module placed first. *)
Theorem C59_adapter_clock_refuted :
  ~ (forall nn mods isl mmp clk f s pl ads a p, parse nn mods f = Some s -> build nn isl mmp clk s = Some (pl, ads) ->
       NoDup (all_ports mods f) -> In a ads -> In p (a_names a) -> a_clks a = clk (module_name p)).
Proof.
  intros H. pose (f := [PortLine "a.in0" 0 3%Z true; PortLine "b.in" 0 3%Z true]).
  assert (E : match parse 1 ex_mods f with
              | Some s => match build 1 ex_isl ex_mmp ex_clk s with
                          | Some (_, ads) => exists a, In a ads /\ In "b.in" (a_names a) /\ a_clks a = (0, 0)%Z
                          | None => False
                          end
              | None => False
              end).
  { vm_compute. eexists. split; [left; reflexivity|]. split; [right; left; reflexivity|reflexivity]. }
  destruct (parse 1 ex_mods f) as [s|] eqn:P; [|contradiction].
  destruct (build 1 ex_isl ex_mmp ex_clk s) as [[pl ads]|] eqn:B; [|contradiction].
  destruct E as (a & E1 & E2 & E3).
  specialize (H 1%nat ex_mods ex_isl ex_mmp ex_clk f s pl ads a "b.in" P B).
  rewrite E3 in H. vm_compute in H. discriminate H; auto.
  constructor; [intros [X|[]]; discriminate|]. constructor; [intros []|constructor].
Qed.
Print Assumptions C59_adapter_clock_refuted.

Example C59_adapter_clock_refuted_ex : ex_clk "a" <> ex_clk "b" /\ module_name "b.in" = "b".
Proof. split; [discriminate|reflexivity]. Qed.

(** C59. What holds: the adapters of a node run on the clock of the module whose port the file
    puts first on the node. *)
Theorem C59_adapter_clock_first : forall nn mods isl mmp clk f s pl ads,
  parse nn mods f = Some s -> build nn isl mmp clk s = Some (pl, ads) ->
  NoDup (all_ports mods f) -> (forall l, In l f -> line_axis l = true -> line_ports mods l <> []) ->
  forall a, In a ads -> exists p r, node_ports mods f (a_noc a) (a_node a) = p :: r /\ a_clks a = clk (module_name p).
Proof. exact final_clock. Qed.
Print Assumptions C59_adapter_clock_first.

Example C59_adapter_clock_first_ex :
  let f := [PortLine "a.in0" 0 3%Z true; PortLine "b.in" 0 3%Z true] in
  node_ports ex_mods f 0 3%Z = ["a.in0"; "b.in"] /\ NoDup (all_ports ex_mods f) /\
  match parse 1 ex_mods f with
  | Some s => match build 1 ex_isl ex_mmp ex_clk s with
              | Some (_, ads) => exists a, In a ads /\ a_names a = ["a.in0"; "b.in"] /\ a_clks a = ex_clk "a" /\ ex_clk "a" <> ex_clk "b"
              | None => False
              end
  | None => False
  end.
Proof.
  split; [reflexivity|]. split; [constructor; [intros [X|[]]; discriminate|]; constructor; [intros []|constructor]|].
  vm_compute. eexists. split; [left; reflexivity|]. split; [reflexivity|]. split; [reflexivity|discriminate].
Qed.

(** C59. So the clock is right for every port when all ports of the node belong to modules with one clock. *)
Theorem C59_adapter_clock_right : forall nn mods isl mmp clk f s pl ads,
  parse nn mods f = Some s -> build nn isl mmp clk s = Some (pl, ads) ->
  NoDup (all_ports mods f) -> (forall l, In l f -> line_axis l = true -> line_ports mods l <> []) ->
  forall a q, In a ads -> In q (node_ports mods f (a_noc a) (a_node a)) ->
  (forall p, In p (node_ports mods f (a_noc a) (a_node a)) -> clk (module_name p) = clk (module_name q)) -> a_clks a = clk (module_name q).
Proof.
  intros nn mods isl mmp clk f s pl ads H1 H2 H3 H4 a q HA Hq HC.
  destruct (final_clock nn mods isl mmp clk f s pl ads H1 H2 H3 H4 a HA) as (p & r & E & ->). apply HC. rewrite E. left. reflexivity.
Qed.
Print Assumptions C59_adapter_clock_right.

Example C59_adapter_clock_right_ex : forall p, In p (node_ports ex_mods ex_file 0 5%Z) -> module_name p = "a".
Proof. intros p H. vm_compute in H. destruct H as [<-|[]]. reflexivity. Qed.
