(** C55 C47: airway.txt files. *)
From Verif Require Import Base Num Float FloatParse Peg Grammars SpecPeg Trees SpecPairs PairsProofs Airways AirwaysProofs AirwayTxt SpecAirwayTxt AirwayTxtProofs.
Local Open Scope string_scope.
Local Open Scope list_scope.

Definition tab_sep (l : list string) : text := match map s2t l with [] => [] | x :: l => x ++ flat_map (fun s => 9%N :: s) l end.
Definition airway_test : text := flat_map (fun l => tab_sep l ++ [13; 10]%N) [
  ["AKINI"; "49.1"; "11.4"; "14"; "L603"; "B"; "TALAL"; "49.2"; "10.4"; "24500"; "Y"; "0"; "0"; "0"; "0"; "N"];
  ["TALAL"; "49.2"; "10.4"; "14"; "L603"; ""; ""; ""; ""; ""; "N"; "AKINI"; "49.1"; "11.4"; "NESTB"; "N"]].
Definition ruin_test : text := tab_sep ["AKINI"; "49.1"; "11.4"; "14"; "L603"; "B"; "TALAL"; "49.2"; "10.4"; "4294967296"; "Y"; "0"; "0"; "0"; "0"; "N"] ++ [10]%N.

(** The graph of a file is that of the segments of its lines, in order. *)
Theorem C55_graph t kids g : parsed airway_grammar "airways" t kids -> parse_airway_txt t = Ret g ->
  exists segs, Forall2 reads_line (of_rule "airway" kids) segs /\ insert_all empty_graph (List.concat segs) = Some g.
Proof.
  intros P E. destruct (airway_txt_ok t kids P) as [[_ [segs [F E']]]|[_ E']]; rewrite E in E'; [|discriminate].
  exists segs. split; [exact F|]. destruct (insert_all empty_graph (List.concat segs)); [injection E' as <-; reflexivity | discriminate].
Qed.
Print Assumptions C55_graph.
(** Reading a file succeeds exactly if its levels fit into 32 bits; otherwise it panics. Other texts are errors. *)
Theorem C47_airway t kids : parsed airway_grammar "airways" t kids ->
  (Forall levels_ok (of_rule "airway" kids) -> exists g, parse_airway_txt t = Ret g) /\
  (Exists (fun p => ~ levels_ok p) (of_rule "airway" kids) -> parse_airway_txt t = Panic).
Proof.
  intros P. destruct (airway_txt_ok t kids P) as [[R [segs [_ E]]]|[R E]]; split; intros H.
  - destruct (insert_all_rep (List.concat segs)) as [g [X _]]. rewrite X in E. exists g. exact E.
  - apply Exists_exists in H. destruct H as [p [I N]]. rewrite Forall_forall in R. contradiction (N (R p I)).
  - apply Exists_exists in R. destruct R as [p [I N]]. rewrite Forall_forall in H. contradiction (N (H p I)).
  - exact E.
Qed.
Print Assumptions C47_airway.
Theorem C47_airway_rejects t : unparsed airway_grammar "airways" t -> parse_airway_txt t = Err.
Proof. apply airway_txt_err. Qed.
Print Assumptions C47_airway_rejects.
Theorem C47_airway_refuted : parse_airway_txt ruin_test = Panic.
Proof. vm_compute. reflexivity. Qed.
Print Assumptions C47_airway_refuted.

Example C55_nonvacuous : exists kids g, parsed airway_grammar "airways" airway_test kids /\ parse_airway_txt airway_test = Ret g /\
  Forall levels_ok (of_rule "airway" kids) /\ List.length (of_rule "airway" kids) = 2 /\ List.length (fixes g) = 2 /\ airway_name_by_id g = [s2t "L603"].
Proof.
  destruct (top_cases 4 "airway" airway_grammar "airways" eq_refl ltac:(eexists; reflexivity) airway_test) as [[kids [P E]]|[_ E]]; [|vm_compute in E; discriminate].
  exists kids. destruct (airway_txt_ok _ _ P) as [[L [segs [F X]]]|[_ X]]; [|vm_compute in X; discriminate].
  destruct (insert_all_rep (List.concat segs)) as [g [Y _]]. exists g. rewrite Y in X. split; [exact P|]. split; [exact X|]. split; [exact L|].
  clear L F Y P. vm_compute in X. injection X as <-. vm_compute in E. injection E as <-. split; [reflexivity|]. split; reflexivity.
Qed.
Example C47_airway_nonvacuous : exists kids, parsed airway_grammar "airways" ruin_test kids /\ Exists (fun p => ~ levels_ok p) (of_rule "airway" kids).
Proof.
  destruct (top_cases 4 "airway" airway_grammar "airways" eq_refl ltac:(eexists; reflexivity) ruin_test) as [[kids [P E]]|[_ E]]; [|vm_compute in E; discriminate].
  exists kids. split; [exact P|]. destruct (airway_txt_ok _ _ P) as [[_ [segs [F X]]]|[R _]]; [|exact R].
  destruct (insert_all_rep (List.concat segs)) as [g [Y _]]. rewrite Y in X. vm_compute in X. discriminate X.
Qed.
