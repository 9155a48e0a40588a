(** C39 C47: .asr files. *)
From Verif Require Import Base Num Float FloatParse Peg Grammars SpecPeg Trees SpecPairs PairsProofs Asr SpecAsr AsrProofs.
Local Open Scope string_scope.
Local Open Scope list_scope.

(** Each display setting has the value of its first line, or its default if it has none. *)
Theorem C39_settings t kids a : parsed asr_grammar "asr" t kids -> asr_parse t = Ret a -> asr_scalars kids a.
Proof. intros P E. destruct (asr_ok t kids P) as [[_ [a' [E' H]]]|[_ E']]; rewrite E in E'; [injection E' as <-; apply H | discriminate]. Qed.
Print Assumptions C39_settings.
(** Each item to be drawn is kept in the list of its kind, in the order of the file; only extended centre lines are
    left out. *)
Theorem C39_items t kids a : parsed asr_grammar "asr" t kids -> asr_parse t = Ret a -> asr_items kids (asr_map_of a).
Proof. intros P E. destruct (asr_ok t kids P) as [[_ [a' [E' H]]]|[_ E']]; rewrite E in E'; [injection E' as <-; apply H | discriminate]. Qed.
Print Assumptions C39_items.
(** Each plugin setting has the value of its last line. *)
Theorem C39_plugins t kids a : parsed asr_grammar "asr" t kids -> asr_parse t = Ret a -> asr_plugins kids (asr_plugin_settings a).
Proof. intros P E. destruct (asr_ok t kids P) as [[_ [a' [E' H]]]|[_ E']]; rewrite E in E'; [injection E' as <-; apply H | discriminate]. Qed.
Print Assumptions C39_plugins.
Example C39_nonvacuous : exists kids a, parsed asr_grammar "asr" asr_test kids /\ asr_parse asr_test = Ret a /\
  List.length (of_rule "above" kids) = 2 /\ List.length (of_rule "runways" kids) = 2 /\ List.length (of_rule "plugin" kids) = 1 /\ of_rule "sector_file" kids = [].
Proof.
  destruct (top_cases 2 "asr" asr_grammar "asr" eq_refl ltac:(eexists; reflexivity) asr_test) as [[kids [P E]]|[_ E]]; [|vm_compute in E; discriminate].
  pose proof asr_test_ok as A. destruct (asr_parse asr_test) as [a| |] eqn:X; try contradiction. clear A X.
  exists kids, a. split; [exact P|]. split; [reflexivity|]. vm_compute in E. injection E as <-. repeat split.
Qed.

(** Reading a file that matches the grammar succeeds exactly if its numbers are in range and its window corners are
    decimal numbers; otherwise it panics. Texts that do not match are errors. *)
Theorem C47_asr t kids : parsed asr_grammar "asr" t kids ->
  (Forall readable kids -> exists a, asr_parse t = Ret a) /\ (Exists (fun p => ~ readable p) kids -> asr_parse t = Panic).
Proof.
  intros P. destruct (asr_ok t kids P) as [[R [a [E _]]]|[R E]]; split; intros H.
  - exists a. exact E.
  - apply Exists_exists in H. destruct H as [p [I N]]. rewrite Forall_forall in R. contradiction (N (R p I)).
  - apply Exists_exists in R. destruct R as [p [I N]]. rewrite Forall_forall in H. contradiction (N (H p I)).
  - exact E.
Qed.
Print Assumptions C47_asr.
Theorem C47_asr_rejects t : unparsed asr_grammar "asr" t -> asr_parse t = Err.
Proof. apply asr_err. Qed.
Print Assumptions C47_asr_rejects.
(** So these files, which match, make the parser panic. *)
Theorem C47_asr_refuted : Forall (fun s => asr_parse (s2t s) = Panic)
  ["LEADER:200"; "ABOVE:-1"; "BELOW:4294967296"; "HISTORY_DOTS:256"; "WINDOWAREA:N048.00.00.000:E011.00.00.000:N049.00.00.000:E012.00.00.000"].
Proof. repeat constructor; vm_compute; reflexivity. Qed.
Print Assumptions C47_asr_refuted.
Example C47_asr_nonvacuous :
  (exists kids, parsed asr_grammar "asr" asr_test kids /\ Forall readable kids) /\
  (exists kids, parsed asr_grammar "asr" (s2t "LEADER:200") kids /\ Exists (fun p => ~ readable p) kids) /\
  unparsed asr_grammar "asr" (s2t "SHOWC:2").
Proof.
  split; [|split].
  - destruct (top_cases 2 "asr" asr_grammar "asr" eq_refl ltac:(eexists; reflexivity) asr_test) as [[kids [P E]]|[_ E]]; [|vm_compute in E; discriminate].
    exists kids. split; [exact P|]. destruct (asr_ok _ _ P) as [[R _]|[_ X]]; [exact R|]. pose proof asr_test_ok as A. rewrite X in A. contradiction.
  - destruct (top_cases 2 "asr" asr_grammar "asr" eq_refl ltac:(eexists; reflexivity) (s2t "LEADER:200")) as [[kids [P E]]|[_ E]]; [|vm_compute in E; discriminate].
    exists kids. split; [exact P|]. destruct (asr_ok _ _ P) as [[_ [a [X _]]]|[R _]]; [vm_compute in X; discriminate X | exact R].
  - destruct (top_cases 2 "asr" asr_grammar "asr" eq_refl ltac:(eexists; reflexivity) (s2t "SHOWC:2")) as [[kids [P E]]|[U _]]; [vm_compute in E; discriminate | exact U].
Qed.
