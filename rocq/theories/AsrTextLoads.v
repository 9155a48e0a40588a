(** Proofs for C81: what a written .asr file is read as. *)
From Verif Require Import Base Num Float FloatParse Peg Grammars SpecPeg Trees SpecText SpecPairs PairsProofs SpecFields Asr SpecAsr AsrProofs SpecAsrText AsrText.
Local Open Scope string_scope.
Local Open Scope list_scope.

Lemma of_rule_eoi n ks : n <> "EOI" -> of_rule n (ks ++ [T "EOI" [] []]) = of_rule n ks.
Proof.
  intros N. induction ks as [|k ks IH]; cbn [app of_rule rule_of]; [destruct (string_dec "EOI" n); [congruence | reflexivity]|].
  rewrite IH. reflexivity.
Qed.
Ltac no_eoi := rewrite ?of_rule_eoi by discriminate.
Lemma scalars_eoi ks a : asr_scalars (ks ++ [T "EOI" [] []]) a -> asr_scalars ks a.
Proof. unfold asr_scalars, first_setting. no_eoi. exact (fun H => H). Qed.
Lemma items_eoi ks a : asr_items (ks ++ [T "EOI" [] []]) a -> asr_items ks a.
Proof. unfold asr_items, drawn. no_eoi. exact (fun H => H). Qed.
Lemma plugins_eoi ks a : asr_plugins (ks ++ [T "EOI" [] []]) a -> asr_plugins ks a.
Proof. unfold asr_plugins. no_eoi. exact (fun H => H). Qed.

Lemma whole_readable n s : In n (map fst whole_settings) -> forall kw,
  readable (pair_of (n, [Lit kw; Tok "INTEGER" s])) <->
  (n = "above" \/ n = "below" -> parse_u32 s <> None) /\ (n = "history_dots" -> parse_u8 s <> None) /\ (n = "leader" -> parse_i8 s <> None).
Proof.
  intros I kw. unfold readable, SpecPairs.field.
  change (texts "INTEGER" (pair_of (n, [Lit kw; Tok "INTEGER" s]))) with [s]. change (rule_of (pair_of (n, [Lit kw; Tok "INTEGER" s]))) with n.
  split.
  - intros [A [B [C _]]]. split; [|split]; intros H E.
    + destruct (A H) as [s' [x [X Y]]]. injection X as <-. congruence.
    + destruct (C H) as [s' [x [X Y]]]. injection X as <-. congruence.
    + destruct (B H) as [s' [x [X Y]]]. injection X as <-. congruence.
  - intros [A [B C]]. split; [|split; [|split]]; intros H.
    + specialize (A H). destruct (parse_u32 s) as [x|] eqn:E; [exists s, x; auto | contradiction A; reflexivity].
    + specialize (C H). destruct (parse_i8 s) as [x|] eqn:E; [exists s, x; auto | contradiction C; reflexivity].
    + specialize (B H). destruct (parse_u8 s) as [x|] eqn:E; [exists s, x; auto | contradiction B; reflexivity].
    + subst n. clear - I. cbn in I. repeat (destruct I as [I|I]; [discriminate I|]). contradiction.
Qed.
Local Ltac pick I := cbn [In] in I; repeat (destruct I as [I|I]; [injection I; intros; subst|]); try contradiction.
Local Ltac apart := repeat match goal with |- _ /\ _ => split end; intros H'; try (repeat destruct H' as [H'|H']; discriminate H'); try discriminate H'.
Lemma line_readable l : written l -> (readable (pair_of l) <-> in_range l).
Proof.
  intros W.
  assert (NI : ~ In (fst l) (map fst whole_settings) -> fst l <> "window_area" -> readable (pair_of l) /\ in_range l).
  { intros N M. split.
    - unfold readable. change (rule_of (pair_of l)) with (fst l). split; [|split; [|split]]; try (intros H; contradiction M; exact H); intros H; exfalso; apply N; try destruct H as [H|H]; rewrite H; cbn; auto 8.
    - intros s _. split; [|split]; intros H; exfalso; apply N; try destruct H as [H|H]; rewrite H; cbn; auto 8. }
  destruct W as [n kw s I H|n kw b I|n kw s I H|s H|a b c d HA HB HC HD|p k v HP HK HV|n kw s I H|s H|a b HA HB|n kw kinds s k w I H J|s a b k w H HA HB J];
    cbn [fst] in NI.
  - rewrite (whole_readable n s (in_map fst _ _ I) kw). unfold in_range. cbn [fst snd In]. split.
    + intros R s' [E|[E|[]]]; [discriminate E|]. injection E as <-. exact R.
    + intros R. apply R. auto.
  - assert (X : readable (pair_of (n, [Lit kw; Tok "BOOL" (s2t (if b then "1" else "0"))])) /\ in_range (n, [Lit kw; Tok "BOOL" (s2t (if b then "1" else "0"))])); [|tauto].
    apply NI; pick I; [cbn; intuition discriminate .. | discriminate | discriminate | discriminate | discriminate | discriminate | discriminate | discriminate | discriminate].
  - assert (X : readable (pair_of (n, [Lit kw; Tok "value" s])) /\ in_range (n, [Lit kw; Tok "value" s])); [|tauto].
    apply NI; pick I; try discriminate; cbn; intuition discriminate.
  - assert (X := NI ltac:(cbn; intuition discriminate) ltac:(discriminate)). tauto.
  - split; intros _.
    + intros s H. cbn [fst]. split; [|split]; intros X; try (destruct X as [X|X]); discriminate X.
    + unfold readable. change (rule_of (pair_of _)) with "window_area". split; [|split; [|split]]; try (intros [X|X]; discriminate X); try (intros X; discriminate X).
      intros _ q Q. cbn in Q. repeat (destruct Q as [<-|Q]; [reflexivity|]). contradiction.
  - assert (X := NI ltac:(cbn; intuition discriminate) ltac:(discriminate)). tauto.
  - assert (X : readable (pair_of (n, [Lit kw; Tok "multivalue" s; Lit ":"])) /\ in_range (n, [Lit kw; Tok "multivalue" s; Lit ":"])); [|tauto].
    apply NI; pick I; try discriminate; cbn; intuition discriminate.
  - assert (X := NI ltac:(cbn; intuition discriminate) ltac:(discriminate)). tauto.
  - assert (X := NI ltac:(cbn; intuition discriminate) ltac:(discriminate)). tauto.
  - assert (X : readable (pair_of (n, [Lit kw; Tok "multivalue" s; Lit ":"; Tok k (s2t w)])) /\ in_range (n, [Lit kw; Tok "multivalue" s; Lit ":"; Tok k (s2t w)])); [|tauto].
    clear J. apply NI; pick I; try discriminate; cbn; intuition discriminate.
  - assert (X := NI ltac:(cbn; intuition discriminate) ltac:(discriminate)). tauto.
Qed.
Lemma asr_text_reads ls t : ls <> [] -> Forall written ls -> asr_layout ls t ->
  (Forall in_range ls -> exists a, asr_parse t = Ret a /\ asr_scalars (map pair_of ls) a /\ asr_items (map pair_of ls) (asr_map_of a) /\ asr_plugins (map pair_of ls) (asr_plugin_settings a)) /\
  (Exists (fun l => ~ in_range l) ls -> asr_parse t = Panic).
Proof.
  intros N F L. assert (P := asr_text_parsed ls t N F L).
  assert (RE : readable (T "EOI" [] [])) by (split; [|split; [|split]]; try (intros [X|X]; discriminate X); intros X; discriminate X).
  rewrite Forall_forall in F. split; intros R.
  - destruct (asr_ok t _ P) as [[_ [a [E [A [B C]]]]]|[X _]].
    + exists a. split; [exact E|]. split; [apply scalars_eoi, A|]. split; [apply items_eoi, B | apply plugins_eoi, C].
    + exfalso. apply Exists_exists in X. destruct X as [p [I X]]. apply in_app_or in I. destruct I as [I|[<-|[]]]; [|exact (X RE)].
      apply in_map_iff in I. destruct I as [l [<- I]]. apply X, (line_readable l (F l I)). rewrite Forall_forall in R. exact (R l I).
  - destruct (asr_ok t _ P) as [[X _]|[_ E]]; [exfalso | exact E]. apply Exists_exists in R. destruct R as [l [I R]]. apply R, (line_readable l (F l I)).
    rewrite Forall_forall in X. apply X, in_or_app. left. apply in_map, I.
Qed.
Lemma asr_text_same ls t t' : ls <> [] -> Forall written ls -> asr_layout ls t -> asr_layout ls t' -> asr_parse t = asr_parse t'.
Proof.
  intros N F L L'. assert (P := asr_text_parsed ls t N F L). assert (P' := asr_text_parsed ls t' N F L'). unfold asr_parse.
  destruct (top_cases 2 "asr" asr_grammar "asr" eq_refl ltac:(eexists; reflexivity) t) as [[k [Q ->]]|[U _]]; [|contradiction (parsed_not _ _ _ _ P U)].
  destruct (top_cases 2 "asr" asr_grammar "asr" eq_refl ltac:(eexists; reflexivity) t') as [[k' [Q' ->]]|[U _]]; [|contradiction (parsed_not _ _ _ _ P' U)].
  pose proof (parsed_det _ _ _ _ _ P Q) as <-. pose proof (parsed_det _ _ _ _ _ P' Q') as <-. reflexivity.
Qed.
