(** Proofs about symbology files. *)
From Coq Require Import ZifyBool ZifyN ZifyNat.
From Verif Require Import Base Num Float FloatParse Colours SpecColours ColoursProofs Settings Peg Grammars SpecPeg PegProofs PegLang PegForward Trees PegTree SpecPairs PairsProofs SpecText TextProofs Numerals Verdict SpecKeyed KeyedProofs SymbolParse SpecSymbol SymbolProofs SymbologyParse SpecSymbology.
Local Open Scope string_scope.
Local Open Scope list_scope.
Notation G := symbology_grammar.
Ltac rules := repeat match goal with B : born _ _ ?n ?t |- _ => lazymatch goal with R : rule_of t = n |- _ => fail | _ => pose proof (born_rule _ _ _ _ B) end end.

Lemma style_text p : born G NonAtomic "line_style" p -> exists x, parse_linestyle p = Ret x /\ In (text_of p, x) line_style_names.
Proof.
  intros B. destruct (born_yes G eq_refl _ _ _ B _ _ eq_refl ltac:(discriminate) ltac:(discriminate)) as [r Y]. cbn in Y.
  destruct Y as [x [E [X _]]]. unfold parse_linestyle. rewrite E. assert (C : (x = 48 \/ x = 49 \/ x = 50 \/ x = 51 \/ x = 52)%N) by lia.
  unfold line_style_names. destruct C as [-> | [-> | [-> | [-> | ->]]]]; eexists; (split; [vm_compute; reflexivity | cbn [In]; tauto]).
Qed.
Lemma align_text p : born G NonAtomic "alignment" p -> exists x, parse_alignment p = Ret x /\ In (text_of p, x) alignments.
Proof.
  intros B. destruct (born_yes G eq_refl _ _ _ B _ _ eq_refl ltac:(discriminate) ltac:(discriminate)) as [r Y]. unfold parse_alignment, alignments.
  destruct Y as [[-> _]|[_ [[-> _]|[_ [[-> _]|[_ [Y|[_ Y]]]]]]]]; try (eexists; (split; [vm_compute; reflexivity | cbn [In]; tauto])).
  - cbn in Y. destruct Y as [x [E [X _]]]. rewrite E. assert (C : (x = 48 \/ x = 49 \/ x = 50)%N) by lia.
    destruct C as [-> | [-> | ->]]; eexists; (split; [vm_compute; reflexivity | cbn [In]; tauto]).
  - cbn in Y. destruct Y as [x [E [X _]]]. rewrite E. assert (C : (x = 54 \/ x = 55 \/ x = 56)%N) by lia.
    destruct C as [-> | [-> | ->]]; eexists; (split; [vm_compute; reflexivity | cbn [In]; tauto]).
Qed.
Lemma colour_ok p s u n : texts "integer" p = [s; u] -> parse_i32 s = Some n -> match Colours.from_euroscope n with Some c => item_colour p c | None => forall c, ~ item_colour p c end.
Proof.
  intros T P. pose proof (from_euroscope_spec n) as F. destruct (Colours.from_euroscope n) as [c|].
  - destruct F as [B [[W1 [W2 [W3 _]]] [A N]]]. exists s, u, (cr c), (cg c), (cb c). split; [exact T|]. split; [auto|]. unfold rgb_number in N. split; [rewrite P; f_equal; lia|].
    destruct c; cbn in *; congruence.
  - intros c [s' [u' [r [g [b [T' [W [P' _]]]]]]]]. rewrite T in T'. injection T' as <- <-. rewrite P in P'. assert (E : n = Z.of_N (r + 256 * g + 65536 * b)) by congruence. apply F. clear - W E. change (2 ^ 24)%Z with 16777216%Z. lia.
Qed.
Definition item_fits (p : tree) : Prop := Forall (fun s => exists n, parse_i32 s = Some n) (texts "integer" p).
Lemma item_ok p : born G NonAtomic "item" p -> verdict (item_fits p) (parse_item p)
  (fun o => entry names_item reads_item p (match o with Some x => Some ((si_folder x, si_name x), x) | None => None end)).
Proof.
  intros B. kids B as K. destruct (style_text _ K4) as [st [S1 S2]]. destruct (align_text _ K) as [al [A1 A2]].
  rules. destruct (born_decimal_at G eq_refl NonAtomic _ eq_refl ltac:(discriminate) K3) as [_ D]. destruct (parse_numeral 24 128 _ D) as [sz D']. fold parse_f32 in D'.
  assert (TC : texts "colon_delimited_text" p = [text_of t; text_of t0]) by (unfold texts; rewrite E; pick; reflexivity).
  assert (TI : texts "integer" p = [text_of t1; text_of t4]) by (unfold texts; rewrite E; pick; reflexivity).
  assert (TD : texts "decimal" p = [text_of t2]) by (unfold texts; rewrite E; pick; reflexivity).
  assert (TS : texts "line_style" p = [text_of t3]) by (unfold texts; rewrite E; pick; reflexivity).
  assert (TA : texts "alignment" p = [text_of t5]) by (unfold texts; rewrite E; pick; reflexivity).
  unfold parse_item. rewrite E. cbn [next obind]. eapply verdict_iff.
  - vb (unwrap (parse_i32 (text_of t1))); [apply verdict_unwrap|]. intros n _ N. cbn [next obind]. rewrite D'. cbn [unwrap obind next]. rewrite S1. cbn [obind next].
    vb (unwrap (parse_i32 (text_of t4))); [apply verdict_unwrap|]. intros w _ W. cbn [next obind]. rewrite A1. cbn [obind]. vend.
    pose proof (colour_ok p _ _ n TI N) as C. destruct (Colours.from_euroscope n) as [c|]; cbn [entry si_folder si_name].
    + split.
      * intros id. unfold names_item. rewrite TC. split; [intros [X _]; injection X; destruct id; cbn; congruence | intros ->; split; [reflexivity | exists c; exact C]].
      * unfold reads_item, field. cbn [si_folder si_name si_colour si_size si_style si_weight si_align]. rewrite TC, TD, TS, TA, TI. repeat apply conj; eauto 6.
    + intros id [_ [c X]]. exact (C c X).
  - unfold item_fits. rewrite TI, !Forall_cons_iff. intuition constructor.
Qed.
Definition symbol_fits (p : tree) : Prop := Forall (fun s => exists n, parse_u32 s = Some n) (texts "integer" p) /\ Forall rule_fits (symbol_rules p).
Lemma type_from n : match symbol_type_from n with Some ty => type_number ty = n | None => forall ty, type_number ty <> n end.
Proof.
  unfold symbol_type_from. destruct (n <? 24)%N eqn:L.
  - assert (C : In n (map N.of_nat (List.seq 0 24))) by (rewrite <- (Nnat.N2Nat.id n); apply in_map, in_seq; lia). cbn in C.
    repeat (destruct C as [<- | C]; [reflexivity|]). contradiction.
  - intros ty. destruct ty; cbn [type_number]; lia.
Qed.
Lemma type_inj a b : type_number a = type_number b -> a = b.
Proof. destruct a, b; (reflexivity || discriminate). Qed.
Lemma form_names n ts : ~ In n ["moveto"; "line"; "pixel"; "arc"; "fillarc"; "arc_ellipse"; "fillarc_ellipse"; "ellipse_circle"; "ellipse"; "fillrect"; "polygon"] -> Forall rule_form ts -> of_rule n ts = [].
Proof.
  intros N F. induction F as [|q ts Q _ IH]; [reflexivity|]. rewrite of_rule_miss; [exact IH|]. intros <-. apply N. cbn [In].
  destruct Q as [p R _ _|p d i j R _ _ _ _ _|p d e i j R _ _ _ _ _ _|p d R _ _ _|p d e R _ _ _ _|p r R _ _ _|R _]; cbn [In] in R; intuition congruence.
Qed.
Lemma symbol_ok p : born G NonAtomic "symbol" p -> verdict (symbol_fits p) (parse_symbol_rules p) (entry names_type (fun p rules => Forall2 reads_rule (symbol_rules p) rules) p).
Proof.
  intros B. kids B as K. apply shape_plus in K; [|reflexivity]. destruct K as [l [_ [-> F]]].
  assert (RF : Forall rule_form (List.concat l)).
  { apply Forall_flat. eapply Forall_impl; [|exact F]. intros u U. right. sil U. destruct (symbology_rule u U) as [q Q]. exists q. exact Q. }
  clear F. rules. assert (TI : texts "integer" p = [text_of t]).
  { unfold texts. rewrite E, of_rule_hit by assumption. rewrite (form_names "integer" _ ltac:(cbn; intuition discriminate) RF). reflexivity. }
  assert (SR : symbol_rules p = List.concat l) by (unfold symbol_rules; rewrite E; reflexivity).
  unfold parse_symbol_rules. rewrite E. cbn [next obind]. eapply verdict_iff.
  - vb (unwrap (parse_u32 (text_of t))); [apply verdict_unwrap|]. intros n _ N. vb (omap parse_symbol_rule (List.concat l)).
    { apply verdict_omap with (P := rule_fits) (R := reads_rule). eapply Forall_impl; [|exact RF]. exact rule_ok. }
    intros rs _ RS. vend. pose proof (type_from n) as T. unfold entry, names_type, field. rewrite TI. destruct (symbol_type_from n) as [ty|].
    + split; [|rewrite SR; exact RS]. intros id. split.
      * intros [s [S1 S2]]. injection S1 as <-. rewrite N in S2. injection S2 as S2. apply type_inj. congruence.
      * intros ->. exists (text_of t). split; [reflexivity|]. rewrite N, T. reflexivity.
    + intros id [s [S1 S2]]. injection S1 as <-. rewrite N in S2. injection S2 as S2. exact (T id (eq_sym S2)).
  - unfold symbol_fits. rewrite TI, SR, Forall_cons_iff. intuition constructor.
Qed.
Definition part (p : tree) : Prop := born G NonAtomic "item" p \/ born G NonAtomic "symbol" p \/ In (rule_of p) ["header"; "footer"; "EOI"].
Definition part_fits (p : tree) : Prop := (rule_of p = "item" -> item_fits p) /\ (rule_of p = "symbol" -> symbol_fits p).
Definition item_entry := entry names_item reads_item.
Definition symbol_entry := entry names_type (fun p rules => Forall2 reads_rule (symbol_rules p) rules).
Lemma parts_ok ts : Forall part ts -> forall items symbols, verdict (Forall part_fits ts) (ofold symbology_step ts (mkSymbology items symbols)) (fun s =>
  exists l m, Forall2 item_entry (of_rule "item" ts) l /\ Forall2 symbol_entry (of_rule "symbol" ts) m /\ s = mkSymbology (put_all (given l) items) (put_all (given m) symbols)).
Proof.
  induction 1 as [|p ts H _ IH]; intros items symbols.
  - apply verdict_ret; [constructor|]. exists [], []. repeat split; constructor.
  - cbn [ofold]. eapply (verdict_iff (part_fits p /\ Forall part_fits ts)); [|rewrite Forall_cons_iff; tauto]. unfold symbology_step, is_rule. destruct H as [B|[B|N]].
    + rewrite (born_rule _ _ _ _ B). change (eqb "item" "item") with true. cbv iota. eapply verdict_bind.
      * eapply verdict_iff; [eapply (verdict_bind _ True); [exact (item_ok p B)|]|].
        -- intros o _ O. eapply (verdict_ret _ _ (fun s => exists o, item_entry p o /\ s = mkSymbology (put_all (given [o]) items) symbols)); [exact I|].
           exists (match o with Some x => Some ((si_folder x, si_name x), x) | None => None end). split; [exact O|]. destruct o; reflexivity.
        -- unfold part_fits. rewrite (born_rule _ _ _ _ B). intuition discriminate.
      * intros s _ [o [O ->]]. eapply verdict_mono; [apply IH|]. intros s _ [l [m [L [M ->]]]]. exists (o :: l), m.
        rewrite of_rule_hit, of_rule_miss by (rewrite (born_rule _ _ _ _ B); (reflexivity || discriminate)). split; [constructor; assumption|]. split; [exact M|].
        f_equal. unfold put_all. rewrite <- fold_left_app. f_equal. destruct o; reflexivity.
    + rewrite (born_rule _ _ _ _ B). change (eqb "symbol" "item") with false. change (eqb "symbol" "symbol") with true. cbv iota. eapply verdict_bind.
      * eapply verdict_iff; [eapply (verdict_bind _ True); [exact (symbol_ok p B)|]|].
        -- intros o _ O. eapply (verdict_ret _ _ (fun s => exists o, symbol_entry p o /\ s = mkSymbology items (put_all (given [o]) symbols))); [exact I|].
           exists o. split; [exact O|]. destruct o as [[ty rules]|]; reflexivity.
        -- unfold part_fits. rewrite (born_rule _ _ _ _ B). intuition discriminate.
      * intros s _ [o [O ->]]. eapply verdict_mono; [apply IH|]. intros s _ [l [m [L [M ->]]]]. exists l, (o :: m).
        rewrite of_rule_miss, of_rule_hit by (rewrite (born_rule _ _ _ _ B); (reflexivity || discriminate)). split; [exact L|]. split; [constructor; assumption|].
        f_equal. unfold put_all. rewrite <- fold_left_app. f_equal. destruct o; reflexivity.
    + assert (N1 : rule_of p <> "item") by (intros E; rewrite E in N; cbn in N; intuition discriminate).
      assert (N2 : rule_of p <> "symbol") by (intros E; rewrite E in N; cbn in N; intuition discriminate).
      eapply verdict_bind with (R := fun s => s = mkSymbology items symbols).
      * rewrite (proj2 (eqb_false _ _) N1), (proj2 (eqb_false _ _) N2). cbn [In] in N.
        replace (eqb (rule_of p) "header" || eqb (rule_of p) "footer" || eqb (rule_of p) "EOI") with true.
        -- apply verdict_ret; [split; intros E; contradiction | reflexivity].
        -- destruct N as [<- | [<- | [<- | []]]]; reflexivity.
      * intros s _ ->. eapply verdict_mono; [apply IH|]. intros s _ [l [m [L [M ->]]]]. exists l, m. rewrite !of_rule_miss by assumption. auto.
Qed.
Lemma symbology_kids t kids : parsed G "symbology" t kids -> Forall part kids.
Proof.
  intros P. apply parsed_born in P. kids P as K. rules. sil K1. constructor; [right; right; rewrite H0; cbn; auto|]. apply Forall_app. split; [|apply Forall_app; split].
  - apply shape_plus in K1; [|reflexivity]. destruct K1 as [l [_ [-> F]]]. apply Forall_flat. eapply Forall_impl; [|exact F]. intros u U. right. shp U. subst u. eexists. split; [reflexivity|]. left. exact U.
  - apply shape_plus in K2; [|reflexivity]. destruct K2 as [l [_ [-> F]]]. apply Forall_flat. eapply Forall_impl; [|exact F]. intros u U. right. shp U. subst u. eexists. split; [reflexivity|]. right. left. exact U.
  - constructor; [right; right; rewrite H; cbn; auto|]. constructor; [right; right; cbn; auto | constructor].
Qed.
Lemma symbology_file_ok t kids : parsed G "symbology" t kids -> verdict (symbology_fits kids) (parse_symbology t) (symbology_reads kids).
Proof.
  intros P. destruct (top_cases 10 "symbology" G "symbology" eq_refl ltac:(eexists; reflexivity) t) as [[kids' [P' E]]|[U _]]; [|contradiction (parsed_not _ _ _ _ P U)].
  pose proof (parsed_det _ _ _ _ _ P P') as <-. unfold parse_symbology. rewrite E. cbn [obind]. eapply verdict_iff; [eapply verdict_mono|].
  - exact (parts_ok kids (symbology_kids t kids P) [] []).
  - intros s _ [l [m [L [M ->]]]]. split; cbn [sg_items sg_symbols]; apply given_holds; assumption.
  - unfold symbology_fits, part_fits, item_fits, symbol_fits. rewrite Forall_forall. split.
    + intros H. repeat apply conj.
      * intros p s I. apply In_of_rule in I. destruct I as [I R]. destruct (H p I) as [X _]. specialize (X R). rewrite Forall_forall in X. apply X.
      * intros p s I. apply In_of_rule in I. destruct I as [I R]. destruct (H p I) as [_ X]. specialize (X R). destruct X as [X _]. rewrite Forall_forall in X. apply X.
      * intros p q I. apply In_of_rule in I. destruct I as [I R]. destruct (H p I) as [_ X]. specialize (X R). destruct X as [_ X]. rewrite Forall_forall in X. apply X.
    + intros [H1 [H2 H3]] p I. split; intros R; pose proof (proj2 (In_of_rule _ _ _) (conj I R)) as O; [apply Forall_forall; intros s; apply H1; exact O|].
      split; apply Forall_forall; intros s; [apply H2 | apply H3]; exact O.
Qed.
Lemma symbology_err t : unparsed G "symbology" t -> parse_symbology t = Err.
Proof.
  intros U. destruct (top_cases 10 "symbology" G "symbology" eq_refl ltac:(eexists; reflexivity) t) as [[kids' [P' _]]|[_ E]]; [contradiction (parsed_not _ _ _ _ P' U)|].
  unfold parse_symbology. rewrite E. reflexivity.
Qed.
