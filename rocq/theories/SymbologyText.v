(** Symbology files that are written line by line are read (C80). *)
From Coq Require Import ZifyBool ZifyN ZifyNat.
From Verif Require Import Base Num Float FloatParse Colours SpecColours ColoursProofs Settings Peg Grammars SpecPeg PegProofs PegLang PegForward PegSkip Trees
  SpecText TextProofs SpecFields FileForward ColonText SymbolParse SpecSymbol SpecDrawn DrawnText SymbologyParse SpecSymbology SymbologyProofs SpecSymbologyText.
Local Open Scope string_scope.
Local Open Scope list_scope.
Notation G := symbology_grammar.

#[export] Instance symbology_lined : lined G.
Proof.
  assert (W : defined G "WHITESPACE") by (unfold defined; eapply get_Some_key; reflexivity).
  assert (C : ~ defined G "COMMENT"). { unfold defined. apply get_None; reflexivity. }
  refine {| sp := symbology_space; heads := []; lined_breaks := Build_broken G eq_refl |}; try reflexivity.
  - intros b r B S _ i k. eapply m_skip; [apply skipped_ws; assumption|].
    apply (ok_many_one G NonAtomic _ symbology_space b r); [|exact B | exact S].
    apply (one_call G NonAtomic "WHITESPACE" KSilent SPTAB symbology_space eq_refl); [apply one_sptab | exact I].
  - intros b h c r _ [].
  - intros c H. exact H.
  - intros h [].
Defined.
Lemma CT : get "colon_delimited_text" G = Some (KAtomic, Star (until (&"NL" // str ":"))). Proof. reflexivity. Qed.
Lemma INT : get "integer" G = Some (KAtomic, Opt (str "-" // str "+") ~~ Plus ASCII_DIGIT). Proof. reflexivity. Qed.
Lemma DEC : get "decimal" G = Some (KAtomic, Opt (str "-" // str "+") ~~ ((Star ASCII_DIGIT ~~ str "." ~~ Plus ASCII_DIGIT) // Plus ASCII_DIGIT)). Proof. reflexivity. Qed.
Lemma SR : Forall (fun '(n, r) => get n G = Some r) Grammars.symbol_rule.
Proof. repeat (apply Forall_cons; [reflexivity|]). apply Forall_nil. Qed.

(** ** Items *)
Lemma style_ok s v r : In (s, v) line_style_names -> okt G NonAtomic &"line_style" (s ++ r) r [T "line_style" s []].
Proof.
  intros I. apply okt_ok. apply (ok_call G NonAtomic "line_style" KNormal _ s r [] eq_refl). cbn [In line_style_names] in I.
  repeat (destruct I as [E|I]; [injection E as <- <-; apply ok_sat; reflexivity|]). contradiction.
Qed.
Lemma align_ok s v R N t : In (s, v) alignments -> line_rest G R N t -> okt G NonAtomic &"alignment" (s ++ R) R [T "alignment" s []].
Proof.
  intros I LR. destruct (rest_hd G R N t LR) as [c [R' [-> B]]]. apply okt_ok. apply (ok_call G NonAtomic "alignment" KNormal _ s (c :: R') [] eq_refl).
  change (body_atom "alignment" KNormal NonAtomic) with NonAtomic.
  assert (X : c <> 50%N /\ c <> 51%N /\ c <> 52%N) by (unfold is_blank, is_nl in B; lia).
  assert (K : forall a b r, (a = b -> False) -> forall x y : text, a :: r = b :: x -> y = y -> False) by (intros; congruence).
  cbn [In alignments] in I.
  repeat (destruct I as [E|I]; [injection E as <- <-;
    repeat first [apply ok_alt1, ok_str | apply ok_alt1; apply ok_sat; reflexivity | apply ok_sat; reflexivity
                 | apply ok_alt2; [first [apply ko_str; intros r' Q; injection Q; intros; solve [congruence | lia | discriminate] | apply ko_str; discriminate | apply ko_sat; reflexivity]|]]|]).
  contradiction.
Qed.
Definition item_tree (c : text) (i : item_line) : tree :=
  T "item" c [ctree (il_folder i); ctree (il_name i); itree (il_colour i); dtree (il_size i); T "line_style" (il_style i) []; itree (il_weight i); T "alignment" (il_align i) []].
Lemma item_reads nx i o : reads_item_line i o -> reads_at G nx (before G nx) &"item" (item_text i) (fun ts => exists tr, ts = [tr] /\ exists c, tr = item_tree c i).
Proof.
  intros [FF [FN [WC [NS [WW [n [size [style [weight [align [_ [_ [ST [_ [AL _]]]]]]]]]]]]]]].
  eapply (reads_call G nx (before G nx) "item" _ _ (fun ts => ts = _)); [reflexivity | reflexivity| |intros c ts ->; exists (item_tree c i); split; [reflexivity | eauto]].
  unfold item_text.
  eapply reads_mono.
  - eapply (ct_seq G CT); [exact FF | apply colon_here|]. eapply colon_seq.
    { destruct (il_name i) as [|c w] eqn:E; [apply colon_opens|]. split; [apply (proj1 (proj2 FN) c w); reflexivity | intros h []]. }
    eapply (ct_seq G CT); [exact FN | apply colon_here|]. eapply colon_seq; [apply numeral_opens, whole_numeral, WC|].
    eapply (int_seq G INT); [exact WC | apply colon_here|]. eapply colon_seq; [apply numeral_opens, NS|].
    eapply (dec_seq G DEC); [exact NS | apply colon_here|]. eapply colon_seq.
    { cbn [In line_style_names] in ST. repeat (destruct ST as [E|ST]; [injection E as <- <-; apply (opening_plain G); [reflexivity | discriminate | discriminate]|]). contradiction. }
    eapply (reads_seq G nx (before G nx) &"line_style" _ (il_style i) _ _ [T "line_style" (il_style i) []]); [intros R N t LR; eapply style_ok, ST | apply colon_opens|].
    eapply colon_seq; [apply numeral_opens, whole_numeral, WW|].
    eapply (int_seq G INT); [exact WW | apply colon_here|]. eapply colon_seq.
    { cbn [In alignments] in AL. repeat (destruct AL as [E|AL]; [injection E as <- <-; apply (opening_plain G); [reflexivity | discriminate | discriminate]|]). contradiction. }
    apply reads_line. apply (reads_tok G nx _ (il_align i) [T "alignment" (il_align i) []]). intros R N t LR. eapply align_ok; eassumption.
  - intros ts [t1 [-> [t2 [-> [t3 [-> [t4 [-> [t5 [-> [t6 [-> E]]]]]]]]]]]]. subst t6. reflexivity.
Qed.
Lemma style_ret c s v : In (s, v) line_style_names -> parse_linestyle (T c s []) = Ret v.
Proof. intros I. cbn [In line_style_names] in I. repeat (destruct I as [E|I]; [injection E as <- <-; reflexivity|]). contradiction. Qed.
Lemma align_ret c s v : In (s, v) alignments -> parse_alignment (T c s []) = Ret v.
Proof. intros I. cbn [In alignments] in I. repeat (destruct I as [E|I]; [injection E as <- <-; reflexivity|]). contradiction. Qed.
Lemma item_step c i o items symbols : reads_item_line i o -> symbology_step (mkSymbology items symbols) (item_tree c i) = Ret (mkSymbology (put_all o items) symbols).
Proof.
  intros [_ [_ [_ [_ [_ [n [size [style [weight [align [EC [ES [ST [EW [AL H]]]]]]]]]]]]]]].
  unfold symbology_step. change (is_rule (item_tree c i) "item") with true. cbv iota.
  unfold parse_item, item_tree. cbn [kids_of next obind text_of ctree itree dtree]. rewrite EC. cbn [unwrap obind next]. cbn [text_of]. rewrite ES. cbn [unwrap obind next].
  rewrite (style_ret _ _ _ ST). cbn [obind next]. cbn [text_of]. rewrite EW. cbn [unwrap obind next]. rewrite (align_ret _ _ _ AL). cbn [obind].
  pose proof (from_euroscope_spec n) as S. destruct H as [[r [g [b [B [-> ->]]]]]|[NR ->]].
  - destruct (Colours.from_euroscope _) as [[r' g' b' a']|].
    + destruct S as [_ [[W1 [W2 W3]] [A E]]]. cbn [cr cg cb ca] in *. subst a'. unfold rgb_number in E.
      assert (r' = r /\ g' = g /\ b' = b) as [-> [-> ->]] by lia. reflexivity.
    + contradiction S. lia.
  - destruct (Colours.from_euroscope n) as [x|]; [destruct S as [S _]; contradiction NR; lia | reflexivity].
Qed.

(** ** Symbols *)
Lemma symbolitem_reads nx d r : reads_drawn d r ->
  reads_at G nx (before G nx) &"symbolitem" (s2t "SYMBOLITEM:" ++ drawn_text d) (fun ts => exists tr, ts = [tr] /\ parse_symbol_rule tr = Ret r).
Proof.
  intros H. eapply reads_silent; [reflexivity | reflexivity|]. apply reads_str; [rewrite <- (app_nil_r (drawn_text d)); eapply drawn_opens, H|].
  eapply reads_mono; [eapply (drawn_reads G INT DEC SR), H|]. auto.
Qed.
Lemma paired {A B} (P : A -> B -> Prop) l m : Forall2 P l m -> exists xs, map fst xs = l /\ map snd xs = m /\ Forall (fun x => P (fst x) (snd x)) xs.
Proof. induction 1 as [|a b l m H _ [xs [<- [<- F]]]]; [exists []; repeat constructor|]. exists ((a, b) :: xs). repeat split. constructor; assumption. Qed.
Definition at_symbol (t : text) : Prop := (exists r, t = s2t "SYMBOL:" ++ r) \/ (exists r, t = s2t "m_ClipArea:" ++ r).
Lemma symbolitem_ko t : at_symbol t -> ko G NonAtomic &"symbolitem" t.
Proof. intros H. eapply ko_call; [reflexivity|]. apply ko_seq1, ko_str. intros r E. destruct H as [[q ->]|[q ->]]; discriminate. Qed.
Lemma symbol_ok s o t T0 : reads_symbol_lines s o -> lines_to G (symbol_text s) t T0 -> at_symbol T0 ->
  exists v tr, okt G NonAtomic &"symbol" t v [tr] /\ skipped G v T0 /\ forall items symbols, symbology_step (mkSymbology items symbols) tr = Ret (mkSymbology items (put_all o symbols)).
Proof.
  intros [W [NE [n [rules [EN [FR H]]]]]] LT AT. unfold symbol_text in LT. inversion LT as [|l ls R N u T1 F0 L0 LT']; subst.
  destruct (paired _ _ _ FR) as [xs [E1 [E2 FX]]].
  rewrite <- E1, map_map in LT'.
  destruct (closed_lines_plus G &"symbolitem" (fun x => s2t "SYMBOLITEM:" ++ drawn_text (fst x)) (fun x tr => parse_symbol_rule tr = Ret (snd x)) xs u T0) as [v [trs [O [S Q]]]].
  { intros ->. apply NE. symmetry. exact E1. }
  { eapply Forall_impl; [|exact FX]. intros x X nx. apply symbolitem_reads, X. }
  { exact LT'. }
  { apply symbolitem_ko, AT. }
  destruct (rest_nl G R N u L0) as [w [O' S']].
  assert (OB : okt G NonAtomic (str "SYMBOL:" ~~ &"integer" ~~ &"NL" ~~ Plus &"symbolitem") ((s2t "SYMBOL:" ++ sl_number s) ++ R) v (itree (sl_number s) :: trs)).
  { rewrite <- app_assoc. apply (okt_seq0 G (str "SYMBOL:") _ _ (sl_number s ++ R) v [] (itree (sl_number s) :: trs)); [apply okt_str | |].
    - pose proof (numeral_opens G (sl_number s) R (whole_numeral _ W)) as OP. destruct W as [sg [dg [E [_ [ND _]]]]].
      destruct (sl_number s ++ R) as [|c q] eqn:EQ; [|apply (opens_firm G), OP]. apply app_eq_nil in EQ. destruct EQ as [EQ _]. rewrite EQ in E. destruct sg, dg; try discriminate. congruence.
    - apply (okt_seq G &"integer" _ _ R N v [itree (sl_number s)] trs); [apply (int_ok G INT (sl_number s) [] R N u W (colon_none) L0) | eapply (rest_skip G), L0|].
      apply (okt_seq G &"NL" _ N w u v [] trs); assumption. }
  destruct (okt_normal G "symbol" _ eq_refl eq_refl _ _ _ OB) as [c [_ OS]]. exists v, (T "symbol" c (itree (sl_number s) :: trs)). split; [exact OS|]. split; [exact S|].
  intros items symbols. unfold symbology_step. change (is_rule (T "symbol" c (itree (sl_number s) :: trs)) "item") with false.
  change (is_rule (T "symbol" c (itree (sl_number s) :: trs)) "symbol") with true. cbv iota.
  unfold parse_symbol_rules. cbn [kids_of next obind text_of itree]. rewrite EN. cbn [unwrap obind].
  assert (OM : omap parse_symbol_rule trs = Ret rules).
  { rewrite <- E2. clear - Q. induction Q as [|x tr xs trs P Q IH]; [reflexivity|]. cbn [omap map]. rewrite P. cbn [obind]. rewrite IH. reflexivity. }
  rewrite OM. cbn [obind]. pose proof (type_from n) as TF. destruct H as [[ty [TY ->]]|[NT ->]].
  - destruct (symbol_type_from n) as [ty'|]; [|contradiction (TF ty TY)]. assert (ty' = ty) as -> by (clear - TY TF; subst n; destruct ty, ty'; solve [reflexivity | discriminate]). reflexivity.
  - destruct (symbol_type_from n) as [ty'|]; [contradiction (NT ty' TF) | reflexivity].
Qed.

(** ** Files *)
Lemma item_ko n R N t : whole n -> line_rest G R N t -> ko G NonAtomic &"item" ((s2t "SYMBOL:" ++ n) ++ R).
Proof.
  intros W LR. eapply ko_call; [reflexivity|]. change (body_atom "item" KNormal NonAtomic) with NonAtomic. rewrite <- app_assoc.
  assert (FN : SpecFields.field 58 n).
  { destruct W as [sg [u [-> [SG [NE DG]]]]]. assert (X : forall c, In c (sg ++ u) -> is_digit c = true \/ c = 45%N \/ c = 43%N).
    { intros c I. apply in_app_or in I. destruct I as [I|I]; [destruct SG as [->|[->| ->]]; cbn in I; intuition|]. rewrite Forall_forall in DG. left. apply DG, I. }
    split; [apply Forall_forall; intros c I; specialize (X c I); unfold is_digit in X; lia|].
    split; [intros c v E | intros v c E]; (assert (I : In c (sg ++ u)) by (rewrite E; apply in_or_app || left; cbn; auto)); specialize (X c I); unfold is_digit, is_blank in *; lia. }
  apply (ko_seq0 G &"colon_delimited_text" _ _ (s2t ":" ++ n ++ R) [ctree (s2t "SYMBOL")]).
  - apply (ct_ok G CT (s2t "SYMBOL") (s2t ":" ++ n) R N t); [|apply colon_here | exact LR].
    split; [repeat constructor; discriminate|]. split; [intros c v E; injection E as <- _; reflexivity|].
    intros v c E. assert (I : In c (s2t "SYMBOL")) by (rewrite E; apply in_or_app; right; left; reflexivity). cbn in I. repeat (destruct I as [<-|I]; [reflexivity|]). contradiction.
  - apply (firm_char G); [reflexivity | discriminate | discriminate].
  - apply (ko_seq0 G (str ":") _ _ (n ++ R) []); [apply okt_str | |].
    + pose proof (numeral_opens G n R (whole_numeral _ W)) as OP. destruct W as [sg [dg [E [_ [ND _]]]]].
      destruct (n ++ R) as [|c q] eqn:EQ; [|apply (opens_firm G), OP]. apply app_eq_nil in EQ. destruct EQ as [-> _]. destruct sg, dg; try discriminate. congruence.
    + eapply ko_seq2; [apply (ct_ok G CT n [] R N t FN colon_none LR) | eapply (rest_skip G), LR|].
      apply ko_seq1. destruct LR as [b [nl [k [b' [_ [-> [_ [E _]]]]]]]]. destruct E as [-> | ->]; apply ko_str; discriminate.
Qed.
Lemma lines_hd l ls t T0 : lines_to G (l :: ls) t T0 -> exists R, t = l ++ R.
Proof. intros H. inversion H; subst. eauto. Qed.
Lemma fold_items items os trs : Forall2 reads_item_line items os -> Forall2 (fun i tr => exists c, tr = item_tree c i) items trs -> forall is ss,
  ofold symbology_step trs (mkSymbology is ss) = Ret (mkSymbology (put_all (List.concat os) is) ss).
Proof.
  intros F. revert trs. induction F as [|i o items os H F IH]; intros trs Q is ss; inversion Q as [|? tr ? trs' [c ->] Q']; subst; [reflexivity|].
  cbn [ofold]. rewrite (item_step c i o is ss H). cbn [obind]. rewrite (IH trs' Q'). cbn [List.concat]. f_equal. f_equal.
  unfold put_all. rewrite fold_left_app. reflexivity.
Qed.
Lemma fold_symbols {X} (f : X -> list (symbol_type * symbol)) xs trs :
  Forall2 (fun x tr => forall is ss, symbology_step (mkSymbology is ss) tr = Ret (mkSymbology is (put_all (f x) ss))) xs trs -> forall is ss,
  ofold symbology_step trs (mkSymbology is ss) = Ret (mkSymbology is (put_all (List.concat (map f xs)) ss)).
Proof.
  induction 1 as [|x tr xs trs H F IH]; intros is ss; [reflexivity|]. cbn [ofold]. rewrite H. cbn [obind]. rewrite IH. cbn [List.concat map]. f_equal. f_equal.
  unfold put_all. rewrite fold_left_app. reflexivity.
Qed.
Lemma word_content w l : match s2t w with c :: _ => is_nl c = false /\ is_blank c = false | [] => False end -> content G (s2t w ++ l).
Proof. destruct (s2t w) as [|c v]; [contradiction|]. intros [A B]. exists c, (v ++ l). repeat split; try assumption. intros h []. Qed.
Lemma item_content i o : reads_item_line i o -> content G (item_text i).
Proof.
  intros [[F [T _]] _]. unfold item_text. destruct (il_folder i) as [|c w] eqn:E.
  - exists 58%N. eexists. split; [reflexivity|]. repeat split. intros h [].
  - exists c. eexists. split; [reflexivity|]. inversion F as [|? ? [_ [X Y]] _]; subst. assert (is_blank c = false) by (apply (T c w); reflexivity).
    repeat split; try assumption; [intros h [] | unfold is_nl; lia].
Qed.
Lemma symbol_content s : Forall (content G) (symbol_text s).
Proof. constructor; [apply word_content; split; reflexivity|]. apply Forall_map, Forall_forall. intros d _. apply word_content. split; reflexivity. Qed.
Lemma symbology_text_reads items os symbols ss clip t :
  items <> [] -> symbols <> [] -> Forall2 reads_item_line items os -> Forall2 reads_symbol_lines symbols ss -> whole clip ->
  layout symbology_space [] (symbology_lines items symbols clip) t ->
  parse_symbology t = Ret (mkSymbology (of_list (List.concat os)) (of_list (List.concat ss))).
Proof.
  intros NI NS FI FS WC [k [b [t' [-> [V [B LD]]]]]]. destruct (paired _ _ _ FS) as [xs [X1 [X2 FX]]]. destruct (paired _ _ _ FI) as [ys [Y1 [Y2 FY]]].
  assert (C1 : Forall (content G) (map item_text items)).
  { apply Forall_map. rewrite <- Y1. apply Forall_map. eapply Forall_impl; [|exact FY]. intros y H. eapply item_content, H. }
  assert (C2 : Forall (content G) (flat_map symbol_text symbols)).
  { apply Forall_forall. intros l I. apply in_flat_map in I. destruct I as [s [_ I]]. pose proof (symbol_content s) as F. rewrite Forall_forall in F. apply F, I. }
  assert (C3 : Forall (content G) [s2t "m_ClipArea:" ++ clip; s2t "END"]).
  { constructor; [apply word_content; split; reflexivity|]. constructor; [|constructor]. apply (word_content "END" []). split; reflexivity. }
  assert (C0 : Forall (content G) [s2t "SYMBOLOGY"; s2t "SYMBOLSIZE"]).
  { constructor; [apply (word_content "SYMBOLOGY" []); split; reflexivity|]. constructor; [|constructor]. apply (word_content "SYMBOLSIZE" []). split; reflexivity. }
  unfold symbology_lines in LD. destruct (laid_split G [s2t "SYMBOLOGY"; s2t "SYMBOLSIZE"] (map item_text items ++ flat_map symbol_text symbols ++ [s2t "m_ClipArea:" ++ clip; s2t "END"]) t') as [T1 [LH LD1]]; [| exact LD |]; [repeat (apply Forall_app; split); assumption|].
  destruct (laid_split G (map item_text items) (flat_map symbol_text symbols ++ [s2t "m_ClipArea:" ++ clip; s2t "END"]) T1) as [T2 [LI LD2]]; [| exact LD1 |]; [repeat (apply Forall_app; split); assumption|].
  destruct (laid_split G (flat_map symbol_text symbols) [s2t "m_ClipArea:" ++ clip; s2t "END"] T2) as [T3 [LS LD3]]; [| exact LD2 |]; [repeat (apply Forall_app; split); assumption|].
  destruct (laid_split G [s2t "m_ClipArea:" ++ clip; s2t "END"] [] T3) as [T4 [LF LD4]]; [rewrite app_nil_r; exact C3 | exact LD3|]. inversion LD4; subst T4.
  (* header *)
  assert (H1 : exists v c, okt G NonAtomic &"header" t' v [T "header" c []] /\ skipped G v T1).
  { inversion LH as [|l1 ls1 R N u T0 F0 L0 LH']; subst. inversion LH' as [|l2 ls2 R2 N2 u2 T0 F2 L2 LH2]; subst. inversion LH2; subst.
    destruct (rest_nl G R2 N2 T1 L2) as [w [O' S']].
    assert (O : okt G NonAtomic (str "SYMBOLOGY" ~~ &"NL" ~~ str "SYMBOLSIZE" ~~ &"NL") (s2t "SYMBOLOGY" ++ R) w []).
    { eapply str_line_then; [exact L0|]. apply (okt_seq G (str "SYMBOLSIZE") _ _ R2 N2 w [] []); [apply okt_str | eapply (rest_skip G), L2 | exact O']. }
    destruct (okt_normal G "header" _ eq_refl eq_refl _ _ _ O) as [c [_ OH]]. exists w, c. split; [exact OH | exact S']. }
  destruct H1 as [v1 [c1 [O1 S1]]].
  (* symbols *)
  assert (AT3 : exists R, T3 = s2t "m_ClipArea:" ++ R).
  { destruct (lines_hd _ _ _ _ LF) as [R ->]. exists (clip ++ R). apply app_assoc_reverse. }
  assert (AT3' : at_symbol T3) by (right; exact AT3).
  rewrite <- X1 in LS. replace (flat_map symbol_text (map fst xs)) with (flat_map (fun x => symbol_text (fst x)) xs) in LS by (clear; induction xs as [|x xs IH]; [reflexivity | cbn; rewrite IH; reflexivity]).
  destruct (entries_run G &"symbol" (fun x => symbol_text (fst x)) at_symbol
    (fun x tr => forall is ss, symbology_step (mkSymbology is ss) tr = Ret (mkSymbology is (put_all (snd x) ss))) xs T2 T3) as [AT2 [trs [RS QS]]]; try assumption.
  { eapply Forall_impl; [|exact FX]. intros x H t0 T0 LT AT. exact (symbol_ok (fst x) (snd x) t0 T0 H LT AT). }
  { apply Forall_forall. intros x _ t0 T0 LT. unfold symbol_text in LT. destruct (lines_hd _ _ _ _ LT) as [R ->]. left. exists (sl_number (fst x) ++ R). apply app_assoc_reverse. }
  { destruct AT3 as [R ->]. eapply ko_call; [reflexivity|]. apply ko_seq1. apply ko_str. discriminate. }
  destruct (run_plus_ne G &"symbol" T2 T3 trs RS) as [v3 [O3 S3]]; [intros ->; inversion QS; subst; contradiction | apply (skip_none G), (lines_firmer G _ _ _ LS)|].
  (* items *)
  assert (K2 : ko G NonAtomic &"item" T2).
  { destruct xs as [|x xs]; [cbn in X1; congruence|]. cbn [flat_map] in LS. unfold symbol_text at 1 in LS. cbn [app] in LS. inversion LS as [|l1 ls1 R N u T0 F0 L0 LS']; subst. apply (item_ko _ R N u); [|exact L0].
    inversion FX as [|? ? HX _]; subst. apply HX. }
  rewrite <- Y1, map_map in LI.
  destruct (closed_lines_plus G &"item" (fun y => item_text (fst y)) (fun y tr => exists c, tr = item_tree c (fst y)) ys T1 T2) as [v2 [trs2 [O2 [S2 Q2]]]]; try assumption.
  { intros ->. apply NI. symmetry. exact Y1. }
  { eapply Forall_impl; [|exact FY]. intros y H nx. eapply item_reads, H. }
  (* footer *)
  assert (H4 : exists v c c', okt G NonAtomic &"footer" T3 v [T "footer" c [T "clip_area" c' [itree clip]]] /\ skipped G v []).
  { inversion LF as [|l1 ls1 R N u T0 F0 L0 LF']; subst. inversion LF' as [|l2 ls2 R2 N2 u2 T0 F2 L2 LF2]; subst. inversion LF2; subst.
    assert (OC : okt G NonAtomic (str "m_ClipArea:" ~~ &"integer") ((s2t "m_ClipArea:" ++ clip) ++ R) R [itree clip]).
    { rewrite <- app_assoc. apply (okt_seq0 G (str "m_ClipArea:") _ _ (clip ++ R) R [] [itree clip]); [apply okt_str | | apply (int_ok G INT clip [] R N _ WC colon_none L0)].
      pose proof (numeral_opens G clip R (whole_numeral _ WC)) as OP. destruct WC as [sg [dg [E [_ [ND _]]]]].
      destruct (clip ++ R) as [|c q] eqn:EQ; [|apply (opens_firm G), OP]. apply app_eq_nil in EQ. destruct EQ as [-> _]. destruct sg, dg; try discriminate. congruence. }
    destruct (okt_normal G "clip_area" _ eq_refl eq_refl _ _ _ OC) as [c' [_ OC']].
    destruct (rest_nl G R N _ L0) as [w [O' S']]. destruct (rest_nl G R2 N2 _ L2) as [w2 [O2' S2']].
    assert (O : okt G NonAtomic (&"clip_area" ~~ &"NL" ~~ str "END" ~~ Opt &"NL") ((s2t "m_ClipArea:" ++ clip) ++ R) w2 [T "clip_area" c' [itree clip]]).
    { apply (okt_seq G &"clip_area" _ _ R N w2 [T "clip_area" c' [itree clip]] []); [exact OC' | eapply (rest_skip G), L0|].
      apply (okt_seq G &"NL" _ N w (s2t "END" ++ R2) w2 [] []); [exact O' | exact S'|].
      apply (okt_seq G (str "END") _ _ R2 N2 w2 [] []); [apply okt_str | eapply (rest_skip G), L2 | apply okt_opt, O2']. }
    destruct (okt_normal G "footer" _ eq_refl eq_refl _ _ _ O) as [c [_ OH]]. exists w2, c, c'. split; [exact OH | exact S2']. }
  destruct H4 as [v4 [c4 [c5 [O4 S4]]]].
  assert (TOP : top G "symbology" (k ++ b ++ t') = Ret ([T "header" c1 []] ++ trs2 ++ trs ++ [T "footer" c4 [T "clip_area" c5 [itree clip]]] ++ [T "EOI" [] []])).
  { apply (file_top G "symbology" (&"header" ~~ &"items" ~~ Plus &"symbol" ~~ &"footer" ~~ EOI) _ t'); [reflexivity | reflexivity | vm_compute; reflexivity | eauto | eapply (lines_start G), LH |].
    eapply okt_seq; [exact O1 | exact S1|]. eapply okt_seq; [eapply okt_silent; [reflexivity | reflexivity | exact O2] | exact S2|].
    eapply okt_seq; [exact O3 | exact S3|]. eapply okt_seq; [exact O4 | exact S4|]. apply (okt_ok G NonAtomic EOI [] []), ok_eoi. discriminate. }
  unfold parse_symbology. rewrite TOP. cbn [obind]. cbn [app]. cbn [ofold].
  change (symbology_step (mkSymbology [] []) (T "header" c1 [])) with (Ret (mkSymbology [] [])). cbn [obind].
  assert (OA : forall l l' a, ofold symbology_step (l ++ l') a = obind (ofold symbology_step l a) (ofold symbology_step l')).
  { induction l as [|x l IH]; intros l' a; [reflexivity|]. cbn [app ofold]. destruct (symbology_step a x); cbn [obind]; [apply IH | reflexivity | reflexivity]. }
  rewrite OA, (fold_items items os trs2 FI).
  2: { rewrite <- Y1. clear - Q2. induction Q2; constructor; assumption. }
  cbn [obind]. rewrite OA, (fold_symbols snd xs trs QS). cbn [obind]. rewrite X2. reflexivity.
Qed.
