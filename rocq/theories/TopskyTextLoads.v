(** Proofs for C82 and C83, continued: entries and files. *)
From Coq Require Import ZifyBool ZifyN ZifyNat.
From Verif Require Import Base Num Float FloatParse Dms Colours Settings Locations Maps Lines Peg Grammars SpecPeg PegProofs PegLang PegForward PegSkip Trees
  SpecText TextProofs SpecFields FileForward SpecEseText SymbolParse SpecSymbol SpecDrawn TopskyParse SpecTopskyText TopskyText TopskyDrawn SpecSymbologyText.
From Verif Require SpecPairs PairsProofs.
Local Open Scope string_scope.
Local Open Scope list_scope.

Local Notation G := topsky_grammar.
Section upper.
  Variable upper : text -> text.
  (** ** Maps *)
  Definition closing (L : list (bool * text)) : Prop := forall t, rows L t -> ko G NonAtomic &"map_setting" t /\ no_line t.
  Lemma settings_start l : Forall starts (flat_map setting_lines l).
  Proof. induction l as [|s l IH]; [constructor|]. cbn [flat_map]. apply Forall_app. split; [apply setting_starts | exact IH]. Qed.
  Lemma unjoined_tl s l : unjoined (s :: l) -> unjoined l.
  Proof. intros U a x y b ->. apply (U (s :: a) x y b). reflexivity. Qed.
  Lemma line_next s l L t : unjoined (s :: l) -> is_segments s -> closing L -> rows (flat_map setting_lines l ++ L) t -> no_line t.
  Proof.
    intros U S C RW. destruct l as [|s' l]; [apply C, RW|]. assert (N : ~ is_segments s') by (intros S'; apply (U [] s s' l eq_refl); split; assumption).
    cbn [flat_map] in RW. unfold setting_lines in RW at 1. cbn [app] in RW. inversion RW as [|? ? ? b b' nl k t' B _ _ _ _ _]; subst. intros v E.
    destruct b as [|c b]; [|inversion B; subst; injection E as -> _; discriminate]. cbn [app] in E.
    destruct s' as [w|w fill|o|c|c|n|name p label|[[sg n]|]|n|w width|p q l'|p w| | | | |n|p]; try discriminate E. apply N. exact I.
  Qed.
  Lemma settings_run l rs : Forall2 (reads_map_setting upper) l rs -> forall L t, unjoined l -> Forall starts L -> closing L -> rows (flat_map setting_lines l ++ L) t ->
    exists t' qs, run G &"map_setting" t t' qs /\ rows L t' /\ omap (parse_map_rule upper) qs = Ret (map Some rs).
  Proof.
    intros F. induction F as [|s r l rs S F IH]; intros L t U SL C RW.
    - exists t, []. split; [apply run_nil, C, RW|]. split; [exact RW | reflexivity].
    - assert (SL' : Forall starts (flat_map setting_lines l ++ L)).
      { apply Forall_app. split; [|exact SL]. apply settings_start. }
      cbn [flat_map] in RW. rewrite <- app_assoc in RW.
      destruct (one_setting upper s r _ t S SL' RW) as [v [t1 [x [O [SV [RW' V]]]]]]; [intros SG t' X; eapply line_next; eassumption|].
      destruct (IH L t1 (unjoined_tl s l U) SL C RW') as [t' [qs [Q [RW2 W]]]]. exists t', (x :: qs). split; [apply (run_cons G &"map_setting" t v t1 t' [x] qs); assumption|].
      split; [exact RW2|]. cbn [omap map]. rewrite V. cbn [obind]. rewrite W. reflexivity.
  Qed.
  Lemma run_plus_ne e t r ts : run G e t r ts -> ts <> [] -> FileForward.skipped G r r -> exists v, okt G NonAtomic (Plus e) t v ts /\ FileForward.skipped G v r.
  Proof. intros [t0 K|t0 u t' r0 t1 t2 O S R] NE SR; [congruence|]. eapply run_plus; eassumption. Qed.
  Lemma kept {A} (l : list A) : filter_map (fun o : option A => o) (map Some l) = l.
  Proof. induction l as [|x l IH]; [reflexivity|]. cbn. rewrite IH. reflexivity. Qed.
  Definition def_of (d : defined_as) : option map_definition :=
    match d with AMapDef m => Some (DMap m) | AColour n c => Some (DColour (n, c)) | AStyle l => Some (DLineStyle l) | AnOverride o => Some (DOverride o) | ASymbol s => Some (DSymbol s) | Ignored => None end.
  Lemma map_ok name l m R t L : word name -> l <> [] -> unjoined l -> md_name m = name -> Forall2 (reads_map_setting upper) l (md_rules m) ->
    rest R t -> Forall starts L -> closing L -> rows (flat_map setting_lines l ++ L) t ->
    exists v t' q, okt G NonAtomic &"map" ((s2t "MAP:" ++ name) ++ R) v [q] /\ FileForward.skipped G v t' /\ rows L t' /\ parse_definition upper q = Ret (Some (DMap m)).
  Proof.
    intros W N U EN F X SL C RW. destruct (settings_run l (md_rules m) F L t U SL C RW) as [t' [qs [Q [RW' V]]]].
    assert (NQ : qs <> []).
    { intros ->. destruct F as [|? ? ? ? ? ?]; [contradiction N; reflexivity | discriminate V]. }
    destruct (run_plus_ne _ _ _ _ Q NQ) as [v [O SV]]; [apply skip_clear, solid_clear; eapply rows_solid; eassumption|].
    destruct (nl_ok R t X) as [u [ON SU]].
    assert (B : okt G NonAtomic (str "MAP:" ~~ &"colon_delimited_text" ~~ &"NL" ~~ Plus &"map_setting") ((s2t "MAP:" ++ name) ++ R) v ([ctree name] ++ qs)).
    { rewrite <- app_assoc. assert (CR := rest_clear R t X). apply (seq0 _ _ _ (name ++ R) v [] ([ctree name] ++ qs)); [apply okt_str | apply clear_word; assumption|].
      apply (seq0 _ _ _ R v [ctree name] qs); [apply ct_ok; [exact W | eapply rest_after, X] | exact CR|].
      apply (okt_seq G _ _ R u t v [] qs); assumption. }
    destruct (okt_normal G "map" _ eq_refl eq_refl _ _ _ B) as [c [EC OM]]. exists v, t', (T "map" c ([ctree name] ++ qs)). split; [exact OM|]. split; [exact SV|]. split; [exact RW'|].
    transitivity (do l <- omap (parse_map_rule upper) qs; Ret (Some (DMap (mkMapDef name (filter_map (fun o => o) l))))).
    { match goal with |- parse_definition upper ?y = _ => transitivity (do m <- parse_map upper y; Ret (Some (DMap m))); [reflexivity|] end.
      unfold parse_map, parse_map_rules. cbn [kids_of app next obind text_of ctree]. destruct (omap (parse_map_rule upper) qs); reflexivity. }
    rewrite V. cbn [obind]. rewrite kept. destruct m as [n rs]. cbn in EN |- *. subst n. reflexivity.
  Qed.

  (** ** Other entries *)
  Definition keys : list (string * string) :=
    [("map", "MAP:"); ("symboldef", "SYMBOLDEF:"); ("colourdef", "COLORDEF:"); ("linestyledef", "LINESTYLEDEF:"); ("override_sct", "OVERRIDE_SCT_MAP:"); ("sctfilepath", "SCTFILEPATH:")].
  Local Notation ENTRY := (&"map" // &"symboldef" // &"colourdef" // &"linestyledef" // &"override_sct" // &"sctfilepath").
  Lemma keys_rules n k : In (n, k) keys -> exists e, get n G = Some (KNormal, str k ~~ e).
  Proof. intros I. cbv [keys In] in I. repeat (destruct I as [I|I]; [injection I as <- <-; eexists; reflexivity|]). contradiction. Qed.
  Lemma keyed n k x r ts : In (n, k) keys -> okt G NonAtomic (Call n) (s2t k ++ x) r ts -> okt G NonAtomic ENTRY (s2t k ++ x) r ts.
  Proof.
    intros I O. apply (alts_ok n _ _ _ O (map fst (tl keys)) "map"); [apply (in_map fst) in I; exact I|]. intros y J N.
    change (In y (map fst keys)) in J. apply in_map_iff in J. destruct J as [[y' k'] [<- J]]. cbn [fst] in *. destruct (keys_rules _ _ J) as [e E]. eapply ko_call; [exact E|]. apply ko_seq1, ko_clash.
    assert (X : forallb (fun '(n, k) => forallb (fun '(m, k') => String.eqb m n || clash (s2t k) (s2t k')) keys) keys = true) by reflexivity.
    rewrite forallb_forall in X. specialize (X _ I). cbn beta iota in X. rewrite forallb_forall in X. specialize (X _ J). cbn beta iota in X. apply orb_true_iff in X.
    destruct X as [X|X]; [apply String.eqb_eq in X; contradiction | exact X].
  Qed.
  Lemma entry_ko_nil : ko G NonAtomic ENTRY [].
  Proof. repeat apply ko_alt; (eapply ko_call; [reflexivity|]); apply ko_seq1, ko_str; intros v; discriminate. Qed.
  (** a line of its own *)
  Lemma line_entry n k e w R t ts : In (n, k) keys -> get n G = Some (KNormal, str k ~~ e) -> body_atom n KNormal NonAtomic = NonAtomic -> clear (w ++ R) ->
    (forall u, okt G NonAtomic &"NL" R u [] -> okt G NonAtomic e (w ++ R) u ts) -> rest R t ->
    exists u c, okt G NonAtomic ENTRY ((s2t k ++ w) ++ R) u [T n c ts] /\ FileForward.skipped G u t.
  Proof.
    intros I E B C O X. destruct (nl_ok R t X) as [u [ON SU]]. exists u.
    assert (Y : okt G NonAtomic (str k ~~ e) ((s2t k ++ w) ++ R) u ts).
    { rewrite <- app_assoc. apply (seq0 _ _ _ (w ++ R) u [] ts); [apply okt_str | exact C | apply O, ON]. }
    destruct (okt_normal G n _ E B _ _ _ Y) as [c [EC OM]]. exists c. split; [|exact SU]. rewrite <- app_assoc in *. eapply keyed; eassumption.
  Qed.
  Local Notation more l := (List.concat (map (fun v => s2t "," ++ v) l)).
  Lemma dashes_ok l R t u : l <> [] -> Forall whole l -> rest R t -> okt G NonAtomic (&"integer" ~~ Star (str "," ~~ &"integer")) (names_text l ++ R) R (map itree l) /\ clear (names_text l ++ u).
  Proof.
    intros N F X. destruct F as [|w l W F]; [contradiction N; reflexivity|]. cbn [names_text map]. rewrite <- !app_assoc. split; [|apply numeral_clear, whole_numeral, W].
    assert (AR := rest_after at_colon R t X).
    apply (seq0 _ _ _ (more l ++ R) R [_] (map itree l)); [apply int_ok; [exact W | apply more_after, AR] | apply comma_clear, more_after, AR|].
    apply (listed_many _ itree whole); [|exact F | exact AR]. intros v r WV A. rewrite <- app_assoc. apply (seq0 _ _ _ (v ++ r) r [] [_]); [apply okt_str | apply numeral_clear, whole_numeral, WV | apply int_ok; assumption].
  Qed.
  Lemma entry_ok e d L t : reads_entry upper e d -> Forall starts L -> ((exists n l, e = Map n l) -> closing L) -> ruleless L -> rows (entry_lines e ++ L) t ->
    exists v t' q, okt G NonAtomic ENTRY t v [q] /\ FileForward.skipped G v t' /\ rows L t' /\ parse_definition upper q = Ret (def_of d).
  Proof.
    intros H SL C RL RW. assert (CC : forall r, clear (s2t ":" ++ r)) by (intros r; cc).
    destruct e as [name l|name r g b|name brush hatch dashes|folder name|w|name l]; destruct d as [m|nm c|st|o|s|]; try contradiction; cbn [reads_entry entry_lines app] in *.
    - destruct H as [W [N [U [EN F]]]]. apply rows_first in RW.
      + destruct RW as [b [R [t1 [-> [_ [[->|Z] [X RW]]]]]]]; [|discriminate Z].
        destruct (map_ok name l m R t1 L W N U EN F X SL (C (ex_intro _ name (ex_intro _ l eq_refl))) RW) as [v [t' [q [O [SV [RW' V]]]]]].
        exists v, t', q. split; [|split; [exact SV | split; [exact RW' | exact V]]]. cbn [app]. rewrite <- app_assoc in *. apply (keyed "map"); [left; reflexivity | exact O].
      + apply Forall_app. split; [|exact SL]. apply settings_start.
    - apply rows_first in RW; [|exact SL]. destruct RW as [bl [R [t1 [-> [_ [[->|Z] [X RW]]]]]]]; [|discriminate Z]. cbn [app].
      destruct H as [W [-> [F [VR [VG [VB EA]]]]]]. inversion_clear F as [|? ? WR F']. inversion_clear F' as [|? ? WG F]. inversion_clear F as [|? ? WB _]. assert (AC := rest_after at_comma R t1 X).
      destruct (line_entry "colourdef" "COLORDEF:" _ (name ++ listed [r; g; b]) R t1 ([ctree name] ++ [itree r] ++ [itree g] ++ [itree b]) (or_intror (or_intror (or_introl eq_refl))) eq_refl eq_refl) as [u [tx [O SU]]]; [| |exact X|].
      + rewrite <- app_assoc. apply clear_word; [exact W|]. rewrite listed_label. apply CC.
      + intros u ON. rewrite <- app_assoc, listed_label, <- !app_assoc.
        eapply (seq0 _ _ _ _ u [_] ([itree r] ++ [itree g] ++ [itree b])); [apply ct_ok; [exact W | apply colon_after] | apply CC|]. apply colon_then; [apply numeral_clear, whole_numeral, WR|].
        eapply (seq0 _ _ _ _ u [_] ([itree g] ++ [itree b])); [apply int_ok; [exact WR | apply colon_comma, colon_after] | apply CC|]. apply colon_then; [apply numeral_clear, whole_numeral, WG|].
        eapply (seq0 _ _ _ _ u [_] [itree b]); [apply int_ok; [exact WG | apply colon_comma, colon_after] | apply CC|]. apply colon_then; [apply numeral_clear, whole_numeral, WB|].
        eapply (seq0 _ _ _ R u [_] []); [apply int_ok; [exact WB | exact AC] | eapply rest_clear, X | apply okt_opt, ON].
      + eexists u, t1, _. split; [exact O|]. split; [exact SU|]. split; [exact RW|].
        transitivity (do r <- unwrap (parse_u8 r); do g <- unwrap (parse_u8 g); do b <- unwrap (parse_u8 b); Ret (Some (DColour (name, from_rgb r g b)))).
        { match goal with |- parse_definition upper ?y = _ => transitivity (do m <- parse_colour_def y; Ret (Some (DColour m))); [reflexivity|] end.
          unfold parse_colour_def. cbn [kids_of app next obind text_of ctree itree]. destruct (parse_u8 r); [|reflexivity]. destruct (parse_u8 g); [|reflexivity]. destruct (parse_u8 b); reflexivity. }
        rewrite VR, VG, VB. destruct c as [cr0 cg0 cb0 ca0]. cbn in EA |- *. subst ca0. reflexivity.
    - apply rows_first in RW; [|exact SL]. destruct RW as [bl [R [t1 [-> [_ [[->|Z] [X RW]]]]]]]; [|discriminate Z]. cbn [app].
      destruct H as [F [EN [EB [EH D]]]]. inversion_clear F as [|? ? WN F']. inversion_clear F' as [|? ? WB F]. inversion_clear F as [|? ? WH _]. assert (AR := rest_after at_colon R t1 X). assert (CR := rest_clear R t1 X).
      assert (WD : Forall whole dashes) by (clear - D; induction D as [|? ? ? ? [? _] ? ?]; constructor; assumption).
      set (tail := match dashes with [] => [] | _ => s2t ":" ++ names_text dashes end).
      assert (AT : after at_colon (tail ++ R)) by (subst tail; destruct dashes; [exact AR | rewrite <- app_assoc; apply colon_after]).
      destruct (line_entry "linestyledef" "LINESTYLEDEF:" _ (name ++ listed [brush; hatch] ++ tail) R t1 ([ctree name] ++ [ctree brush] ++ [ctree hatch] ++ map itree dashes) (or_intror (or_intror (or_intror (or_introl eq_refl)))) eq_refl eq_refl) as [u [tx [O SU]]]; [| |exact X|].
      + rewrite <- app_assoc. apply clear_word; [exact WN|]. unfold listed, colon. cbn [map List.concat]. rewrite <- !app_assoc. apply CC.
      + intros u ON. rewrite <- !app_assoc. unfold listed, colon. cbn [map List.concat]. rewrite app_nil_r, <- !app_assoc.
        eapply (seq0 _ _ _ _ u [_] ([ctree brush] ++ [ctree hatch] ++ map itree dashes)); [apply ct_ok; [exact WN | apply colon_after] | apply CC|]. apply colon_then; [apply clear_word; [exact WB | apply CC]|].
        eapply (seq0 _ _ _ _ u [_] ([ctree hatch] ++ map itree dashes)); [apply ct_ok; [exact WB | apply colon_after] | apply CC|]. apply colon_then; [apply clear_word; [exact WH | apply colon_clear, AT]|].
        eapply (seq0 _ _ _ _ u [_] (map itree dashes)); [apply ct_ok; [exact WH | exact AT] | apply colon_clear, AT|].
        apply (okt_eq G NonAtomic _ _ _ (map itree dashes ++ [])); [|symmetry; apply app_nil_r]. apply (seq0 _ _ _ R u (map itree dashes) []); [|exact CR | apply okt_opt, ON].
        subst tail. destruct dashes as [|x dashes]; [apply okt_opt_no; eapply no_colon, X|]. rewrite <- app_assoc.
        destruct (dashes_ok (x :: dashes) R t1 R ltac:(discriminate) WD X) as [OD CD]. apply okt_opt, colon_then; assumption.
      + eexists u, t1, _. split; [exact O|]. split; [exact SU|]. split; [exact RW|].
        transitivity (do ds <- omap (fun p => unwrap (parse_f32 (text_of p))) (map itree dashes); Ret (Some (DLineStyle (mkLineStyleDef name brush hatch ds)))).
        { match goal with |- parse_definition upper ?y = _ => transitivity (do m <- parse_line_style_def y; Ret (Some (DLineStyle m))); [reflexivity|] end.
          unfold parse_line_style_def. cbn [kids_of app next obind text_of ctree]. destruct (omap _ (map itree dashes)); reflexivity. }
        assert (VD : omap (fun p => unwrap (parse_f32 (text_of p))) (map itree dashes) = Ret (ld_dashes st)).
        { clear - D. induction D as [|s x ds xs [_ E] D IH]; [reflexivity|]. cbn [map omap text_of itree]. rewrite E. cbn [unwrap obind]. rewrite IH. reflexivity. }
        rewrite VD. destruct st; cbn in *; subst; reflexivity.
    - apply rows_first in RW; [|exact SL]. destruct RW as [bl [R [t1 [-> [_ [[->|Z] [X RW]]]]]]]; [|discriminate Z]. cbn [app].
      destruct H as [FF [UF [WN ->]]]. assert (AR := rest_after at_colon R t1 X). assert (CR := rest_clear R t1 X). assert (CB : forall r, clear (s2t "\" ++ r)) by (intros r; cc).
      set (tail := match name with Some w => s2t "\" ++ w | None => [] end).
      assert (AT : after at_slash (tail ++ R)) by (subst tail; destruct name; [rewrite <- app_assoc; left; eexists 92%N, _; split; reflexivity | eapply rest_after, X]).
      destruct (line_entry "override_sct" "OVERRIDE_SCT_MAP:" _ (folder ++ tail) R t1 ([btree folder] ++ match name with Some w => [ctree w] | None => [] end) (or_intror (or_intror (or_intror (or_intror (or_introl eq_refl))))) eq_refl eq_refl) as [u [tx [O SU]]]; [| |exact X|].
      + rewrite <- app_assoc. apply clear_field; [apply FF | exact UF | apply slash_clear, AT].
      + intros u ON. rewrite <- !app_assoc. eapply (seq0 _ _ _ _ u [_] _); [apply bt_ok; [exact FF | exact AT] | apply slash_clear, AT|].
        apply (okt_eq G NonAtomic _ _ _ (match name with Some w => [ctree w] | None => [] end ++ [])); [|symmetry; apply app_nil_r].
        apply (seq0 _ _ _ R u _ []); [|exact CR | apply okt_opt, ON]. subst tail. destruct name as [w|].
        * rewrite <- app_assoc. apply okt_opt. apply (seq0 _ _ _ (w ++ R) R [] [_]); [apply okt_str | apply clear_word; [apply WN; reflexivity | exact CR] | apply ct_ok; [apply WN; reflexivity | exact AR]].
        * apply okt_opt_no, ko_seq1, (ko_chr G NonAtomic 92). eapply rest_stops; [exact X|]. unfold is_blank, is_nl. lia.
      + eexists u, t1, _. split; [exact O|]. split; [exact SU|]. split; [exact RW|]. destruct name; reflexivity.
    - apply rows_first in RW; [|exact SL]. destruct RW as [bl [R [t1 [-> [_ [[->|Z] [X RW]]]]]]]; [|discriminate Z]. cbn [app].
      assert (AR := rest_after at_colon R t1 X). assert (CR := rest_clear R t1 X).
      destruct (line_entry "sctfilepath" "SCTFILEPATH:" _ w R t1 ([ctree w] ++ []) (or_intror (or_intror (or_intror (or_intror (or_intror (or_introl eq_refl)))))) eq_refl eq_refl) as [u [tx [O SU]]]; [| |exact X|].
      + apply clear_word; assumption.
      + intros u ON. apply (seq0 _ _ _ R u [_] []); [apply ct_ok; assumption | exact CR | apply okt_opt, ON].
      + eexists u, t1, _. split; [exact O|]. split; [exact SU|]. split; [exact RW | reflexivity].
    - destruct (drawing_ok "symboldef" "SYMBOLDEF:" name l s L t (or_intror (or_introl eq_refl)) H SL RL RW) as [v [t' [c [ks [x [-> [O [SV [RW' V]]]]]]]]].
      exists v, t', (T "symboldef" c ks). split; [apply (keyed "symboldef"); [right; left; reflexivity | exact O]|]. split; [exact SV|]. split; [exact RW'|].
      transitivity (do s <- parse_symbol (T "symboldef" c ks); Ret (option_map DSymbol s)); [reflexivity|]. rewrite V. reflexivity.
  Qed.

  (** ** Files *)
  Lemma entry_starts e d : reads_entry upper e d -> Forall starts (entry_lines e).
  Proof.
    intros H. destruct e as [name l|name r g b|name brush hatch dashes|folder name|w|name l]; cbn [entry_lines]; (apply Forall_cons; [apply starts_kw; reflexivity|]); try apply Forall_nil; [apply settings_start|].
    destruct d as [m|nm c|st|o|s|]; try contradiction. destruct H as [_ [_ [_ F]]]. eapply all_start, F.
  Qed.
  Lemma entries_start es ds : Forall2 (reads_entry upper) es ds -> Forall starts (flat_map entry_lines es).
  Proof. intros F. induction F as [|e d es ds H F IH]; [constructor|]. cbn [flat_map]. apply Forall_app. split; [eapply entry_starts, H | exact IH]. Qed.
  Lemma symboldef_ko x : ko G NonAtomic &"map_setting" (s2t "SYMBOLDEF:" ++ x).
  Proof.
    assert (C : calm (s2t "SYMBOLDEF:" ++ x)) by (apply calm_char; (reflexivity || discriminate)).
    eapply ko_call; [exact setting_is|]. eapply ko_seq0; [apply (star_nonatomic []); [constructor | exact C] | apply (calm_clear []); [constructor | exact C]|].
    apply ko_seq1, alts_ko. intros y J. change (In y (map fst TopskyText.heads)) in J. apply in_map_iff in J. destruct J as [[y' hs'] [<- J]]. cbn [fst] in *.
    destruct (String.eqb y' "mapsymbol") eqn:Y.
    - apply String.eqb_eq in Y. subst y'. eapply ko_call; [reflexivity|].
      eapply ko_seq0; [apply (okt_str G NonAtomic (s2t "SYMBOL") (s2t "DEF:" ++ x)) | apply clear_char; (reflexivity || discriminate)|].
      eapply ko_seq0; [apply okt_opt_no, ko_seq1, ko_str; intros v; discriminate | apply clear_char; (reflexivity || discriminate)|]. apply ko_seq1, ko_str. intros v. discriminate.
    - apply (clashes_ko "SYMBOLDEF:" y' hs' x J). assert (X : forallb (fun '(m, hs) => String.eqb m "mapsymbol" || clashes "SYMBOLDEF:" hs) TopskyText.heads = true) by reflexivity.
      rewrite forallb_forall in X. specialize (X _ J). cbn beta iota in X. rewrite Y in X. exact X.
  Qed.
  Lemma closed_by kw w L : In kw ["MAP:"; "COLORDEF:"; "LINESTYLEDEF:"; "SCTFILEPATH:"] -> closing ((false, s2t kw ++ w) :: L).
  Proof.
    intros K t RW. inversion RW as [|? ? ? b b' nl k t' B BI B' E V H']; subst. destruct BI as [->|Z]; [|discriminate Z]. cbn [app]. rewrite <- app_assoc.
    cbn [In] in K. split; repeat (destruct K as [<-|K]; [first [apply setting_ko; [reflexivity | apply calm_char; (reflexivity || discriminate)] | intros v; apply clash_ne; reflexivity]|]); contradiction.
  Qed.
  Lemma closing_next es : (forall f m b, es <> Override f m :: b) -> closing (flat_map entry_lines es).
  Proof.
    intros N. destruct es as [|e es].
    - intros t RW. inversion RW; subst. split; [exact setting_ko_nil | intros v; discriminate].
    - destruct e; unfold flat_map; cbn [entry_lines drawing_lines app]; try (apply closed_by; cbn [In]; tauto); [exfalso; eapply N; reflexivity|].
      intros t RW. inversion RW as [|? ? ? b b' nl k t' B BI B' E V H']; subst. destruct BI as [->|Z]; [|discriminate Z]. split; [apply (symboldef_ko (name ++ b' ++ nl ++ k ++ t')) | intros v; discriminate].
  Qed.
  Lemma ruled_out i key w L : i = false -> forallb (fun kw => clash (s2t key) (s2t kw)) rule_words = true -> ruleless ((i, s2t key ++ w) :: L).
  Proof.
    intros -> H t RW. inversion RW as [|? ? ? b b' nl k t' B BI B' E V H']; subst. destruct BI as [->|Z]; [|discriminate Z]. cbn [app]. rewrite <- app_assoc.
    apply rule_ko. intros kw I r. rewrite forallb_forall in H. apply clash_ne, H, I.
  Qed.
  Lemma ruleless_nil : ruleless [].
  Proof. intros t RW. inversion RW; subst. apply rule_ko. intros kw I r E. cbn [In rule_words] in I. repeat (destruct I as [<-|I]; [discriminate E|]). contradiction. Qed.
  Lemma ruleless_next es : ruleless (flat_map entry_lines es).
  Proof. destruct es as [|e es]; [exact ruleless_nil|]. destruct e; cbn [flat_map entry_lines drawing_lines app]; apply ruled_out; reflexivity. Qed.
  Lemma entries_run es ds : Forall2 (reads_entry upper) es ds -> forall t, ordered es -> rows (flat_map entry_lines es) t ->
    exists qs, run G ENTRY t [] qs /\ omap (parse_definition upper) qs = Ret (map def_of ds) /\ List.length qs = List.length es.
  Proof.
    intros F. induction F as [|e d es ds H F IH]; intros t OR RW.
    - inversion RW; subst. exists []. split; [apply run_nil, entry_ko_nil|]. split; reflexivity.
    - cbn [flat_map] in RW. assert (OR' : ordered es) by (intros a n l f m b ->; apply (OR (e :: a) n l f m b); reflexivity).
      destruct (entry_ok e d _ t H (entries_start es ds F)) as [v [t' [q [O [SV [RW' V]]]]]]; [|apply ruleless_next|exact RW|].
      + intros [n [l ->]]. apply closing_next. intros f m b ->. apply (OR [] n l f m b). reflexivity.
      + destruct (IH t' OR' RW') as [qs [Q [W LN]]]. exists (q :: qs). split; [apply (run_cons G ENTRY t v t' [] [q] qs); assumption|].
        split; [cbn [omap map]; rewrite V; cbn [obind]; rewrite W; reflexivity | cbn; rewrite LN; reflexivity].
  Qed.
  Lemma start_ok k t y r ts : blank_lines k -> solid t -> okt G NonAtomic y t r ts -> okt G NonAtomic (Then Skip (Opt &"NL" ~~ y)) (k ++ t) r ts.
  Proof.
    intros V S O. destruct (voids_run k V t S) as [u [A R]]. apply (okt_then G NonAtomic Skip _ _ u r [] ts); [exact A|].
    remember (@nil tree) as ks eqn:K. destruct R as [t K'|t u1 t1 r1 ts1 ts2 O1 S1 R1].
    - apply (okt_seq G (Opt &"NL") y t t t r [] ts); [apply okt_opt_no | apply skip_clear, solid_clear, S | exact O]. eapply ko_call; [reflexivity|]. apply ko_seq1, K'.
    - destruct (run_plus G _ _ _ _ _ _ _ O1 S1 R1 (skip_clear _ (solid_clear _ S))) as [v [OV SV]]. rewrite K in OV.
      apply (okt_seq G (Opt &"NL") y t v r1 r [] ts); [apply okt_opt | exact SV | exact O].
      apply (okt_silent G NonAtomic "NL" _ _ v [] eq_refl eq_refl). exact OV.
  Qed.
  Lemma maps_parsed es ds t : es <> [] -> Forall2 (reads_entry upper) es ds -> ordered es -> maps_layout es t ->
    exists qs, SpecPairs.parsed G "maps" t (qs ++ [T "EOI" [] []]) /\ omap (parse_definition upper) qs = Ret (map def_of ds).
  Proof.
    intros N F OR [k [t' [-> [V RW]]]]. destruct (entries_run es ds F t' OR RW) as [qs [R [W LN]]]. exists qs. split; [|exact W].
    destruct (run_plus_ne _ _ _ _ R) as [v [O SV]]; [intros ->; destruct es; [contradiction N; reflexivity | discriminate LN] | apply skip_clear, (calm_clear []); [constructor | exact calm_nil]|].
    assert (Y : okt G NonAtomic (Plus ENTRY ~~ EOI) t' [] (qs ++ [T "EOI" [] []])).
    { eapply okt_seq; [exact O | exact SV | exists []; split; [reflexivity | apply ok_eoi; discriminate]]. }
    destruct (start_ok k t' _ [] _ V (rows_solid _ _ (entries_start es ds F) RW) Y) as [c [EC M]]. rewrite app_nil_r in EC. subst c. exists [].
    apply (m_call G NonAtomic "maps" KNormal _ true _ [] (Some (k ++ t', [], [], qs ++ [T "EOI" [] []])) eq_refl).
    pose proof (ok_soi_seq G _ _ _ _ M []) as X. rewrite app_nil_r in X. exact X.
  Qed.
  Lemma folded ds : forall m y c s o, fold_left definition_step (filter_map (fun o => o) (map def_of ds)) (mkTopskyMaps m y c s o) =
    mkTopskyMaps (m ++ maps_of ds) (put_all (symbols_of ds) y) (put_all (colours_of ds) c) (put_all (styles_of ds) s) (o ++ overrides_of ds).
  Proof.
    induction ds as [|d ds IH]; intros m y c s o; [cbn; rewrite !app_nil_r; reflexivity|].
    destruct d as [x|n x|x|x|x|]; cbn [map def_of filter_map fold_left definition_step]; rewrite IH; unfold maps_of, symbols_of, colours_of, styles_of, overrides_of; cbn [flat_map app]; rewrite <- ?app_assoc; reflexivity.
  Qed.
  Lemma omap_end {A B} (f : A -> outcome B) l x ys y : omap f l = Ret ys -> f x = Ret y -> omap f (l ++ [x]) = Ret (ys ++ [y]).
  Proof.
    revert ys. induction l as [|a l IH]; intros ys E X; cbn [omap app] in *.
    - injection E as <-. rewrite X. reflexivity.
    - destruct (f a); try discriminate E. cbn [obind] in *. destruct (omap f l) as [zs| |]; try discriminate E. cbn [obind] in E. injection E as <-.
      rewrite (IH zs eq_refl X). reflexivity.
  Qed.
  Lemma maps_text_reads es ds t : es <> [] -> Forall2 (reads_entry upper) es ds -> ordered es -> maps_layout es t ->
    parse_topsky_maps upper t = Ret (mkTopskyMaps (maps_of ds) (of_list (symbols_of ds)) (of_list (colours_of ds)) (of_list (styles_of ds)) (overrides_of ds)).
  Proof.
    intros N F OR L. destruct (maps_parsed es ds t N F OR L) as [qs [P W]].
    assert (TOP : top G "maps" t = Ret (qs ++ [T "EOI" [] []])).
    { destruct (PairsProofs.top_cases 12 "topsky_maps" G "maps" eq_refl (ex_intro _ _ eq_refl) t) as [[kids [PK E]]|[U _]]; [|destruct (PairsProofs.parsed_not _ _ _ _ P U)].
      rewrite E. f_equal. exact (PairsProofs.parsed_det _ _ _ _ _ PK P). }
    unfold parse_topsky_maps. rewrite TOP. cbn [obind]. rewrite (omap_end _ qs (T "EOI" [] []) _ None W eq_refl). cbn [obind].
    replace (filter_map (fun o : option map_definition => o) (map def_of ds ++ [None])) with (filter_map (fun o : option map_definition => o) (map def_of ds)).
    - rewrite folded. reflexivity.
    - clear. induction ds as [|d ds IH]; [reflexivity|]. cbn [map app filter_map]. destruct (def_of d); rewrite IH; reflexivity.
  Qed.
End upper.

(** ** Files of symbols *)
Section symbols.
  Lemma symbols_start l ss : Forall2 (fun '(name, ds) s => reads_drawing name ds s) l ss -> Forall starts (flat_map (fun '(name, ds) => drawing_lines "SYMBOL:" name ds) l).
  Proof.
    intros F. induction F as [|[name ds] s l ss H F IH]; [constructor|]. cbn [flat_map]. apply Forall_app. split; [|exact IH].
    apply Forall_cons; [apply starts_kw; reflexivity|]. destruct H as [_ [_ [_ D]]]. eapply all_start, D.
  Qed.
  Lemma symbols_run l ss : Forall2 (fun '(name, ds) s => reads_drawing name ds s) l ss -> forall t, rows (flat_map (fun '(name, ds) => drawing_lines "SYMBOL:" name ds) l) t ->
    exists qs, run G &"symbol" t [] qs /\ omap parse_symbol qs = Ret (map Some ss) /\ List.length qs = List.length l.
  Proof.
    intros F. induction F as [|[name ds] s l ss H F IH]; intros t RW.
    - inversion RW; subst. exists []. split; [apply run_nil; eapply ko_call; [reflexivity|]; apply ko_seq1, ko_str; intros v; discriminate|]. split; reflexivity.
    - cbn [flat_map] in RW. assert (RL : ruleless (flat_map (fun '(name, ds) => drawing_lines "SYMBOL:" name ds) l)).
      { destruct l as [|[nm d] l]; [exact ruleless_nil|]. cbn [flat_map drawing_lines app]. apply ruled_out; reflexivity. }
      destruct (drawing_ok "symbol" "SYMBOL:" name ds s _ t (or_introl eq_refl) H (symbols_start l ss F) RL RW) as [v [t' [c [ks [x [-> [O [SV [RW' V]]]]]]]]].
      destruct (IH t' RW') as [qs [Q [W LN]]]. exists (T "symbol" c ks :: qs). split; [apply (run_cons G &"symbol" _ v t' [] [_] qs); assumption|].
      split; [cbn [omap map]; rewrite V; cbn [obind]; rewrite W; reflexivity | cbn; rewrite LN; reflexivity].
  Qed.
  Lemma symbols_text_reads l ss t : l <> [] -> Forall2 (fun '(name, ds) s => reads_drawing name ds s) l ss -> symbols_layout l t ->
    parse_topsky_symbols t = Ret (of_list (map (fun s => (fst s, s)) ss)).
  Proof.
    intros N F [k [t' [-> [V RW]]]]. destruct (symbols_run l ss F t' RW) as [qs [R [W LN]]].
    assert (P : SpecPairs.parsed G "symbols" (k ++ t') (qs ++ [T "EOI" [] []])).
    { destruct (run_some _ _ _ _ R) as [v [O SV]]; [intros ->; destruct l; [contradiction N; reflexivity | discriminate LN] | apply skip_clear, (calm_clear []); [constructor | exact calm_nil]|].
      assert (Y : okt G NonAtomic (Plus &"symbol" ~~ EOI) t' [] (qs ++ [T "EOI" [] []])).
      { eapply okt_seq; [exact O | exact SV | exists []; split; [reflexivity | apply ok_eoi; discriminate]]. }
      destruct (start_ok k t' _ [] _ V (rows_solid _ _ (symbols_start l ss F) RW) Y) as [c [EC M]]. rewrite app_nil_r in EC. subst c. exists [].
      apply (m_call G NonAtomic "symbols" KNormal _ true _ [] (Some (k ++ t', [], [], qs ++ [T "EOI" [] []])) eq_refl).
      pose proof (ok_soi_seq G _ _ _ _ M []) as X. rewrite app_nil_r in X. exact X. }
    assert (TOP : top G "symbols" (k ++ t') = Ret (qs ++ [T "EOI" [] []])).
    { destruct (PairsProofs.top_cases 11 "topsky_symbols" G "symbols" eq_refl (ex_intro _ _ eq_refl) (k ++ t')) as [[kids [PK E]]|[U _]]; [|destruct (PairsProofs.parsed_not _ _ _ _ P U)].
      rewrite E. f_equal. exact (PairsProofs.parsed_det _ _ _ _ _ PK P). }
    unfold parse_topsky_symbols. rewrite TOP. cbn [obind]. rewrite (omap_end _ qs (T "EOI" [] []) _ None W eq_refl). cbn [obind].
    replace (filter_map (fun o : option symbol_def => o) (map Some ss ++ [None])) with ss; [reflexivity|].
    clear. induction ss as [|x ss IH]; [reflexivity|]. cbn [map app filter_map]. f_equal. exact IH.
  Qed.
End symbols.
