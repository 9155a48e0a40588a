(** Proofs about TopSky maps files and all TopSky files together. *)
From Coq Require Import ZifyBool ZifyN ZifyNat.
From Verif Require Import Base Num Float FloatParse Dms Decode Colours Settings Locations Maps Lines Peg Grammars SpecPeg PegProofs PegLang PegForward Trees PegTree SpecPairs PairsProofs SpecText TextProofs Numerals Verdict SpecKeyed KeyedProofs SpecSct SpecEse SymbolParse SpecSymbol SymbolProofs TopskyParse SpecTopsky TopskyProofs TopskyMapProofs TopskyRuleProofs.
Local Open Scope string_scope.
Local Open Scope list_scope.

(** ** Colours, line styles and overrides *)
Definition colour_fits (p : tree) : Prop := Forall (fun s => exists n, parse_u8 s = Some n) (texts "integer" p).
Lemma colourdef_ok p : born G NonAtomic "colourdef" p -> verdict (colour_fits p) (parse_colour_def p) (fun c => entry names_colour reads_colour p (Some (fst c, c))).
Proof.
  intros B. pose proof (born_rule _ _ _ _ B) as R. kids B as K. rules.
  assert (TC : texts "colon_delimited_text" p = [text_of t]) by (unfold texts; rewrite E; pick; reflexivity).
  assert (TI : texts "integer" p = [text_of t0; text_of t1; text_of t2]) by (unfold texts; rewrite E; pick; reflexivity).
  unfold parse_colour_def. rewrite E. cbn [next obind]. eapply verdict_iff.
  - vb (unwrap (parse_u8 (text_of t0))); [apply verdict_unwrap|]. intros r _ R1. cbn [next obind]. vb (unwrap (parse_u8 (text_of t1))); [apply verdict_unwrap|]. intros g _ G1. cbn [next obind].
    vb (unwrap (parse_u8 (text_of t2))); [apply verdict_unwrap|]. intros b _ B1. vend. split.
    + intros id. unfold names_colour, field. rewrite TC. cbn [fst]. split; [intros [[X _]|[_ X]]; congruence | intros ->; auto].
    + split; [right; split; [exact R | exact TC]|]. right. split; [exact R|]. rewrite TI. do 6 eexists. split; [reflexivity|]. cbv beta in R1, G1, B1. eauto.
  - unfold colour_fits. rewrite TI, !Forall_cons_iff. intuition constructor.
Qed.
Lemma style_def_ok p : born G NonAtomic "linestyledef" p -> exists x, parse_line_style_def p = Ret x /\ entry names_style reads_style_def p (Some (ld_name x, x)).
Proof.
  intros B. kids B as K.
  assert (A : Forall (born G NonAtomic "integer") ts4).
  { destruct K as [-> |K]; [constructor|]. shp K. subst. constructor; [assumption|]. apply shape_star in K; [|reflexivity]. destruct K as [l [-> F]]. apply Forall_flat. eapply Forall_impl; [|exact F].
    intros u U. right. shp U. subst u. eexists. split; [reflexivity | exact U]. }
  clear K. assert (AR : Forall (fun q => rule_of q = "integer") ts4) by (eapply Forall_impl; [|exact A]; intros q; apply born_rule). rules.
  assert (TC : texts "colon_delimited_text" p = [text_of t; text_of t0; text_of t1]).
  { unfold texts. rewrite E. pick. replace (of_rule "colon_delimited_text" ts4) with (@nil tree); [reflexivity|]. clear - AR. induction AR as [|q l Q _ IH]; [reflexivity|]. rewrite of_rule_miss by (rewrite Q; discriminate). exact IH. }
  assert (TI : texts "integer" p = map text_of ts4) by (unfold texts; rewrite E; pick; rewrite of_rule_all by exact AR; reflexivity).
  unfold parse_line_style_def. rewrite E. cbn [next obind].
  destruct (omap_all (fun p => unwrap (parse_f32 (text_of p))) (fun q x => reads_f32 (text_of q) x) ts4) as [ds [D1 D2]].
  { eapply Forall_impl; [|exact A]. intros q Q. destruct (integer_f32 q Q) as [x X]. exists x. rewrite X. split; [reflexivity | exact X]. }
  rewrite D1. cbn [obind]. eexists. split; [reflexivity|]. cbn [ld_name]. split.
  - intros id. unfold names_style. rewrite TC. split; [intros [b [h X]]; congruence | intros ->; eauto].
  - split; [exact TC|]. rewrite TI. cbn [ld_dashes]. clear - D2. induction D2; constructor; assumption.
Qed.
Lemma override_ok p : born G NonAtomic "override_sct" p -> exists x, parse_override p = Ret x /\ reads_override p x.
Proof.
  intros B. kids B as K. unfold parse_override. rewrite E. cbn [next obind]. eexists. split; [reflexivity|]. unfold reads_override, field, texts. rewrite E. cbn [fst snd].
  destruct K as [-> |K]; [|shp K; subst]; rules; pick; split; reflexivity.
Qed.

(** ** Files *)
Section upper.
  Variable upper : text -> text.
  Definition def_rel (p : tree) (o : option map_definition) : Prop :=
    match o with
    | Some (DMap m) => rule_of p = "map" /\ reads_map upper p m
    | Some (DColour c) => rule_of p = "colourdef" /\ entry names_colour reads_colour p (Some (fst c, c))
    | Some (DSymbol s) => rule_of p = "symboldef" /\ entry names_symbol reads_symbol p (Some (fst s, s))
    | Some (DLineStyle l) => rule_of p = "linestyledef" /\ entry names_style reads_style_def p (Some (ld_name l, l))
    | Some (DOverride x) => rule_of p = "override_sct" /\ reads_override p x
    | None => rule_of p = "sctfilepath" \/ rule_of p = "EOI"
    end.
  Definition def_fits (p : tree) : Prop :=
    (rule_of p = "map" -> map_fits p) /\ (rule_of p = "symboldef" -> symbol_fits p) /\ (rule_of p = "colourdef" -> colour_fits p).
  Definition def_good (p : tree) : Prop := verdict (def_fits p) (parse_definition upper p) (def_rel p).
  Ltac def B R := pose proof (born_rule _ _ _ _ B) as R; unfold def_good, parse_definition, is_rule; rewrite R; eqs.
  Lemma definition_ok u : shape G 6 NonAtomic (&"map" // &"symboldef" // &"colourdef" // &"linestyledef" // &"override_sct" // &"sctfilepath") u -> exists p, u = [p] /\ def_good p.
  Proof.
    intros U. alts U; subst u; eexists; (split; [reflexivity|]); def U R.
    - eapply verdict_iff; [vb (parse_map upper t); [exact (map_ok upper t U)|]; intros m _ M; vend; split; assumption|]. unfold def_fits. rewrite R. intuition discriminate.
    - eapply verdict_iff; [vb (parse_symbol t); [exact (symboldef_ok t U)|]; intros m _ [s [-> M]]; vend; split; assumption|]. unfold def_fits. rewrite R. intuition discriminate.
    - eapply verdict_iff; [vb (parse_colour_def t); [exact (colourdef_ok t U)|]; intros m _ M; vend; split; assumption|]. unfold def_fits. rewrite R. intuition discriminate.
    - destruct (style_def_ok t U) as [x [X1 X2]]. rewrite X1. apply verdict_ret; [unfold def_fits; rewrite R; intuition discriminate | split; assumption].
    - destruct (override_ok t U) as [x [X1 X2]]. rewrite X1. apply verdict_ret; [unfold def_fits; rewrite R; intuition discriminate | split; assumption].
    - apply verdict_ret; [unfold def_fits; rewrite R; intuition discriminate | left; exact R].
  Qed.
  Lemma maps_kids t kids : parsed G "maps" t kids -> Forall def_good kids.
  Proof.
    intros P. apply parsed_born in P. kids P as K. apply Forall_app. split.
    - apply shape_plus in K0; [|reflexivity]. destruct K0 as [l [_ [-> F]]]. apply Forall_flat. eapply Forall_impl; [|exact F]. intros u U. right. exact (definition_ok u U).
    - constructor; [|constructor]. apply verdict_ret; [unfold def_fits; intuition discriminate | right; reflexivity].
  Qed.
  Lemma maps_fold kids os : Forall2 def_rel kids os -> forall maps symbols colours styles overrides, exists ms ss cs ls vs,
    Forall2 (reads_map upper) (of_rule "map" kids) ms /\ Forall2 (entry names_symbol reads_symbol) (of_rule "symboldef" kids) ss /\
    Forall2 (entry names_colour reads_colour) (of_rule "colourdef" kids) cs /\ Forall2 (entry names_style reads_style_def) (of_rule "linestyledef" kids) ls /\
    Forall2 reads_override (of_rule "override_sct" kids) vs /\
    fold_left definition_step (filter_map (fun o => o) os) (mkTopskyMaps maps symbols colours styles overrides) =
      mkTopskyMaps (maps ++ ms) (put_all (given ss) symbols) (put_all (given cs) colours) (put_all (given ls) styles) (overrides ++ vs).
  Proof.
    induction 1 as [|p o kids os H _ IH]; intros maps symbols colours styles overrides.
    - exists [], [], [], [], []. cbn. rewrite !app_nil_r. repeat split; constructor.
    - destruct o as [[m|c|s|v|l]|]; cbn [def_rel filter_map fold_left definition_step] in *.
      + destruct H as [R H]. destruct (IH (maps ++ [m]) symbols colours styles overrides) as [ms [ss [cs [ls [vs [A [B [C [D [E X]]]]]]]]]]. exists (m :: ms), ss, cs, ls, vs.
        rewrite of_rule_hit by exact R. rewrite !of_rule_miss by (rewrite R; discriminate). rewrite <- app_assoc in X. repeat (apply conj; [first [assumption | constructor; assumption]|]). exact X.
      + destruct H as [R H]. destruct (IH maps symbols (put (fst c) c colours) styles overrides) as [ms [ss [cs [ls [vs [A [B [C [D [E X]]]]]]]]]]. exists ms, ss, (Some (fst c, c) :: cs), ls, vs.
        rewrite !(of_rule_miss "map"), !(of_rule_miss "symboldef"), !(of_rule_miss "linestyledef"), !(of_rule_miss "override_sct") by (rewrite R; discriminate). rewrite of_rule_hit by exact R. repeat (apply conj; [first [assumption | constructor; assumption]|]). exact X.
      + destruct H as [R H]. destruct (IH maps (put (fst s) s symbols) colours styles overrides) as [ms [ss [cs [ls [vs [A [B [C [D [E X]]]]]]]]]]. exists ms, (Some (fst s, s) :: ss), cs, ls, vs.
        rewrite !(of_rule_miss "map"), !(of_rule_miss "colourdef"), !(of_rule_miss "linestyledef"), !(of_rule_miss "override_sct") by (rewrite R; discriminate). rewrite of_rule_hit by exact R. repeat (apply conj; [first [assumption | constructor; assumption]|]). exact X.
      + destruct H as [R H]. destruct (IH maps symbols colours styles (overrides ++ [v])) as [ms [ss [cs [ls [vs [A [B [C [D [E X]]]]]]]]]]. exists ms, ss, cs, ls, (v :: vs).
        rewrite !(of_rule_miss "map"), !(of_rule_miss "symboldef"), !(of_rule_miss "colourdef"), !(of_rule_miss "linestyledef") by (rewrite R; discriminate). rewrite of_rule_hit by exact R. rewrite <- app_assoc in X. repeat (apply conj; [first [assumption | constructor; assumption]|]). exact X.
      + destruct H as [R H]. destruct (IH maps symbols colours (put (ld_name l) l styles) overrides) as [ms [ss [cs [ls [vs [A [B [C [D [E X]]]]]]]]]]. exists ms, ss, cs, (Some (ld_name l, l) :: ls), vs.
        rewrite !(of_rule_miss "map"), !(of_rule_miss "symboldef"), !(of_rule_miss "colourdef"), !(of_rule_miss "override_sct") by (rewrite R; discriminate). rewrite of_rule_hit by exact R. repeat (apply conj; [first [assumption | constructor; assumption]|]). exact X.
      + destruct (IH maps symbols colours styles overrides) as [ms [ss [cs [ls [vs X]]]]]. exists ms, ss, cs, ls, vs. rewrite !of_rule_miss by (destruct H as [-> | ->]; discriminate). exact X.
  Qed.
  Lemma fits_all kids : Forall def_fits kids <-> maps_fit kids.
  Proof.
    unfold maps_fit, def_fits. rewrite !Forall_forall. split.
    - intros H. repeat apply conj; intros p I; apply In_of_rule in I; destruct I as [I R]; destruct (H p I) as [A [B C]]; [exact (A R) | exact (B R) | exact (C R)].
    - intros [A [B C]] p I. repeat apply conj; intros R; [apply A | apply B | apply C]; apply In_of_rule; auto.
  Qed.
  Lemma maps_file_ok t kids : parsed G "maps" t kids -> verdict (maps_fit kids) (parse_topsky_maps upper t) (fun r => maps_read upper kids r /\ NoDup (keys (tm_symbols r)) /\ NoDup (keys (tm_colours r))).
  Proof.
    intros P. destruct (top_cases 12 "topsky_maps" G "maps" eq_refl ltac:(eexists; reflexivity) t) as [[kids' [P' E]]|[U _]]; [|contradiction (parsed_not _ _ _ _ P U)].
    pose proof (parsed_det _ _ _ _ _ P P') as <-. unfold parse_topsky_maps. rewrite E. cbn [obind]. eapply verdict_iff; [|apply fits_all].
    eapply verdict_iff; [eapply (verdict_bind _ True)|].
    - apply verdict_omap with (P := def_fits) (R := def_rel). exact (maps_kids t kids P).
    - intros os _ O. vend. destruct (maps_fold kids os O [] [] [] [] []) as [ms [ss [cs [ls [vs [A [B [C [D [F X]]]]]]]]]]. rewrite X. unfold maps_read. cbn [tm_maps tm_symbols tm_colours tm_styles tm_overrides app].
      repeat apply conj; try (apply given_holds); try assumption; apply NoDup_put_all; constructor.
    - tauto.
  Qed.
  Lemma maps_err t : unparsed G "maps" t -> parse_topsky_maps upper t = Err.
  Proof.
    intros U. destruct (top_cases 12 "topsky_maps" G "maps" eq_refl ltac:(eexists; reflexivity) t) as [[kids' [P' _]]|[_ E]]; [contradiction (parsed_not _ _ _ _ P' U)|].
    unfold parse_topsky_maps. rewrite E. reflexivity.
  Qed.
End upper.

(** ** All files *)
Definition symbols_part (symbols_file : option (list N)) (ky : list tree) : Prop :=
  match symbols_file with Some b => parsed G "symbols" (read_to_string b) ky | None => ky = [] end.
Lemma topsky_ok upper sb yb mb ks ky km :
  parsed SG "settings" (read_to_string sb) ks -> symbols_part yb ky -> parsed G "maps" (read_to_string mb) km ->
  verdict (symbols_fit ky /\ maps_fit km) (parse_topsky upper (Some sb) yb (Some mb)) (fun r =>
    holds names_colour (of_rule "colour_setting" ks ++ of_rule "colourdef" km) reads_colour (tk_colours r) /\
    holds names_symbol (of_rule "symbol" ky ++ of_rule "symboldef" km) reads_symbol (tk_symbols r) /\
    holds names_setting (of_rule "other_setting" ks) reads_setting (tk_settings r) /\
    Forall2 (reads_map upper) (of_rule "map" km) (tk_maps r) /\
    holds names_style (of_rule "linestyledef" km) reads_style_def (tk_styles r) /\
    Forall2 reads_override (of_rule "override_sct" km) (tk_overrides r)).
Proof.
  intros PS PY PM. unfold parse_topsky. destruct (settings_file_ok _ _ PS) as [[colours settings] [X [XC XS]]]. rewrite X. cbn [obind fst snd] in *.
  eapply verdict_bind with (R := symbols_read ky).
  - destruct yb as [b|]; [exact (symbols_file_ok _ _ PY)|]. cbn in PY. subst ky. apply verdict_ret; [constructor|]. intros id. constructor.
  - intros symbols _ Y. eapply verdict_iff; [eapply (verdict_bind _ True); [exact (maps_file_ok upper _ _ PM)|]|tauto].
    intros m _ [[M1 [M2 [M3 [M4 M5]]]] [N1 N2]]. vend. cbn [tk_colours tk_symbols tk_settings tk_maps tk_styles tk_overrides].
    repeat apply conj; try assumption; apply extend_holds; assumption.
Qed.
Lemma topsky_parts upper sf yf mf r : parse_topsky upper sf yf mf = Ret r ->
  exists sb mb ks ky km, sf = Some sb /\ mf = Some mb /\ parsed SG "settings" (read_to_string sb) ks /\ symbols_part yf ky /\ parsed G "maps" (read_to_string mb) km.
Proof.
  unfold parse_topsky. destruct sf as [sb|]; [|discriminate]. intros H.
  destruct (top_cases 13 "topsky_settings" SG "settings" eq_refl ltac:(eexists; reflexivity) (read_to_string sb)) as [[ks [PS _]]|[U _]]; [|rewrite (settings_err _ U) in H; discriminate].
  destruct (settings_file_ok _ _ PS) as [[colours settings] [X _]]. rewrite X in H. cbn [obind] in H.
  assert (Y : exists ky, symbols_part yf ky).
  { destruct yf as [b|]; [|exists []; reflexivity]. destruct (top_cases 11 "topsky_symbols" G "symbols" eq_refl ltac:(eexists; reflexivity) (read_to_string b)) as [[ky [PY _]]|[U _]]; [exists ky; exact PY|]. rewrite (symbols_err _ U) in H. discriminate. }
  destruct Y as [ky Y]. destruct (match yf with Some b => parse_topsky_symbols (read_to_string b) | None => Ret [] end) as [symbols| |]; try discriminate. cbn [obind] in H.
  destruct mf as [mb|]; [|discriminate].
  destruct (top_cases 12 "topsky_maps" G "maps" eq_refl ltac:(eexists; reflexivity) (read_to_string mb)) as [[km [PM _]]|[U _]]; [|rewrite (maps_err _ _ U) in H; discriminate].
  exists sb, mb, ks, ky, km. auto.
Qed.
