(** Proofs about TopSky settings and symbols. *)
From Coq Require Import ZifyBool ZifyN ZifyNat.
From Verif Require Import Base Num Float FloatParse Dms Decode Colours Settings Locations Maps Lines Peg Grammars SpecPeg PegProofs PegLang PegForward Trees PegTree SpecPairs PairsProofs SpecText TextProofs Numerals Verdict SpecKeyed KeyedProofs SpecSct SpecEse SymbolParse SpecSymbol SymbolProofs TopskyParse SpecTopsky.
Local Open Scope string_scope.
Local Open Scope list_scope.
Ltac rules := repeat match goal with B : born _ _ ?n ?t |- _ => lazymatch goal with R : rule_of t = n |- _ => fail | _ => pose proof (born_rule _ _ _ _ B) end end.

(** ** Settings *)
Notation SG := topsky_settings_grammar.
Definition setting_ok (p : tree) (o : option setting) : Prop :=
  match o with
  | Some (SetColour c) => rule_of p = "colour_setting" /\ entry names_colour reads_colour p (Some (fst c, c))
  | Some (SetOther k v) => rule_of p = "other_setting" /\ entry names_setting reads_setting p (Some (k, v))
  | None => rule_of p = "colour_setting" /\ entry names_colour reads_colour p None \/ rule_of p <> "colour_setting" /\ rule_of p <> "other_setting"
  end.
Lemma rgb_ok q : born SG NonAtomic "colour_setting_rgb" q -> exists o, setting_colour q = Ret o /\ match o with Some c => reads_rgb (texts "number" q) c | None => forall c, ~ reads_rgb (texts "number" q) c end.
Proof.
  intros B. kids B as K. rules. unfold setting_colour. rewrite E. cbn [next obind].
  assert (TN : texts "number" q = [text_of t; text_of t0; text_of t1]) by (unfold texts; rewrite E; pick; reflexivity). rewrite TN.
  destruct (parse_u8 (text_of t)) as [r|] eqn:R.
  - destruct (parse_u8 (text_of t0)) as [g|] eqn:GG.
    + destruct (parse_u8 (text_of t1)) as [b|] eqn:BB.
      * eexists. split; [reflexivity|]. do 6 eexists. repeat apply conj; eauto.
      * eexists. split; [reflexivity|]. intros c [s [u [v [r' [g' [b' [X [A1 [A2 [A3 _]]]]]]]]]]. injection X as <- <- <-. congruence.
    + eexists. split; [reflexivity|]. intros c [s [u [v [r' [g' [b' [X [A1 [A2 [A3 _]]]]]]]]]]. injection X as <- <- <-. congruence.
  - eexists. split; [reflexivity|]. intros c [s [u [v [r' [g' [b' [X [A1 [A2 [A3 _]]]]]]]]]]. injection X as <- <- <-. congruence.
Qed.
Definition step_ok (p : tree) : Prop := exists o, parse_setting p = Ret o /\ setting_ok p o.
Lemma colour_setting_ok p : born SG NonAtomic "colour_setting" p -> step_ok p.
Proof.
  intros B. pose proof (born_rule _ _ _ _ B) as R. kids B as K. unfold step_ok, parse_setting, is_rule. rewrite R. cbn [eqb EqDec_string String.eqb Ascii.eqb Bool.eqb]. rewrite E. cbn [next obind].
  destruct K as [-> |K].
  - rules. eexists. split; [reflexivity|]. left. split; [exact R|]. intros id [[_ [_ [c [q [X _]]]]]|[X _]]; [|congruence]. rewrite E in X. revert X. pick. discriminate.
  - shp K. subst. rules. destruct (rgb_ok _ K) as [o [O1 O2]]. rewrite O1. cbn [obind].
    assert (Q : of_rule "colour_setting_rgb" (kids_of p) = [t0]) by (rewrite E; pick; reflexivity).
    assert (N : texts "name" p = [text_of t]) by (unfold texts; rewrite E; pick; reflexivity).
    eexists. split; [reflexivity|]. destruct o as [c|].
    + split; [exact R|]. assert (RG : setting_rgb p c) by (exists t0; auto). split.
      * intros id. unfold names_colour, field. rewrite N. cbn [fst]. split; [intros [[_ [X _]]|[X _]]; congruence | intros ->; left; eauto].
      * split; [left; unfold field; rewrite N; eauto | left; auto].
    + left. split; [exact R|]. intros id [[_ [_ [c [q [X1 X2]]]]]|[X _]]; [|congruence]. rewrite Q in X1. injection X1 as <-. exact (O2 c X2).
Qed.
Lemma other_setting_ok p : born SG NonAtomic "other_setting" p -> step_ok p.
Proof.
  intros B. pose proof (born_rule _ _ _ _ B) as R. kids B as K. rules. unfold step_ok, parse_setting, is_rule. rewrite R. cbn [eqb EqDec_string String.eqb Ascii.eqb Bool.eqb]. rewrite E. cbn [next obind].
  eexists. split; [reflexivity|]. split; [exact R|].
  assert (N : texts "name" p = [text_of t]) by (unfold texts; rewrite E; pick; reflexivity).
  assert (V : texts "setting_value" p = [text_of t0]) by (unfold texts; rewrite E; pick; reflexivity).
  split; [intros id; unfold names_setting, field; rewrite N; split; congruence | exact V].
Qed.
Lemma no_setting_ok p : rule_of p = "section" \/ rule_of p = "EOI" -> step_ok p.
Proof.
  intros R. unfold step_ok, parse_setting, is_rule. destruct R as [R|R]; rewrite R; eexists; (split; [reflexivity|]); right; rewrite R; split; discriminate.
Qed.
Lemma settings_kids t kids : parsed SG "settings" t kids -> Forall step_ok kids.
Proof.
  intros P. apply parsed_born in P. kids P as K.
  apply Forall_app. split; [|apply Forall_app; split].
  - apply shape_star in K0; [|reflexivity]. destruct K0 as [l [-> F]]. apply Forall_flat. eapply Forall_impl; [|exact F]. intros u U. right. shp U. sil U. alts U; subst u; eexists; (split; [reflexivity|]); [apply colour_setting_ok | apply other_setting_ok]; exact U.
  - apply shape_star in K1; [|reflexivity]. destruct K1 as [l [-> F]]. apply Forall_flat. eapply Forall_impl; [|exact F]. intros u U. right. shp U. subst u. eexists. split; [reflexivity|]. apply no_setting_ok. left. exact (born_rule _ _ _ _ U).
  - constructor; [apply no_setting_ok; right; reflexivity | constructor].
Qed.
Lemma settings_fold kids : Forall step_ok kids -> exists l, omap parse_setting kids = Ret l /\ forall a b, exists cs os,
  Forall2 (entry names_colour reads_colour) (of_rule "colour_setting" kids) cs /\ Forall2 (entry names_setting reads_setting) (of_rule "other_setting" kids) os /\
  fold_left setting_step (filter_map (fun o => o) l) (a, b) = (put_all (given cs) a, put_all (given os) b).
Proof.
  induction 1 as [|p kids [o [O1 O2]] _ [l [L H]]].
  - exists []. split; [reflexivity|]. intros a b. exists [], []. repeat split; constructor.
  - exists (o :: l). cbn [omap]. rewrite O1. cbn [obind]. rewrite L. split; [reflexivity|]. intros a b. destruct o as [[c|k v]|]; cbn [setting_ok filter_map fold_left] in *.
    + destruct O2 as [R O2]. unfold setting_step at 2. cbn [fst snd]. destruct (H (put (fst c) c a) b) as [cs [os [C [O X]]]]. exists (Some (fst c, c) :: cs), os.
      rewrite of_rule_hit, of_rule_miss by (rewrite R; (reflexivity || discriminate)). split; [constructor; assumption|]. split; [exact O | exact X].
    + destruct O2 as [R O2]. unfold setting_step at 2. cbn [fst snd]. destruct (H a (put k v b)) as [cs [os [C [O X]]]]. exists cs, (Some (k, v) :: os).
      rewrite of_rule_miss, of_rule_hit by (rewrite R; (reflexivity || discriminate)). split; [exact C|]. split; [constructor; assumption | exact X].
    + destruct (H a b) as [cs [os [C [O X]]]]. destruct O2 as [[R O2]|[R1 R2]].
      * exists (None :: cs), os. rewrite of_rule_hit, of_rule_miss by (rewrite R; (reflexivity || discriminate)). split; [constructor; assumption|]. split; [exact O | exact X].
      * exists cs, os. rewrite !of_rule_miss by assumption. auto.
Qed.
Lemma settings_file_ok t kids : parsed SG "settings" t kids -> exists r, parse_topsky_settings t = Ret r /\ settings_read kids r.
Proof.
  intros P. destruct (top_cases 13 "topsky_settings" SG "settings" eq_refl ltac:(eexists; reflexivity) t) as [[kids' [P' E]]|[U _]]; [|contradiction (parsed_not _ _ _ _ P U)].
  pose proof (parsed_det _ _ _ _ _ P P') as <-. unfold parse_topsky_settings. rewrite E. cbn [obind]. destruct (settings_fold kids (settings_kids t kids P)) as [l [L H]]. rewrite L. cbn [obind].
  destruct (H [] []) as [cs [os [C [O X]]]]. eexists. split; [reflexivity|]. rewrite X. split; apply given_holds; assumption.
Qed.
Lemma settings_err t : unparsed SG "settings" t -> parse_topsky_settings t = Err.
Proof.
  intros U. destruct (top_cases 13 "topsky_settings" SG "settings" eq_refl ltac:(eexists; reflexivity) t) as [[kids' [P' _]]|[_ E]]; [contradiction (parsed_not _ _ _ _ P' U)|].
  unfold parse_topsky_settings. rewrite E. reflexivity.
Qed.

(** ** Symbols *)
Notation G := topsky_grammar.
Lemma form_names n ts : ~ In n ["moveto"; "line"; "pixel"; "arc"; "fillarc"; "arc_ellipse"; "fillarc_ellipse"; "ellipse_circle"; "ellipse"; "fillrect"; "polygon"] -> Forall rule_form ts -> of_rule n ts = [].
Proof.
  intros N F. induction F as [|q ts Q _ IH]; [reflexivity|]. rewrite of_rule_miss; [exact IH|]. intros <-. apply N. cbn [In].
  destruct Q as [p R _ _|p d i j R _ _ _ _ _|p d e i j R _ _ _ _ _ _|p d R _ _ _|p d e R _ _ _ _|p r R _ _ _|R _]; cbn [In] in R; intuition congruence.
Qed.
Definition symbol_fits (p : tree) : Prop := Forall rule_fits (symbol_rules p).
Definition symbol_rel (p : tree) (o : option symbol_def) : Prop := exists s, o = Some s /\ entry names_symbol reads_symbol p (Some (fst s, s)).
Lemma symbol_body p t l : rule_of p = "symbol" \/ rule_of p = "symboldef" -> kids_of p = t :: List.concat l -> born G NonAtomic "colon_delimited_text" t ->
  Forall (shape G 6 NonAtomic (&"symbolrule")) l -> verdict (symbol_fits p) (parse_symbol p) (symbol_rel p).
Proof.
  intros R E K0 F. assert (RF : Forall rule_form (List.concat l)).
  { apply Forall_flat. eapply Forall_impl; [|exact F]. intros u U. right. destruct (topsky_rule u U) as [q Q]. exists q. exact Q. }
  rules. assert (TC : texts "colon_delimited_text" p = [text_of t]).
  { unfold texts. rewrite E, of_rule_hit by assumption. rewrite (form_names "colon_delimited_text" _ ltac:(cbn; intuition discriminate) RF). reflexivity. }
  assert (SR : symbol_rules p = List.concat l) by (unfold symbol_rules; rewrite E; reflexivity).
  unfold parse_symbol. replace (is_rule p "symbol" || is_rule p "symboldef") with true by (unfold is_rule; destruct R as [-> | ->]; reflexivity).
  rewrite E. cbn [next obind]. eapply verdict_iff.
  - vb (omap parse_symbol_rule (List.concat l)).
    { apply verdict_omap with (P := rule_fits) (R := reads_rule). eapply Forall_impl; [|exact RF]. exact rule_ok. }
    intros rs _ RS. vend. eexists. split; [reflexivity|]. split.
    + intros id. unfold names_symbol, field. rewrite TC. cbn [fst]. split; congruence.
    + split; [exact TC|]. rewrite SR. exact RS.
  - unfold symbol_fits. rewrite SR. tauto.
Qed.
Lemma symbol_ok p : born G NonAtomic "symbol" p -> verdict (symbol_fits p) (parse_symbol p) (symbol_rel p).
Proof.
  intros B. pose proof (born_rule _ _ _ _ B) as R. kids B as K. apply shape_plus in K; [|reflexivity]. destruct K as [l [_ [-> F]]]. eapply symbol_body; eauto.
Qed.
Lemma symboldef_ok p : born G NonAtomic "symboldef" p -> verdict (symbol_fits p) (parse_symbol p) (symbol_rel p).
Proof.
  intros B. pose proof (born_rule _ _ _ _ B) as R. kids B as K. apply shape_plus in K; [|reflexivity]. destruct K as [l [_ [-> F]]]. eapply symbol_body; eauto.
Qed.
Lemma symbols_kids t kids : parsed G "symbols" t kids -> exists ps, kids = ps ++ [T "EOI" [] []] /\ Forall (born G NonAtomic "symbol") ps.
Proof.
  intros P. apply parsed_born in P. kids P as K.
  exists ts. split; [reflexivity|]. apply shape_plus in K0; [|reflexivity]. destruct K0 as [l [_ [-> F]]]. apply Forall_flat. eapply Forall_impl; [|exact F].
  intros u U. right. shp U. subst u. eexists. split; [reflexivity | exact U].
Qed.
Lemma symbols_fold ps os : Forall2 symbol_rel ps os -> Forall (born G NonAtomic "symbol") ps ->
  exists l, Forall2 (entry names_symbol reads_symbol) (of_rule "symbol" ps) l /\ given l = map (fun s => (fst s, s)) (filter_map (fun o => o) os).
Proof.
  induction 1 as [|p o ps os [s [-> O]] _ IH]; intros F; [exists []; split; [constructor | reflexivity]|]. apply Forall_cons_iff in F. destruct F as [B F]. destruct (IH F) as [l [L X]].
  exists (Some (fst s, s) :: l). rewrite of_rule_hit by exact (born_rule _ _ _ _ B). split; [constructor; assumption|]. cbn. f_equal. exact X.
Qed.
Lemma omap_app {A B} (f : A -> outcome B) a b : omap f (a ++ b) = do x <- omap f a; do y <- omap f b; Ret (x ++ y).
Proof.
  induction a as [|x a IH]; cbn [app omap obind]; [destruct (omap f b); reflexivity|]. destruct (f x); cbn [obind]; try reflexivity. rewrite IH. destruct (omap f a); cbn [obind]; try reflexivity.
  destruct (omap f b); reflexivity.
Qed.
Lemma filter_map_app {A B} (f : A -> option B) a b : filter_map f (a ++ b) = filter_map f a ++ filter_map f b.
Proof. induction a as [|x a IH]; cbn [app filter_map]; [reflexivity|]. destruct (f x); cbn [app]; rewrite IH; reflexivity. Qed.
Lemma symbols_file_ok t kids : parsed G "symbols" t kids -> verdict (symbols_fit kids) (parse_topsky_symbols t) (symbols_read kids).
Proof.
  intros P. destruct (top_cases 11 "topsky_symbols" G "symbols" eq_refl ltac:(eexists; reflexivity) t) as [[kids' [P' E]]|[U _]]; [|contradiction (parsed_not _ _ _ _ P U)].
  pose proof (parsed_det _ _ _ _ _ P P') as <-. destruct (symbols_kids t kids P) as [ps [-> F]]. unfold parse_topsky_symbols. rewrite E. cbn [obind]. rewrite omap_app. cbn [omap obind].
  change (parse_symbol (T "EOI" [] [])) with (Ret (@None symbol_def)). cbn [obind].
  assert (RS : of_rule "symbol" (ps ++ [T "EOI" [] []]) = ps).
  { rewrite of_rule_app. cbn. rewrite app_nil_r. clear - F. induction F as [|p ps B _ IH]; [reflexivity|]. rewrite of_rule_hit, IH by exact (born_rule _ _ _ _ B). reflexivity. }
  assert (V : verdict (Forall symbol_fits ps) (omap parse_symbol ps) (Forall2 symbol_rel ps)).
  { apply verdict_omap with (P := symbol_fits) (R := symbol_rel). eapply Forall_impl; [|exact F]. exact symbol_ok. }
  destruct V as [[W [os [O R]]]|[W O]]; rewrite O; cbn [obind].
  - left. split; [unfold symbols_fit; rewrite RS; exact W|]. eexists. split; [reflexivity|]. rewrite filter_map_app. cbn [filter_map]. rewrite app_nil_r.
    destruct (symbols_fold ps os R F) as [l [L <-]]. unfold symbols_read. rewrite of_rule_app. cbn. rewrite app_nil_r. apply given_holds. exact L.
  - right. split; [unfold symbols_fit; rewrite RS; exact W | reflexivity].
Qed.
Lemma symbols_err t : unparsed G "symbols" t -> parse_topsky_symbols t = Err.
Proof.
  intros U. destruct (top_cases 11 "topsky_symbols" G "symbols" eq_refl ltac:(eexists; reflexivity) t) as [[kids' [P' _]]|[_ E]]; [contradiction (parsed_not _ _ _ _ P' U)|].
  unfold parse_topsky_symbols. rewrite E. reflexivity.
Qed.
