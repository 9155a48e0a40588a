(** Proofs for the positive part of C71: maps and symbols. *)
From Coq Require Import ZifyBool ZifyN ZifyNat.
From Verif Require Import Base Num Float Colours Settings Trees SpecJson SpecLoaded Adaptation AdaptationProofs AdaptationLoads LoadedGraph LoadedSct LoadedColours.
From Verif Require Locations Maps SymbologyParse TopskyParse SymbolParse.
Local Open Scope string_scope.
Local Open Scope list_scope.

Lemma in_filter_map {A} (l : list (option A)) x : In x (Maps.filter_map (fun o => o) l) -> In (Some x) l.
Proof. induction l as [|[y|] l IH]; cbn [Maps.filter_map]; intros I; [destruct I | destruct I as [->|I]; cbn; auto | cbn; auto]. Qed.
(** ** Rules of symbols *)
Definition angles_ok (x : symbol_rule) : Prop :=
  match x with
  | SArc _ _ a b | SFilledArc _ _ a b | SEllipticArc _ _ _ a b | SFilledEllipticArc _ _ _ a b => i64_ok a /\ i64_ok b
  | _ => True
  end.
Lemma rule_loaded x : angles_ok x -> rule_floats x -> rule_ok x.
Proof. destruct x; cbn; tauto. Qed.
Lemma angle_ok s a : SymbolParse.parse_angle s = Ret a -> i64_ok a.
Proof.
  unfold SymbolParse.parse_angle. intros H. ret H n E. injection H as <-. pose proof (Z.rem_bound_abs n 360 ltac:(lia)). unfold i64_ok. lia.
Qed.
Ltac peel H := repeat (let x := fresh "x" in let E := fresh "E" in ret H x E; try (destruct x as [? ?])).
Lemma symbol_rule_ok p x : SymbolParse.parse_symbol_rule p = Ret x -> angles_ok x.
Proof.
  intros H. unfold SymbolParse.parse_symbol_rule in H.
  repeat (match type of H with (if ?b then _ else _) = _ => destruct b end;
    [peel H; injection H as <-;
     repeat match goal with E : SymbolParse.parse_angle _ = Ret _ |- _ => apply angle_ok in E end;
     try match goal with |- context [if ?b then _ else _] => destruct b end; cbn [angles_ok]; unfold i64_ok in *; repeat split; lia |]).
  discriminate.
Qed.
Lemma symbol_rules_ok ps l : omap SymbolParse.parse_symbol_rule ps = Ret l -> Forall angles_ok l.
Proof. intros H. apply Forall_forall. intros x I. destruct (omap_inv _ _ _ H x I) as [p [_ E]]. exact (symbol_rule_ok _ _ E). Qed.

(** ** The symbology *)
Definition sitem_ok (x : SymbologyParse.sitem) : Prop := colour_ok (SymbologyParse.si_colour x) /\ i32_ok (SymbologyParse.si_weight x).
Definition symbology_ok (y : SymbologyParse.symbology) : Prop := entries sitem_ok (SymbologyParse.sg_items y) /\ entries (Forall angles_ok) (SymbologyParse.sg_symbols y).
Lemma item_ok p x : SymbologyParse.parse_item p = Ret (Some x) -> sitem_ok x.
Proof.
  intros H. unfold SymbologyParse.parse_item in H.
  ret H y1 E1. destruct y1. ret H y2 E2. destruct y2. ret H y3 E3. destruct y3. ret H n EN. ret H y4 E4. destruct y4. ret H z ES. ret H y5 E5. destruct y5. ret H st EST.
  ret H y6 E6. destruct y6. ret H w EW. ret H y7 E7. destruct y7. ret H al EA. injection H as H. destruct (from_euroscope n) as [c|] eqn:EC; [|discriminate].
  injection H as <-. apply unwrap_ret in EW. split; [exact (from_euroscope_ok _ _ EC) | exact (parse_i32_range _ _ EW)].
Qed.
Lemma symbology_step_ok y p y' : symbology_ok y -> SymbologyParse.symbology_step y p = Ret y' -> symbology_ok y'.
Proof.
  destruct y as [its sy]. intros [A B] H. unfold SymbologyParse.symbology_step in H. cbn [SymbologyParse.sg_items SymbologyParse.sg_symbols] in A, B.
  destruct (is_rule p "item").
  { ret H o E. injection H as <-. split; cbn; [|exact B]. destruct o as [x|]; [apply put_entries; [exact (item_ok _ _ E) | exact A] | exact A]. }
  destruct (is_rule p "symbol").
  { ret H o E. injection H as <-. split; cbn; [exact A|]. destruct o as [[ty rs]|]; [|exact B]. apply put_entries; [|exact B].
    unfold SymbologyParse.parse_symbol_rules in E. ret E y1 E1. destruct y1. ret E n EN. ret E rules ER. injection E as E. destruct (SymbologyParse.symbol_type_from n); [|discriminate].
    injection E as <- <-. exact (symbol_rules_ok _ _ ER). }
  destruct (is_rule p "header" || is_rule p "footer" || is_rule p "EOI"); [injection H as <-; split; assumption | discriminate].
Qed.
Lemma symbology_file_ok t y : SymbologyParse.parse_symbology t = Ret y -> symbology_ok y.
Proof.
  unfold SymbologyParse.parse_symbology. intros H. ret H kids EK. refine (ofold_inv symbology_ok _ kids symbology_step_ok _ _ _ H). split; apply nil_entries.
Qed.

(** ** TopSky *)
Definition named_colour_ok (c : TopskyParse.colour_def) : Prop := colour_ok (snd c).
Definition named_symbol_ok (s : TopskyParse.symbol_def) : Prop := Forall angles_ok (snd s).
Definition map_rule_ok (x : Maps.rule) : Prop := match x with Maps.RLineStyle l => style_ok l | _ => True end.
Lemma u8_range s n : parse_u8 s = Some n -> (n < 256)%N.
Proof. intros H. apply parse_uint_range in H. unfold u8_max in H. lia. Qed.
Lemma setting_colour_ok p c : TopskyParse.setting_colour p = Ret (Some c) -> colour_ok c.
Proof.
  intros H. unfold TopskyParse.setting_colour in H. ret H x1 E1. destruct x1. destruct (parse_u8 _) as [r|] eqn:R; [|discriminate].
  ret H x2 E2. destruct x2. destruct (parse_u8 (text_of t0)) as [g|] eqn:G; [|discriminate]. ret H x3 E3. destruct x3. destruct (parse_u8 (text_of t1)) as [b|] eqn:B; [|discriminate].
  injection H as <-. apply from_rgb_ok; eapply u8_range; eassumption.
Qed.
Definition setting_ok (s : TopskyParse.setting) : Prop := match s with TopskyParse.SetColour c => named_colour_ok c | _ => True end.
Lemma a_setting_ok p s : TopskyParse.parse_setting p = Ret (Some s) -> setting_ok s.
Proof.
  intros H. unfold TopskyParse.parse_setting in H. destruct (is_rule p "colour_setting").
  { ret H x1 E1. destruct x1 as [a b]. destruct b as [|rgb rest]; [discriminate|]. ret H c EC. injection H as H. destruct c as [c|]; [|discriminate]. injection H as <-.
    exact (setting_colour_ok _ _ EC). }
  destruct (is_rule p "other_setting"); [|destruct (is_rule p "section" || is_rule p "EOI"); discriminate]. ret H x1 E1. destruct x1. ret H x2 E2. destruct x2. injection H as <-. exact I.
Qed.
Lemma settings_file_ok t r : TopskyParse.parse_topsky_settings t = Ret r -> entries named_colour_ok (fst r) /\ unique (snd r).
Proof.
  unfold TopskyParse.parse_topsky_settings. intros H. ret H kids EK. ret H l EL. injection H as <-.
  assert (F : Forall setting_ok (Maps.filter_map (fun o => o) l)).
  { apply Forall_forall. intros x I. apply in_filter_map in I. destruct (omap_inv _ _ _ EL _ I) as [p [_ E]]. exact (a_setting_ok _ _ E). }
  assert (G : forall acc, entries named_colour_ok (fst acc) /\ unique (snd acc) ->
    let r := fold_left TopskyParse.setting_step (Maps.filter_map (fun o => o) l) acc in entries named_colour_ok (fst r) /\ unique (snd r)).
  { induction F as [|s ss Hs _ IH]; intros acc [A B]; cbn [fold_left]; [split; assumption|]. apply IH. destruct s as [c|k v]; cbn; split; try assumption;
      (apply put_entries; [exact Hs || exact I | assumption]). }
  apply G. split; apply nil_entries.
Qed.
Lemma symbol_def_ok p s : TopskyParse.parse_symbol p = Ret (Some s) -> named_symbol_ok s.
Proof.
  intros H. unfold TopskyParse.parse_symbol in H. destruct (is_rule p "symbol" || is_rule p "symboldef"); [|destruct (is_rule p "EOI"); discriminate].
  ret H x1 E1. destruct x1. ret H rl E. injection H as <-. exact (symbol_rules_ok _ _ E).
Qed.
Lemma symbols_file_ok t r : TopskyParse.parse_topsky_symbols t = Ret r -> entries named_symbol_ok r.
Proof.
  unfold TopskyParse.parse_topsky_symbols. intros H. ret H kids EK. ret H l EL. injection H as <-. apply put_all_entries; [|apply nil_entries].
  apply Forall_map, Forall_forall. intros x I. apply in_filter_map in I. destruct (omap_inv _ _ _ EL _ I) as [p [_ E]]. exact (symbol_def_ok _ _ E).
Qed.
Lemma style_parsed_ok up p l : TopskyParse.parse_line_style up p = Ret l -> style_ok l.
Proof.
  intros H. unfold TopskyParse.parse_line_style in H. ret H x1 E1. destruct x1 as [a b]. injection H as <-. unfold style_ok. cbn [ls_width].
  destruct b as [|w b]; [unfold i32_ok; lia|]. destruct (parse_i32 (text_of w)) eqn:E; [exact (parse_i32_range _ _ E) | unfold i32_ok; lia].
Qed.
Lemma map_rule_parsed up p x : TopskyParse.parse_map_rule up p = Ret (Some x) -> map_rule_ok x.
Proof.
  intros H. unfold TopskyParse.parse_map_rule in H.
  repeat (match type of H with (if ?b then _ else _) = _ => destruct b end;
    [first [ discriminate H | injection H as <-; exact I
           | let y := fresh "y" in let E := fresh "E" in ret H y E;
             first [ injection H as <-; first [exact I | exact (style_parsed_ok _ _ _ E)]
                   | destruct y; let z := fresh "z" in let E' := fresh "E" in ret H z E'; injection H as <-; exact I ] ] |]).
  discriminate.
Qed.
Definition definition_ok (d : TopskyParse.map_definition) : Prop :=
  match d with
  | TopskyParse.DMap m => Forall map_rule_ok (Maps.md_rules m)
  | TopskyParse.DColour c => named_colour_ok c
  | TopskyParse.DSymbol s => named_symbol_ok s
  | _ => True
  end.
Lemma definition_parsed up p d : TopskyParse.parse_definition up p = Ret (Some d) -> definition_ok d.
Proof.
  intros H. unfold TopskyParse.parse_definition in H.
  destruct (is_rule p "map").
  { ret H m E. injection H as <-. unfold TopskyParse.parse_map in E. ret E x1 E1. destruct x1. ret E rs ER. injection E as <-. cbn [definition_ok Maps.md_rules].
    unfold TopskyParse.parse_map_rules in ER. ret ER l' EL. injection ER as <-. apply Forall_forall. intros x I. apply in_filter_map in I.
    destruct (omap_inv _ _ _ EL _ I) as [q [_ E]]. exact (map_rule_parsed _ _ _ E). }
  destruct (is_rule p "colourdef").
  { ret H c E. injection H as <-. unfold TopskyParse.parse_colour_def in E. ret E x1 E1. destruct x1. ret E x2 E2. destruct x2. ret E r ER. ret E x3 E3. destruct x3. ret E g EG.
    ret E x4 E4. destruct x4. ret E b EB. injection E as <-. apply unwrap_ret in ER, EG, EB. apply from_rgb_ok; eapply u8_range; eassumption. }
  destruct (is_rule p "symboldef"). { ret H s E. destruct s as [s|]; [|discriminate]. injection H as <-. exact (symbol_def_ok _ _ E). }
  destruct (is_rule p "linestyledef"). { ret H s E. injection H as <-. exact I. }
  destruct (is_rule p "override_sct"). { ret H s E. injection H as <-. exact I. }
  destruct (is_rule p "sctfilepath" || is_rule p "EOI"); discriminate.
Qed.
Definition topsky_maps_ok (m : TopskyParse.topsky_maps) : Prop :=
  Forall (fun d => Forall map_rule_ok (Maps.md_rules d)) (TopskyParse.tm_maps m) /\ entries named_symbol_ok (TopskyParse.tm_symbols m) /\
  entries named_colour_ok (TopskyParse.tm_colours m).
Lemma maps_file_ok up t m : TopskyParse.parse_topsky_maps up t = Ret m -> topsky_maps_ok m.
Proof.
  unfold TopskyParse.parse_topsky_maps. intros H. ret H kids EK. ret H l EL. injection H as <-.
  assert (F : Forall definition_ok (Maps.filter_map (fun o => o) l)).
  { apply Forall_forall. intros x I. apply in_filter_map in I. destruct (omap_inv _ _ _ EL _ I) as [p [_ E]]. exact (definition_parsed _ _ _ E). }
  assert (G : forall acc, topsky_maps_ok acc -> topsky_maps_ok (fold_left TopskyParse.definition_step (Maps.filter_map (fun o => o) l) acc)).
  { induction F as [|d ds Hd _ IH]; intros acc A; cbn [fold_left]; [exact A|]. apply IH. destruct acc as [ms ss cs ls os], A as [A [B C]].
    destruct d as [x|x|x|x|x]; unfold topsky_maps_ok; cbn in *; (split; [|split]); try assumption; try (apply put_entries; assumption).
    apply Forall_app. split; [exact A|]. constructor; [exact Hd | constructor]. }
  apply G. split; [constructor|]. split; apply nil_entries.
Qed.
Definition topsky_ok (t : TopskyParse.topsky) : Prop :=
  Forall (fun d => Forall map_rule_ok (Maps.md_rules d)) (TopskyParse.tk_maps t) /\ entries named_symbol_ok (TopskyParse.tk_symbols t) /\
  entries named_colour_ok (TopskyParse.tk_colours t).
Lemma topsky_is_ok up a b c t : TopskyParse.parse_topsky up a b c = Ret t -> topsky_ok t.
Proof.
  unfold TopskyParse.parse_topsky. intros H. ret H x1 E1. destruct x1 as [cs st]. ret H sy E2. ret H m E3. injection H as <-.
  assert (C : entries named_colour_ok cs) by (destruct a; [exact (proj1 (settings_file_ok _ _ E1)) | discriminate]).
  assert (S : entries named_symbol_ok sy) by (destruct b; [exact (symbols_file_ok _ _ E2) | injection E2 as <-; apply nil_entries]).
  assert (M : topsky_maps_ok m) by (destruct c; [exact (maps_file_ok _ _ _ E3) | discriminate]). destruct M as [M1 [[_ M2] [_ M3]]].
  split; [exact M1|]. split; cbn; (apply put_all_entries; [apply Forall_forall; intros [k x] I; eauto | assumption]).
Qed.
