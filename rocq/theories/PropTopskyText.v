(** C82, C83: TopSky map and symbol files are read as their lines are written. *)
From Verif Require Import Base Num Float FloatParse Dms Colours Settings Locations Maps SpecText SpecFields SpecEseText SpecSymbol SpecDrawn SpecSymbologyText TopskyParse SpecTopskyText TopskyTextLoads.
Local Open Scope string_scope.
Local Open Scope list_scope.

(** A file of maps, symbols, colours, line styles, overrides and file paths, whose lines are written as specified, with empty lines and remarks between
    them and indented settings, is read: the maps and the overrides are those written, in order, with the settings written,
    and of the symbols, colours and line styles of the same name the last one counts. *)
Theorem C82_maps upper es ds t : es <> [] -> Forall2 (reads_entry upper) es ds -> ordered es -> maps_layout es t ->
  exists r, parse_topsky_maps upper t = Ret r /\ tm_maps r = maps_of ds /\ tm_overrides r = overrides_of ds /\ 
    last_counts (symbols_of ds) (tm_symbols r) /\ last_counts (colours_of ds) (tm_colours r) /\ last_counts (styles_of ds) (tm_styles r).
Proof.
  intros N F O L. eexists. split; [eapply maps_text_reads; eassumption|]. cbn [tm_maps tm_overrides tm_symbols tm_colours tm_styles].
  split; [reflexivity|]. split; [reflexivity|]. split; [|split]; intros k; apply get_of_list.
Qed.
Print Assumptions C82_maps.
(** Indentation, empty lines, remarks on lines of their own and the kind of line ends do not matter. *)
Theorem C82_layout_irrelevant upper es ds t t' : es <> [] -> Forall2 (reads_entry upper) es ds -> ordered es -> maps_layout es t -> maps_layout es t' ->
  parse_topsky_maps upper t = parse_topsky_maps upper t'.
Proof. intros N F O L L'. rewrite (maps_text_reads upper es ds t N F O L). symmetry. eapply maps_text_reads; eassumption. Qed.
Print Assumptions C82_layout_irrelevant.
(** But a remark at the end of a line is not always ignored: below, it becomes part of the folder's name. *)
Theorem C82_remark_refuted : ~ forall upper a b, parse_topsky_maps upper (a ++ s2t " // x" ++ [10]%N ++ b) = parse_topsky_maps upper (a ++ [10]%N ++ b).
Proof. intros H. specialize (H (fun w => w) (s2t "MAP:M" ++ [10]%N ++ s2t "FOLDER:F") []). vm_compute in H. discriminate H. Qed.
Print Assumptions C82_remark_refuted.

Definition topsky_dot : text * list drawn := (s2t "Dot", [mkDrawn "MOVETO" [(s2t ":", s2t "0"); (s2t ":", s2t "-1")]; mkDrawn "LINETO" [(s2t ":", s2t "4"); (s2t " ", s2t "0")]]).
Definition topsky_entries : list entry :=
  [Override (s2t "Regions") (Some (s2t "EDMM")); FilePath (s2t "a\b");
   Map (s2t "M 1; x") [Folder (s2t "F//G"); Colour (s2t "C") [[]]; Active (Ids (Some [s2t "MMN"; s2t "MMS"]) None None None); AndActive (OfMap true (s2t "F") (s2t "N"));
     Symbol (s2t "VOR") (Fix (s2t "ERNAS")) (Some (s2t "L", s2t "-5", s2t "2.5")); FontSize (Some (s2t "*", s2t ".5"));
     Segments (Decimals (s2t "48.5") (s2t "+11")) (Degrees (mkDms (s2t "N") (s2t "048") (s2t "21") (s2t "13.000")) (mkDms (s2t "E") (s2t "011") (s2t "47") (s2t "09.000")))
       [(Fix (s2t "NAPSA"), Fix (s2t "ERNAS"))];
     Caption (Fix (s2t "Exx")) (s2t "a: b/c")];
   ColourDef (s2t "C") (s2t "10") (s2t "020") (s2t "255"); StyleDef (s2t "S") (s2t "solid") [] [s2t "3"; s2t "4"]; ColourDef (s2t "C") (s2t "1") (s2t "2") (s2t "3"); SymbolDef (s2t "Dot") (snd topsky_dot)].
Definition topsky_text : text := s2t "// made by hand" ++ [13; 10]%N ++ s2t "OVERRIDE_SCT_MAP:Regions\EDMM" ++ [13; 10]%N ++ s2t "SCTFILEPATH:a\b" ++ [10; 10]%N
  ++ s2t "MAP:M 1; x" ++ [10]%N ++ s2t "  FOLDER:F//G" ++ [10]%N ++ s2t "  ; two" ++ [10]%N ++ s2t "COLOR:C:" ++ [10]%N ++ s2t "ACTIVE:ID:MMN,MMS:*:*:* " ++ [10]%N
  ++ s2t "AND_ACTIVE:MAP:=:F\N" ++ [10]%N ++ s2t "SYMBOL:VOR:ERNAS:L:-5:2.5" ++ [10]%N ++ s2t "FONTSIZE:*:.5" ++ [10]%N ++ s2t " LINE:48.5:+11:N048.21.13.000:E011.47.09.000" ++ [10]%N
  ++ s2t "LINE:NAPSA:ERNAS" ++ [10; 10]%N ++ s2t "TEXT:Exx:a: b/c" ++ [10]%N ++ s2t "COLORDEF:C:10:020:255" ++ [10]%N ++ s2t "LINESTYLEDEF:S:solid::3,4" ++ [10]%N ++ s2t "COLORDEF:C:1:2:3" ++ [10]%N
  ++ s2t "SYMBOLDEF:Dot" ++ [10]%N ++ s2t "MOVETO:0:-1" ++ [10]%N ++ s2t "LINETO:4 0" ++ [10]%N.
Lemma topsky_dot_reads : exists s, reads_drawing (fst topsky_dot) (snd topsky_dot) s.
Proof.
  assert (DG : forall w : text, w <> [] -> forallb is_digit w = true -> digits w) by (intros w N H; split; [exact N|]; apply Forall_forall; apply forallb_forall; exact H).
  assert (NU : forall sg w : text, (sg = [] \/ sg = s2t "-" \/ sg = s2t "+") -> w <> [] -> forallb is_digit w = true -> numeral (sg ++ w)).
  { intros sg w S N H. exists sg, w. split; [reflexivity|]. split; [exact S | constructor; apply DG; assumption]. }
  eexists (_, [SMove (_, _); SLine (_, _)]). split; [|split; [reflexivity|]; split; [discriminate|]].
  - split; [|intros c v E; injection E as <- _; split; discriminate]. split; [apply Forall_forall; intros c I; cbn in I; repeat (destruct I as [<-|I]; [split; [discriminate | split; discriminate]|]); contradiction|].
    split; [intros c v E; injection E as <- _; reflexivity|]. intros v c E. assert (X : rev (fst topsky_dot) = c :: rev v) by (rewrite E, rev_app_distr; reflexivity). vm_compute in X. injection X as <- _. reflexivity.
  - apply Forall2_cons; [|apply Forall2_cons; [|apply Forall2_nil]].
    + split; [repeat (apply Forall_cons; [left; reflexivity|]); apply Forall_nil|]. apply draws_move. split; (split; [|vm_compute; reflexivity]).
      * apply (NU [] (s2t "0")); (discriminate || tauto || reflexivity).
      * apply (NU (s2t "-") (s2t "1")); (discriminate || tauto || reflexivity).
    + split; [apply Forall_cons; [left; reflexivity|]; apply Forall_cons; [right; reflexivity|]; apply Forall_nil|]. apply draws_line. split; (split; [|vm_compute; reflexivity]).
      * apply (NU [] (s2t "4")); (discriminate || tauto || reflexivity).
      * apply (NU [] (s2t "0")); (discriminate || tauto || reflexivity).
Qed.
Example C82_nonvacuous : topsky_entries <> [] /\ (exists ds, Forall2 (reads_entry (fun w => w)) topsky_entries ds) /\ ordered topsky_entries /\ maps_layout topsky_entries topsky_text.
Proof.
  assert (TR : forall w : text, match w with c :: _ => negb (is_blank c) | [] => true end = true -> match rev w with c :: _ => negb (is_blank c) | [] => true end = true -> trimmed w).
  { intros w A B. split.
    - intros c v ->. apply negb_true_iff in A. exact A.
    - intros v c ->. rewrite rev_app_distr in B. apply negb_true_iff in B. exact B. }
  assert (FL : forall d (w : text), forallb (fun c => negb ((c =? d)%N || (c =? 10)%N || (c =? 13)%N)) w = true -> trimmed w -> SpecFields.field d w).
  { intros d w H T. split; [|exact T]. rewrite forallb_forall in H. apply Forall_forall. intros c I. specialize (H c I). apply negb_true_iff in H. rewrite !orb_false_iff, !N.eqb_neq in H. tauto. }
  assert (UR : forall w : text, match w with c :: _ => negb ((c =? 59)%N || (c =? 47)%N) | [] => true end = true -> unremarked w).
  { intros w H c v ->. apply negb_true_iff in H. rewrite orb_false_iff, !N.eqb_neq in H. exact H. }
  assert (WD : forall w : text, forallb (fun c => negb ((c =? 58)%N || (c =? 10)%N || (c =? 13)%N)) w = true -> match w with c :: _ => negb (is_blank c) | [] => true end = true ->
    match rev w with c :: _ => negb (is_blank c) | [] => true end = true -> match w with c :: _ => negb ((c =? 59)%N || (c =? 47)%N) | [] => true end = true -> word w).
  { intros w A B C D. split; [apply FL; [exact A | apply TR; assumption] | apply UR, D]. }
  assert (DG : forall w : text, w <> [] -> forallb is_digit w = true -> digits w).
  { intros w N H. split; [exact N|]. apply Forall_forall. apply forallb_forall. exact H. }
  assert (W0 : forall w : text, w <> [] -> forallb is_digit w = true -> whole w) by (intros w N H; exists [], w; split; [reflexivity|]; split; [left; reflexivity | apply DG; assumption]).
  assert (UN : forall w : text, match w with c :: v => negb (is_digit c || existsb (N.eqb c) (s2t "+-.")) && (negb (existsb (N.eqb c) hemispheres) || match v with d :: _ => negb (is_digit d) | [] => true end) | [] => true end = true -> unplaced w).
  { intros w H c v ->. apply andb_true_iff in H. destruct H as [A B]. apply negb_true_iff, orb_false_iff in A. destruct A as [A A']. split; [exact A|].
    split; [intros I; rewrite <- not_true_iff_false in A'; apply A', existsb_exists; exists c; split; [exact I | apply N.eqb_refl]|].
    intros I d u ->. apply orb_true_iff in B. destruct B as [B|B]; [|apply negb_true_iff in B; exact B]. apply negb_true_iff in B. rewrite <- not_true_iff_false in B. exfalso. apply B, existsb_exists. exists c. split; [exact I | apply N.eqb_refl]. }
  assert (FX : forall w : text, word w -> unplaced w -> reads_spot (Fix w) (LFix w)) by (intros w A B; split; [exact A | split; [exact B | reflexivity]]).
  assert (NM : forall a b : text, forallb is_digit a = true -> b <> [] -> forallb is_digit b = true -> numeral (a ++ s2t "." ++ b)).
  { intros a b A N B. exists [], (a ++ s2t "." ++ b). split; [reflexivity|]. split; [left; reflexivity | apply numeral_point; [apply Forall_forall, forallb_forall, A | apply DG; assumption]]. }
  assert (SS : exists ss, Forall2 reads_segment [(Decimals (s2t "48.5") (s2t "+11"),
     Degrees (mkDms (s2t "N") (s2t "048") (s2t "21") (s2t "13.000")) (mkDms (s2t "E") (s2t "011") (s2t "47") (s2t "09.000"))); (Fix (s2t "NAPSA"), Fix (s2t "ERNAS"))] ss).
  { eexists [(LCoord (_, _), LCoord _); (LFix _, LFix _)]. apply Forall2_cons; [|apply Forall2_cons; [|apply Forall2_nil]]; (split; [reflexivity|]; split; cbn [fst snd reads_spot]).
    - split; [apply (NM (s2t "48") (s2t "5")); (discriminate || reflexivity)|].
      split; [exists (s2t "+"), (s2t "11"); split; [reflexivity|]; split; [tauto | constructor; apply DG; [discriminate | reflexivity]]|]. split; vm_compute; reflexivity.
    - eexists (Pos, _, _, _), (Pos, _, _, _). split; [|split; [|reflexivity]]; cbn [reads_dms fst snd d_letter d_deg d_min d_sec].
      + split; [left; reflexivity|]. split; [apply DG; [discriminate | reflexivity]|]. split; [apply DG; [discriminate | reflexivity]|].
        split; [apply (NM (s2t "13") (s2t "000")); (discriminate || reflexivity)|]. repeat split; vm_compute; reflexivity.
      + split; [right; left; reflexivity|]. split; [apply DG; [discriminate | reflexivity]|]. split; [apply DG; [discriminate | reflexivity]|].
        split; [apply (NM (s2t "09") (s2t "000")); (discriminate || reflexivity)|]. repeat split; vm_compute; reflexivity.
    - split; [apply WD; reflexivity|]. split; [apply UN; reflexivity | reflexivity].
    - split; [apply WD; reflexivity|]. split; [apply UN; reflexivity | reflexivity]. }
  destruct SS as [ss SS]. destruct topsky_dot_reads as [dot DOT].
  split; [discriminate|]. split; [|split].
  - eexists [AnOverride _; Ignored; AMapDef (mkMapDef _ [RFolder _; RColour _; RActive (AId _); RAndActive (AMap _ _ _); RSymbol (mkMapSymbol _ (LFix _) (Some (_, (_, _))) None);
      RFontSize (FMul _); RLine _; RText (mkMapText (LFix _) _ None)]); AColour _ (mkColour _ _ _ _); AStyle (mkLineStyleDef _ _ _ [_; _]); AColour _ (mkColour _ _ _ _); ASymbol dot].
    apply Forall2_cons; [|apply Forall2_cons; [|apply Forall2_cons; [|apply Forall2_cons; [|apply Forall2_cons; [|apply Forall2_cons; [|apply Forall2_cons; [|apply Forall2_nil]]]]]]].
    + cbn [reads_entry]. split; [apply FL; [reflexivity | apply TR; reflexivity]|]. split; [apply UR; reflexivity|]. split; [intros w E; injection E as <-; apply WD; reflexivity | reflexivity].
    + cbn [reads_entry]. apply WD; reflexivity.
    + cbn [reads_entry md_name md_rules]. split; [apply WD; reflexivity|]. split; [discriminate|]. split; [|split; [reflexivity|]].
      * intros a x y b E [X Y]. repeat (destruct a as [|? a]; [first [discriminate E | injection E as <- <- <-; contradiction]|]; first [discriminate E | injection E as _ E]).
      * apply Forall2_cons; [|apply Forall2_cons; [|apply Forall2_cons; [|apply Forall2_cons; [|apply Forall2_cons; [|apply Forall2_cons; [|apply Forall2_cons; [|apply Forall2_cons; [|apply Forall2_nil]]]]]]]]; cbn [reads_map_setting reads_condition].
        { split; [apply WD; reflexivity | reflexivity]. }
        { split; [apply WD; reflexivity|]. split; [constructor; [apply WD; reflexivity | constructor]|]. split; [cbn; auto | reflexivity]. }
        { split; [|reflexivity]. apply Forall_cons; [|apply Forall_cons; [|apply Forall_cons; [|apply Forall_cons; [|apply Forall_nil]]]]; intros l E; try discriminate E. injection E as <-.
          split; [|intros v; discriminate]. split; [discriminate|].
          apply Forall_cons; [|apply Forall_cons; [|apply Forall_nil]]; (split; [apply WD; reflexivity|]; apply Forall_forall; intros c I ->; cbn in I; repeat (destruct I as [I|I]; [discriminate I|]); contradiction). }
        { split; [apply FL; [reflexivity | apply TR; reflexivity]|]. split; [apply UR; reflexivity|]. split; [apply WD; reflexivity|]. auto. }
        { cbn [ms_name ms_loc ms_align ms_label]. split; [apply WD; reflexivity|]. split; [reflexivity|]. split; [apply FX; [apply WD; reflexivity | apply UN; reflexivity]|]. split; [reflexivity|].
          split; [apply WD; reflexivity|]. split; [reflexivity|].
          split; [exists (s2t "-"), (s2t "5"); split; [reflexivity|]; split; [tauto | constructor; apply DG; [discriminate | reflexivity]]|].
          split; [exists [], (s2t "2.5"); split; [reflexivity|]; split; [tauto | apply (numeral_point (s2t "2") (s2t "5")); [repeat constructor | apply DG; [discriminate | reflexivity]]]|].
          split; vm_compute; reflexivity. }
        { split; [exists [], (s2t ".5"); split; [reflexivity|]; split; [tauto | apply (numeral_point [] (s2t "5")); [constructor | apply DG; [discriminate | reflexivity]]]|].
          eexists. split; [vm_compute; reflexivity|]. right. right. right. left. reflexivity. }
        { exists ss. split; [exact SS | reflexivity]. }
        { cbn [mt_loc mt_content mt_align]. split; [apply FX; [apply WD; reflexivity | apply UN; reflexivity]|]. split; [|split; reflexivity].
          split; [discriminate|]. split; [apply Forall_forall; intros c I; cbn in I; repeat (destruct I as [<-|I]; [split; discriminate|]); contradiction|].
          split; [apply TR; reflexivity|]. split; [apply Forall_forall; intros c I; cbn in I; repeat (destruct I as [<-|I]; [discriminate|]); contradiction|].
          intros a b E. repeat (destruct a as [|? a]; [discriminate E|]; first [discriminate E | injection E as _ E]). }
    + cbn [reads_entry cr cg cb ca]. split; [apply WD; reflexivity|]. split; [reflexivity|].
      split; [apply Forall_cons; [|apply Forall_cons; [|apply Forall_cons; [|apply Forall_nil]]]; apply W0; (discriminate || reflexivity)|]. repeat split; vm_compute; reflexivity.
    + cbn [reads_entry ld_name ld_brush ld_hatch ld_dashes]. split; [apply Forall_cons; [|apply Forall_cons; [|apply Forall_cons; [|apply Forall_nil]]]; apply WD; reflexivity|].
      split; [reflexivity|]. split; [reflexivity|]. split; [reflexivity|]. apply Forall2_cons; [|apply Forall2_cons; [|apply Forall2_nil]]; (split; [apply W0; (discriminate || reflexivity) | vm_compute; reflexivity]).
    + cbn [reads_entry cr cg cb ca]. split; [apply WD; reflexivity|]. split; [reflexivity|].
      split; [apply Forall_cons; [|apply Forall_cons; [|apply Forall_cons; [|apply Forall_nil]]]; apply W0; (discriminate || reflexivity)|]. repeat split; vm_compute; reflexivity.
    + exact DOT.
  - intros a n l f m b E. repeat (destruct a as [|? a]; [discriminate E|]; first [discriminate E | injection E as _ E]).
  - assert (RM : forall b h c, blanks b -> In h [s2t ";"; s2t "//"] -> in_line c -> idle is_blank [s2t ";"; s2t "//"] (b ++ h ++ c)).
    { intros b h c B H C. right. exists b, h, c. auto. }
    assert (IL : forall w : text, forallb (fun c => negb ((c =? 10)%N || (c =? 13)%N)) w = true -> in_line w).
    { intros w H. rewrite forallb_forall in H. apply Forall_forall. intros c I. specialize (H c I). apply negb_true_iff in H. rewrite orb_false_iff, !N.eqb_neq in H. exact H. }
    assert (BL : blanks [32%N; 32%N] /\ blanks [32%N]) by (split; repeat constructor).
    destruct BL as [B2 B1]. exists (s2t "// made by hand" ++ [13; 10]%N ++ []). eexists. split; [|split; [apply idles_cons; [apply (RM [] (s2t "//")); [constructor | right; left; reflexivity | apply IL; reflexivity] | right; reflexivity | constructor]|]].
    2: { cbn [topsky_entries flat_map entry_lines setting_lines more_lines map app].
      apply (rows_cons false _ _ [] [] [13; 10]%N []); [constructor | auto | constructor | right; reflexivity | constructor|].
      apply (rows_cons false _ _ [] [] [10]%N ([] ++ [10]%N ++ [])); [constructor | auto | constructor | left; reflexivity | apply idles_cons; [left; constructor | left; reflexivity | constructor]|].
      apply (rows_cons false _ _ [] [] [10]%N []); [constructor | auto | constructor | left; reflexivity | constructor|].
      apply (rows_cons true _ _ [32; 32]%N [] [10]%N (s2t "  ; two" ++ [10]%N ++ [])); [exact B2 | auto | constructor | left; reflexivity | apply idles_cons; [apply (RM [32; 32]%N (s2t ";") (s2t " two")); [exact B2 | left; reflexivity | apply IL; reflexivity] | left; reflexivity | constructor]|].
      apply (rows_cons true _ _ [] [] [10]%N []); [constructor | auto | constructor | left; reflexivity | constructor|].
      apply (rows_cons true _ _ [] [32]%N [10]%N []); [constructor | auto | exact B1 | left; reflexivity | constructor|].
      apply (rows_cons true _ _ [] [] [10]%N []); [constructor | auto | constructor | left; reflexivity | constructor|].
      apply (rows_cons true _ _ [] [] [10]%N []); [constructor | auto | constructor | left; reflexivity | constructor|].
      apply (rows_cons true _ _ [] [] [10]%N []); [constructor | auto | constructor | left; reflexivity | constructor|].
      apply (rows_cons true _ _ [32]%N [] [10]%N []); [exact B1 | auto | constructor | left; reflexivity | constructor|].
      apply (rows_cons false _ _ [] [] [10]%N ([] ++ [10]%N ++ [])); [constructor | auto | constructor | left; reflexivity | apply idles_cons; [left; constructor | left; reflexivity | constructor]|].
      apply (rows_cons true _ _ [] [] [10]%N []); [constructor | auto | constructor | left; reflexivity | constructor|].
      apply (rows_cons false _ _ [] [] [10]%N []); [constructor | auto | constructor | left; reflexivity | constructor|].
      apply (rows_cons false _ _ [] [] [10]%N []); [constructor | auto | constructor | left; reflexivity | constructor|].
      apply (rows_cons false _ _ [] [] [10]%N []); [constructor | auto | constructor | left; reflexivity | constructor|].
      do 3 (apply (rows_cons false _ _ [] [] [10]%N []); [constructor | auto | constructor | left; reflexivity | constructor|]). apply rows_nil. }
    reflexivity.
Qed.

(** A file of symbols, each with its name and the rules to draw it on lines of their own, with empty lines and remarks between the lines, is read:
    of the symbols of the same name the last one counts, with the rules written, in order. *)
Theorem C83_symbols l ss t : l <> [] -> Forall2 (fun '(name, ds) s => reads_drawing name ds s) l ss -> symbols_layout l t ->
  exists m, parse_topsky_symbols t = Ret m /\ last_counts (map (fun s => (fst s, s)) ss) m.
Proof. intros N F L. eexists. split; [eapply symbols_text_reads; eassumption|]. intros k. apply get_of_list. Qed.
Print Assumptions C83_symbols.
Theorem C83_layout_irrelevant l ss t t' : l <> [] -> Forall2 (fun '(name, ds) s => reads_drawing name ds s) l ss -> symbols_layout l t -> symbols_layout l t' ->
  parse_topsky_symbols t = parse_topsky_symbols t'.
Proof. intros N F L L'. rewrite (symbols_text_reads l ss t N F L). symmetry. eapply symbols_text_reads; eassumption. Qed.
Print Assumptions C83_layout_irrelevant.
(** But the rules cannot be indented, as the settings of maps can: the file below is refused, although without the indentation it is read. *)
Theorem C83_indent_refuted : ~ forall a b, in_line a -> (exists m, parse_topsky_symbols (s2t "SYMBOL:" ++ a ++ [10]%N ++ b) = Ret m) ->
  exists m, parse_topsky_symbols (s2t "SYMBOL:" ++ a ++ [10; 32]%N ++ b) = Ret m.
Proof.
  intros H. destruct (H (s2t "A") (s2t "MOVETO:0:0")) as [m E]; [repeat constructor; discriminate | eexists; vm_compute; reflexivity | vm_compute in E; discriminate E].
Qed.
Print Assumptions C83_indent_refuted.
Example C83_nonvacuous : exists ss, Forall2 (fun '(name, ds) s => reads_drawing name ds s) [topsky_dot; topsky_dot] ss /\
  symbols_layout [topsky_dot; topsky_dot] (s2t "; x" ++ [10]%N ++ s2t "SYMBOL:Dot" ++ [10]%N ++ s2t "MOVETO:0:-1" ++ [10]%N ++ s2t "LINETO:4 0 " ++ [13; 10; 10]%N
    ++ s2t "SYMBOL:Dot" ++ [10]%N ++ s2t "MOVETO:0:-1" ++ [10]%N ++ s2t "LINETO:4 0" ++ [10]%N).
Proof.
  destruct topsky_dot_reads as [dot DOT]. exists [dot; dot]. split; [apply Forall2_cons; [exact DOT|]; apply Forall2_cons; [exact DOT | apply Forall2_nil]|].
  exists (s2t "; x" ++ [10]%N ++ []). eexists. split; [|split; [apply idles_cons; [|left; reflexivity | constructor]|]].
  3: { cbn [topsky_dot flat_map drawing_lines map app].
    do 2 (apply (rows_cons false _ _ [] [] [10]%N []); [constructor | auto | constructor | left; reflexivity | constructor|]).
    apply (rows_cons false _ _ [] [32]%N [13; 10]%N ([] ++ [10]%N ++ [])); [constructor | auto | repeat constructor | right; reflexivity | apply idles_cons; [left; constructor | left; reflexivity | constructor]|].
    do 3 (apply (rows_cons false _ _ [] [] [10]%N []); [constructor | auto | constructor | left; reflexivity | constructor|]). apply rows_nil. }
  - reflexivity.
  - right. exists [], (s2t ";"), (s2t " x"). split; [reflexivity|]. split; [constructor|]. split; [left; reflexivity|]. repeat constructor; discriminate.
Qed.
