(** C44 C58 C59 C47: TopSky files. *)
From Verif Require Import Base Num Float FloatParse Dms Decode Colours Settings Locations Maps Peg Grammars SpecPeg Trees SpecPairs PairsProofs Verdict SpecKeyed SpecSymbol TopskyParse SpecTopsky TopskyProofs TopskyFileProofs.
Local Open Scope string_scope.
Local Open Scope list_scope.

Definition tk_lines (l : list string) : list N := flat_map (fun s => s2t s ++ [13; 10]%N) l.
Definition ts_settings : list N := tk_lines [
  "// settings"; "Color_Background=1,2,3"; "Airport=EDDM"; "Color_Active=4,5,600"; "Color_Border=7,8,9"; "Airport=EDDF"; "Color_Border=10,11,12"; "[EDMM_N_CTR]"; "Airport=EDDN"; "Color_Background=13,14,15"].
Definition ts_symbols : list N := tk_lines ["SYMBOL:NDB"; "MOVETO:-3:-3"; "LINETO:3:-3.5"; "SYMBOL:VOR"; "SETPIXEL:0:0"; "SYMBOL:NDB"; "ARC:0:0:3:-450:720"; "POLYGON:0:0:1:1:1:0"].
Definition ts_maps : list N := tk_lines [
  "OVERRIDE_SCT_MAP:GEO\Munich"; "COLORDEF:Border:20:21:22"; "COLORDEF:Own:30:31:32"; "LINESTYLEDEF:Dots:a:b:1,2,3"; "SYMBOLDEF:VOR"; "FILLRECT:0:0:1:2"; "COLORDEF:Own:40:41:42";
  "MAP:One"; "FOLDER:Fixes"; "COLOR:Own:Border"; "ASRDATA:A,B"; "ACTIVE:ID:*:X:M,N:*"; "AND_ACTIVE:RWY:ARR:EDDM08L,EDDM08R:DEP:*"; "LAYER:-2"; "SYMBOL/LC:VOR:N048.21.13.6:E011.47.09.9:Label:3:-4.5"; "ZOOM:2.5"; "FONTSIZE:+:1.5"; "STYLE:Dots:2";
  "LINE:48.5:11.5:49:12"; "LINE:49:12:50:13"; "LINE:A:B"; "TEXT:MAH:Maisach // a comment"; "TEXTALIGN:LC"; "COORD:DKB"; "COORDPOLY:50"; "MAP:Two"; "HIDDEN"; "MAP:One"; "GLOBAL"].
(** one decimal coordinate and one in degrees, minutes and seconds; a colour beyond a byte; a negative one; an angle beyond 64 bits *)
Definition ts_ruin1 : list N := tk_lines ["MAP:One"; "COORD:48.5:E011.47.09.9"].
Definition ts_ruin2 : list N := tk_lines ["COLORDEF:Own:256:0:0"].
Definition ts_ruin3 : list N := tk_lines ["COLORDEF:Own:-1:0:0"].
Definition ts_ruin4 : list N := tk_lines ["SYMBOL:A"; "ARC:0:0:3:9223372036854775808:0"].
Definition ts_upper (s : text) : text := map (fun c => if (andb (97 <=? c) (c <=? 122))%N then (c - 32)%N else c) s.

(** A colour is that of the last definition of its name in the settings followed by the maps, so definitions in the maps come first. *)
Theorem C44_colours upper sb yf mb r ks km :
  parsed topsky_settings_grammar "settings" (read_to_string sb) ks -> parsed topsky_grammar "maps" (read_to_string mb) km -> parse_topsky upper (Some sb) yf (Some mb) = Ret r ->
  forall name, match get name (tk_colours r) with
    | Some c => exists p, last_keyed names_colour (of_rule "colour_setting" ks ++ of_rule "colourdef" km) name p /\ reads_colour p c
    | None => Forall (fun p => ~ names_colour p name) (of_rule "colour_setting" ks ++ of_rule "colourdef" km)
    end.
Proof.
  intros PS PM E. destruct (topsky_parts _ _ _ _ _ E) as [sb' [mb' [_ [ky [_ [_ [_ [_ [PY _]]]]]]]]].
  destruct (topsky_ok upper sb yf mb ks ky km PS PY PM) as [[_ [v [E' R]]]|[_ E']]; rewrite E in E'; [|discriminate]. injection E' as <-. apply R.
Qed.
Print Assumptions C44_colours.
(** The same for symbols in the symbols file and the maps. *)
Theorem C44_symbols upper sf yb mb r ky km :
  parsed topsky_grammar "symbols" (read_to_string yb) ky -> parsed topsky_grammar "maps" (read_to_string mb) km -> parse_topsky upper sf (Some yb) (Some mb) = Ret r ->
  forall name, match get name (tk_symbols r) with
    | Some s => exists p, last_keyed names_symbol (of_rule "symbol" ky ++ of_rule "symboldef" km) name p /\ reads_symbol p s
    | None => Forall (fun p => ~ names_symbol p name) (of_rule "symbol" ky ++ of_rule "symboldef" km)
    end.
Proof.
  intros PY PM E. destruct (topsky_parts _ _ _ _ _ E) as [sb [_ [ks [_ [_ [-> [_ [PS _]]]]]]]].
  destruct (topsky_ok upper sb (Some yb) mb ks ky km PS PY PM) as [[_ [v [E' R]]]|[_ E']]; rewrite E in E'; [|discriminate]. injection E' as <-. apply R.
Qed.
Print Assumptions C44_symbols.
(** Without a symbols file the symbols are those of the maps. *)
Theorem C44_symbols_missing upper sf mb r km :
  parsed topsky_grammar "maps" (read_to_string mb) km -> parse_topsky upper sf None (Some mb) = Ret r ->
  forall name, match get name (tk_symbols r) with
    | Some s => exists p, last_keyed names_symbol (of_rule "symboldef" km) name p /\ reads_symbol p s
    | None => Forall (fun p => ~ names_symbol p name) (of_rule "symboldef" km)
    end.
Proof.
  intros PM E. destruct (topsky_parts _ _ _ _ _ E) as [sb [_ [ks [_ [_ [-> [_ [PS _]]]]]]]].
  destruct (topsky_ok upper sb None mb ks [] km PS eq_refl PM) as [[_ [v [E' R]]]|[_ E']]; rewrite E in E'; [|discriminate]. injection E' as <-. apply R.
Qed.
Print Assumptions C44_symbols_missing.

(** The maps, line styles and overrides of the maps file: the maps and overrides in order, every map with all its rules in order, the last line style with a name. *)
Theorem C58_maps upper sf yf mb r km : parsed topsky_grammar "maps" (read_to_string mb) km -> parse_topsky upper sf yf (Some mb) = Ret r ->
  Forall2 (reads_map upper) (of_rule "map" km) (tk_maps r) /\ Forall2 reads_override (of_rule "override_sct" km) (tk_overrides r) /\
  forall name, match get name (tk_styles r) with
    | Some s => exists p, last_keyed names_style (of_rule "linestyledef" km) name p /\ reads_style_def p s
    | None => Forall (fun p => ~ names_style p name) (of_rule "linestyledef" km)
    end.
Proof.
  intros PM E. destruct (topsky_parts _ _ _ _ _ E) as [sb [_ [ks [ky [_ [-> [_ [PS [PY _]]]]]]]]].
  destruct (topsky_ok upper sb yf mb ks ky km PS PY PM) as [[_ [v [E' [_ [_ [_ [A [B C]]]]]]]]|[_ E']]; rewrite E in E'; [|discriminate]. injection E' as <-. auto.
Qed.
Print Assumptions C58_maps.
(** The names of areas that a NOTAM or the airspace use plan activates are not separated. *)
Theorem C58_active_refuted upper : exists m, parse_topsky_maps upper (read_to_string (tk_lines ["MAP:One"; "ACTIVE:AREA:A,B"; "ACTIVE:AUP:A,B"; "ACTIVE:NOTAM:EDDM:A,B"])) = Ret m /\
  map md_rules (tm_maps m) = [[RActive (AArea (mkActiveAreas [s2t "A"; s2t "B"] None)); RActive (AAup [s2t "A,B"]); RActive (ANotam (s2t "EDDM") [s2t "A,B"])]].
Proof. eexists. split; [vm_compute; reflexivity | reflexivity]. Qed.
Print Assumptions C58_active_refuted.
(** An override below a map is taken for one of its rules and dropped. *)
Theorem C58_override_refuted upper : exists m n,
  parse_topsky_maps upper (read_to_string (tk_lines ["OVERRIDE_SCT_MAP:GEO\Munich"; "MAP:One"; "GLOBAL"])) = Ret m /\ tm_overrides m = [(s2t "GEO", Some (s2t "Munich"))] /\
  parse_topsky_maps upper (read_to_string (tk_lines ["MAP:One"; "GLOBAL"; "OVERRIDE_SCT_MAP:GEO\Munich"])) = Ret n /\ tm_overrides n = [].
Proof. eexists _, _. split; [vm_compute; reflexivity|]. split; [reflexivity|]. split; [vm_compute; reflexivity | reflexivity]. Qed.
Print Assumptions C58_override_refuted.

(** The settings: the last value of every name before the sections. *)
Theorem C59_settings upper sb yf mf r ks : parsed topsky_settings_grammar "settings" (read_to_string sb) ks -> parse_topsky upper (Some sb) yf mf = Ret r ->
  forall name, match get name (tk_settings r) with
    | Some v => exists p, last_keyed names_setting (of_rule "other_setting" ks) name p /\ field "setting_value" p v
    | None => Forall (fun p => ~ names_setting p name) (of_rule "other_setting" ks)
    end.
Proof.
  intros PS E. destruct (topsky_parts _ _ _ _ _ E) as [_ [mb [_ [ky [km [_ [-> [_ [PY PM]]]]]]]]].
  destruct (topsky_ok upper sb yf mb ks ky km PS PY PM) as [[_ [v [E' R]]]|[_ E']]; rewrite E in E'; [|discriminate]. injection E' as <-. apply R.
Qed.
Print Assumptions C59_settings.
(** Settings of sections are not read. *)
Theorem C59_sections_refuted : parse_topsky_settings (read_to_string (tk_lines ["Airport=EDDM"; "[EDMM_N_CTR]"; "Radar=MUC"])) = Ret ([], [(s2t "Airport", s2t "EDDM")]).
Proof. vm_compute. reflexivity. Qed.
Print Assumptions C59_sections_refuted.

(** Reading succeeds exactly if the angles of symbols fit into 64 bits, the colours of the maps into bytes and no coordinate is half decimal and half in degrees, minutes and seconds; otherwise it panics. *)
Theorem C47_topsky upper sb yb mb ks ky km :
  parsed topsky_settings_grammar "settings" (read_to_string sb) ks -> parsed topsky_grammar "symbols" (read_to_string yb) ky -> parsed topsky_grammar "maps" (read_to_string mb) km ->
  (symbols_fit ky /\ maps_fit km -> exists r, parse_topsky upper (Some sb) (Some yb) (Some mb) = Ret r) /\
  (~ (symbols_fit ky /\ maps_fit km) -> parse_topsky upper (Some sb) (Some yb) (Some mb) = Panic).
Proof. intros PS PY PM. destruct (topsky_ok upper sb (Some yb) mb ks ky km PS PY PM) as [[F [v [E _]]]|[F E]]; split; intros H; try contradiction; eauto. Qed.
Print Assumptions C47_topsky.
(** Settings never panic. *)
Theorem C47_topsky_settings t : parse_topsky_settings t <> Panic.
Proof.
  destruct (top_cases 13 "topsky_settings" topsky_settings_grammar "settings" eq_refl ltac:(eexists; reflexivity) t) as [[ks [P _]]|[U _]].
  - destruct (settings_file_ok t ks P) as [r [-> _]]. discriminate.
  - rewrite (settings_err t U). discriminate.
Qed.
Print Assumptions C47_topsky_settings.
(** Missing settings or maps, texts that are not settings, symbols or maps: errors, unless the symbols panic first. *)
Theorem C47_topsky_rejects upper sf yf mf :
  (forall b, sf = Some b -> unparsed topsky_settings_grammar "settings" (read_to_string b)) \/
  (exists b, yf = Some b /\ unparsed topsky_grammar "symbols" (read_to_string b)) \/
  (forall b, mf = Some b -> unparsed topsky_grammar "maps" (read_to_string b)) /\ (forall b ky, yf = Some b -> parsed topsky_grammar "symbols" (read_to_string b) ky -> symbols_fit ky) ->
  parse_topsky upper sf yf mf = Err.
Proof.
  unfold parse_topsky. destruct sf as [sb|]; [|reflexivity].
  destruct (top_cases 13 "topsky_settings" topsky_settings_grammar "settings" eq_refl ltac:(eexists; reflexivity) (read_to_string sb)) as [[ks [PS _]]|[U _]]; [|rewrite (settings_err _ U); reflexivity].
  destruct (settings_file_ok _ _ PS) as [[colours settings] [-> _]]. cbn [obind]. intros [H|[[b [-> U]]|[M Y]]].
  - contradiction (parsed_not _ _ _ _ PS (H sb eq_refl)).
  - rewrite (symbols_err _ U). reflexivity.
  - assert (X : match yf with Some b => parse_topsky_symbols (read_to_string b) | None => Ret [] end <> Panic).
    { destruct yf as [b|]; [|discriminate]. destruct (top_cases 11 "topsky_symbols" topsky_grammar "symbols" eq_refl ltac:(eexists; reflexivity) (read_to_string b)) as [[ky [PY _]]|[U _]].
      - destruct (symbols_file_ok _ _ PY) as [[_ [v [-> _]]]|[F _]]; [discriminate | contradiction F; exact (Y b ky eq_refl PY)].
      - rewrite (symbols_err _ U). discriminate. }
    destruct (match yf with Some b => parse_topsky_symbols (read_to_string b) | None => Ret [] end) as [y| |]; [|reflexivity|congruence]. cbn [obind].
    destruct mf as [mb|]; [|reflexivity]. rewrite (maps_err upper _ (M mb eq_refl)). reflexivity.
Qed.
Print Assumptions C47_topsky_rejects.
Theorem C47_topsky_refuted upper :
  parse_topsky_maps upper (read_to_string ts_ruin1) = Panic /\ parse_topsky_maps upper (read_to_string ts_ruin2) = Panic /\ parse_topsky_maps upper (read_to_string ts_ruin3) = Panic /\
  parse_topsky_symbols (read_to_string ts_ruin4) = Panic.
Proof. repeat split; vm_compute; reflexivity. Qed.
Print Assumptions C47_topsky_refuted.

Example C44_nonvacuous : exists ks ky km r, parsed topsky_settings_grammar "settings" (read_to_string ts_settings) ks /\ parsed topsky_grammar "symbols" (read_to_string ts_symbols) ky /\
  parsed topsky_grammar "maps" (read_to_string ts_maps) km /\ parse_topsky ts_upper (Some ts_settings) (Some ts_symbols) (Some ts_maps) = Ret r /\
  (List.length (of_rule "colour_setting" ks) = 4%nat /\ List.length (of_rule "symbol" ky) = 3%nat /\ List.length (of_rule "colourdef" km) = 3%nat) /\
  map (fun x => (fst x, snd (snd x))) (tk_colours r) =
    [(s2t "Background", mkColour 1 2 3 255); (s2t "Border", mkColour 20 21 22 255); (s2t "Own", mkColour 40 41 42 255)] /\
  map (fun x => (fst x, List.length (snd (snd x)))) (tk_symbols r) = [(s2t "NDB", 2%nat); (s2t "VOR", 1%nat)] /\
  tk_settings r = [(s2t "Airport", s2t "EDDF")] /\ map fst (tk_styles r) = [s2t "Dots"] /\ tk_overrides r = [(s2t "GEO", Some (s2t "Munich"))] /\
  map (fun m => (md_name m, List.length (md_rules m))) (tk_maps r) = [(s2t "One", 14%nat); (s2t "Two", 1%nat); (s2t "One", 1%nat)].
Proof.
  destruct (top_cases 13 "topsky_settings" topsky_settings_grammar "settings" eq_refl ltac:(eexists; reflexivity) (read_to_string ts_settings)) as [[ks [PS ES]]|[_ E]]; [|vm_compute in E; discriminate].
  destruct (top_cases 11 "topsky_symbols" topsky_grammar "symbols" eq_refl ltac:(eexists; reflexivity) (read_to_string ts_symbols)) as [[ky [PY EY]]|[_ E]]; [|vm_compute in E; discriminate].
  destruct (top_cases 12 "topsky_maps" topsky_grammar "maps" eq_refl ltac:(eexists; reflexivity) (read_to_string ts_maps)) as [[km [PM EM]]|[_ E]]; [|vm_compute in E; discriminate].
  exists ks, ky, km. destruct (topsky_ok ts_upper ts_settings (Some ts_symbols) ts_maps ks ky km PS PY PM) as [[_ [r [X R]]]|[_ X]]; [|vm_compute in X; discriminate]. clear R. exists r.
  split; [exact PS|]. split; [exact PY|]. split; [exact PM|]. split; [exact X|]. clear PS PY PM.
  split. { vm_compute in ES. injection ES as <-. vm_compute in EY. injection EY as <-. vm_compute in EM. injection EM as <-. repeat split; reflexivity. }
  clear ES EY EM. vm_compute in X. injection X as <-. repeat split; vm_compute; reflexivity.
Qed.
Example C58_nonvacuous : exists km m, parsed topsky_grammar "maps" (read_to_string ts_maps) km /\ parse_topsky_maps ts_upper (read_to_string ts_maps) = Ret m /\
  List.length (of_rule "map" km) = 3%nat /\
  exists rules rest, map md_rules (tm_maps m) = (RFolder (s2t "Fixes") :: RColour (s2t "Own") :: RAsrData (Some [s2t "A"; s2t "B"]) ::
    RActive (AId (mkActiveIds None (Some [s2t "X"]) (Some [s2t "M"; s2t "N"]) None)) ::
    RAndActive (ARunway (mkActiveRunways (Some [mkRunwayId (s2t "EDDM") (s2t "08L"); mkRunwayId (s2t "EDDM") (s2t "08R")]) None None None)) :: rules) :: rest /\
    In (RText (mkMapText (LFix (s2t "MAH")) (s2t "Maisach") None)) rules /\ In (RLineStyle (mkLineStyle 2 (s2t "DOTS"))) rules /\ In (RCoordPoly (s2t "50")) rules /\
    rest = [[RHidden]; [RGlobal]].
Proof.
  destruct (top_cases 12 "topsky_maps" topsky_grammar "maps" eq_refl ltac:(eexists; reflexivity) (read_to_string ts_maps)) as [[km [PM EM]]|[_ E]]; [|vm_compute in E; discriminate].
  exists km. destruct (maps_file_ok ts_upper (read_to_string ts_maps) km PM) as [[_ [m [X R]]]|[_ X]]; [|vm_compute in X; discriminate]. clear R. exists m.
  split; [exact PM|]. split; [exact X|]. clear PM. vm_compute in EM. injection EM as <-. split; [reflexivity|]. vm_compute in X. injection X as <-.
  eexists _, _. split; [reflexivity|]. split; [cbn; tauto|]. split; [cbn; tauto|]. split; [cbn; tauto | reflexivity].
Qed.
Example C47_topsky_nonvacuous : exists ks ky km, parsed topsky_settings_grammar "settings" (read_to_string ts_settings) ks /\ parsed topsky_grammar "symbols" (read_to_string ts_symbols) ky /\
  parsed topsky_grammar "maps" (read_to_string ts_ruin1) km /\ symbols_fit ky /\ ~ maps_fit km.
Proof.
  destruct (top_cases 13 "topsky_settings" topsky_settings_grammar "settings" eq_refl ltac:(eexists; reflexivity) (read_to_string ts_settings)) as [[ks [PS _]]|[_ E]]; [|vm_compute in E; discriminate].
  destruct (top_cases 11 "topsky_symbols" topsky_grammar "symbols" eq_refl ltac:(eexists; reflexivity) (read_to_string ts_symbols)) as [[ky [PY _]]|[_ E]]; [|vm_compute in E; discriminate].
  destruct (top_cases 12 "topsky_maps" topsky_grammar "maps" eq_refl ltac:(eexists; reflexivity) (read_to_string ts_ruin1)) as [[km [PM _]]|[_ E]]; [|vm_compute in E; discriminate].
  exists ks, ky, km. split; [exact PS|]. split; [exact PY|]. split; [exact PM|]. split.
  - destruct (symbols_file_ok _ _ PY) as [[F _]|[_ X]]; [exact F | vm_compute in X; discriminate].
  - destruct (maps_file_ok ts_upper _ _ PM) as [[_ [m [X _]]]|[F _]]; [vm_compute in X; discriminate | exact F].
Qed.
