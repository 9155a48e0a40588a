(** Model of src/topsky: settings.rs, symbol.rs, map/mod.rs and map/active.rs, after [read_to_string] (Decode.v), and [Topsky::parse].
    Warnings are not modelled.  [str::to_uppercase] is the argument [upper]. *)
From Verif Require Import Base Num Float FloatParse Dms Decode Colours Settings Locations Maps Lines Peg Grammars Trees SymbolParse.
Local Open Scope string_scope.
Local Open Scope list_scope.

(** map/mod.rs:321-325 [ColourDef], symbol.rs:13-17 [SymbolDef], map/mod.rs:327-333 [LineStyleDef] *)
Definition colour_def := (text * colour)%type.
Definition symbol_def := (text * symbol)%type.
Record line_style_def := mkLineStyleDef { ld_name : text; ld_brush : text; ld_hatch : text; ld_dashes : list f32 }.

(** ** Settings *)

(** settings.rs:17-20 [Setting] *)
Inductive setting := SetColour (c : colour_def) | SetOther (key val : text).
(** settings.rs:41-47 [parse_colour]; the inner [None] is the error *)
Definition setting_colour (pair : tree) : outcome (option colour) :=
  let colour := kids_of pair in
  do (p, colour) <- next colour;
  match parse_u8 (text_of p) with
  | None => Ret None
  | Some r =>
    do (p, colour) <- next colour;
    match parse_u8 (text_of p) with
    | None => Ret None
    | Some g =>
      do (p, _) <- next colour;
      match parse_u8 (text_of p) with None => Ret None | Some b => Ret (Some (from_rgb r g b)) end
    end
  end.
(** settings.rs:49-71 [parse_setting] *)
Definition parse_setting (pair : tree) : outcome (option setting) :=
  if is_rule pair "colour_setting" then
    do (p, symbol) <- next (kids_of pair); let name := text_of p in
    match symbol with
    | [] => Ret None
    | rgb :: _ => do c <- setting_colour rgb; Ret (match c with Some c => Some (SetColour (name, c)) | None => None end)
    end
  else if is_rule pair "other_setting" then
    do (p, setting) <- next (kids_of pair); let name := text_of p in
    do (p, _) <- next setting; Ret (Some (SetOther name (text_of p)))
  else if is_rule pair "section" || is_rule pair "EOI" then Ret None
  else Panic.
(** settings.rs:84-95: the body of the fold *)
Definition setting_step (acc : list (text * colour_def) * list (text * text)) (s : setting) : list (text * colour_def) * list (text * text) :=
  match s with
  | SetColour c => (put (fst c) c (fst acc), snd acc)
  | SetOther k v => (fst acc, put k v (snd acc))
  end.
(** settings.rs:73-100 [parse_topsky_settings] *)
Definition parse_topsky_settings (t : text) : outcome (list (text * colour_def) * list (text * text)) :=
  do kids <- top topsky_settings_grammar "settings" t;
  do l <- omap parse_setting kids;
  Ret (fold_left setting_step (filter_map (fun o => o) l) ([], [])).

(** ** Symbols *)

(** symbol.rs:103-116 [parse_symbol] *)
Definition parse_symbol (pair : tree) : outcome (option symbol_def) :=
  if is_rule pair "symbol" || is_rule pair "symboldef" then
    do (p, symbol) <- next (kids_of pair); let name := text_of p in
    do rules <- omap parse_symbol_rule symbol; Ret (Some (name, rules))
  else if is_rule pair "EOI" then Ret None
  else Panic.
(** symbol.rs:118-133 [parse_topsky_symbols] *)
Definition parse_topsky_symbols (t : text) : outcome (list (text * symbol_def)) :=
  do kids <- top topsky_grammar "symbols" t;
  do l <- omap parse_symbol kids;
  Ret (put_all (map (fun s => (fst s, s)) (filter_map (fun o => o) l)) []).

(** ** Maps *)

(** map/mod.rs:25-52 [CoordinatePart::parse] *)
Inductive coord_part := CDecimal (x : f64) | CDms (d : deg_min_sec).
Definition parse_coord_part (pair : tree) : outcome coord_part :=
  do (c, _) <- next (kids_of pair);
  if is_rule c "decimal" then do x <- unwrap (parse_f64 (text_of c)); Ret (CDecimal x)
  else if is_rule c "sct_coord_part" then
    let part := kids_of c in
    do (p, part) <- next part; do sign <- hemi_from (text_of p);
    do (p, part) <- next part; do degrees <- unwrap (parse_u16 (text_of p));
    do (p, part) <- next part; do min <- unwrap (parse_u8 (text_of p));
    do (p, _) <- next part; do sec <- unwrap (parse_f64 (text_of p));
    Ret (CDms (sign, degrees, min, sec))
  else Panic.
(** map/mod.rs:54-65 [parse_coord] *)
Definition parse_coord (pair : tree) : outcome point :=
  let coordinate := kids_of pair in
  do (p, coordinate) <- next coordinate; do lat <- parse_coord_part p;
  do (p, _) <- next coordinate; do lng <- parse_coord_part p;
  match lat, lng with
  | CDecimal y, CDecimal x => Ret (x, y)
  | CDms lat, CDms lng => Ret (from_deg_min_sec lat lng)
  | _, _ => Panic
  end.
(** map/mod.rs:67-75 [Location::parse] *)
Definition parse_location (pair : tree) : outcome location :=
  if is_rule pair "colon_delimited_text" then Ret (LFix (text_of pair))
  else if is_rule pair "coordinate" then do c <- parse_coord pair; Ret (LCoord c)
  else Panic.
(** map/mod.rs:91-117 [MapSymbol::parse] *)
Definition parse_map_symbol (pair : tree) : outcome map_symbol :=
  do (first, symbol) <- next (kids_of pair);
  do (name, symbol) <- (if is_rule first "textalign_config" then do (p, symbol) <- next symbol; Ret (text_of p, symbol) else Ret (text_of first, symbol));
  do (p, symbol) <- next symbol; do location <- parse_location p;
  do label <- match symbol with
    | [] => Ret None
    | label_pair :: _ =>
      do (p, label_pairs) <- next (kids_of label_pair); let content := text_of p in
      do (p, _) <- next label_pairs; do pos <- parse_point p; Ret (Some (content, pos))
    end;
  Ret (mkMapSymbol name location label None).
(** map/mod.rs:126-145 [Text::parse] *)
Definition parse_map_text (pair : tree) : outcome map_text :=
  do (first, text_) <- next (kids_of pair);
  do (place, text_) <- (if is_rule first "textalign_config" then next text_ else Ret (first, text_));
  do location <- parse_location place;
  do (p, _) <- next text_;
  Ret (mkMapText location (text_of p) None).
(** map/mod.rs:157-174 [FontSize::parse] *)
Definition parse_font_size (pair : tree) : outcome font_size :=
  do (first, fontsize) <- next (kids_of pair);
  if is_rule first "fontsize_default" then Ret FDefault
  else
    do (p, _) <- next fontsize; do size <- unwrap (parse_f32 (text_of p));
    if eqb (text_of first) (s2t "=") then Ret (FExact size)
    else if eqb (text_of first) (s2t "+") then Ret (FAdd size)
    else if eqb (text_of first) (s2t "-") then Ret (FSub size)
    else if eqb (text_of first) (s2t "*") then Ret (FMul size)
    else Panic.
Section upper.
  Variable upper : text -> text.
  (** map/mod.rs:176-187 [LineStyle::parse]; the width is an i32 (line_styles.rs:16) *)
  Definition parse_line_style (pair : tree) : outcome line_style :=
    do (p, linestyle) <- next (kids_of pair); let style := upper (text_of p) in
    let width := match linestyle with w :: _ => match parse_i32 (text_of w) with Some w => w | None => 1%Z end | [] => 1%Z end in
    Ret (mkLineStyle width style).
End upper.
(** map/mod.rs:194-222 [MapLine::parse]; the merging is [merge_lines] (Lines.v) *)
Definition parse_segment (pair : tree) : outcome (location * location) :=
  let line := kids_of pair in
  do (p, line) <- next line; do start <- parse_location p;
  do (p, _) <- next line; do end_ <- parse_location p;
  Ret (start, end_).
Definition parse_map_lines (pair : tree) : outcome (list (list location)) := do segs <- omap parse_segment (kids_of pair); Ret (merge_lines segs).

(** *** Activation conditions: map/active.rs *)

(** active.rs:8-15 [RunwayIdentifier::parse] *)
Definition parse_runway_id (pair : tree) : outcome runway_id :=
  do (p, rwy) <- next (kids_of pair); do (q, _) <- next rwy; Ret (mkRunwayId (text_of p) (text_of q)).
(** active.rs:32-42 [ActiveIds::parse_value], map/mod.rs:260-271: the same match *)
Definition parse_names (pair : tree) : outcome (option (list text)) :=
  if is_rule pair "wildcard" then Ret None
  else if is_rule pair "names" then Ret (Some (map text_of (kids_of pair)))
  else Panic.
(** active.rs:18-30 [ActiveIds::parse] *)
Definition parse_active_ids (pair : tree) : outcome active_ids :=
  let active := kids_of pair in
  do (p, active) <- next active; do own <- parse_names p;
  do (p, active) <- next active; do own_excludes <- parse_names p;
  do (p, active) <- next active; do online <- parse_names p;
  do (p, _) <- next active; do online_excludes <- parse_names p;
  Ret (mkActiveIds own own_excludes online online_excludes).
(** active.rs:72-78 [ActiveRunways::parse_value] *)
Definition parse_runways (pair : tree) : outcome (option (list runway_id)) :=
  if is_rule pair "wildcard" then Ret None
  else if is_rule pair "runways" then do l <- omap parse_runway_id (kids_of pair); Ret (Some l)
  else Panic.
(** active.rs:46-56 [ActiveRunways::parse] *)
Definition parse_active_runways (pair : tree) : outcome active_runways :=
  let active := kids_of pair in
  do (p, active) <- next active; do arrival <- parse_runways p;
  do (p, _) <- next active; do departure <- parse_runways p;
  Ret (mkActiveRunways arrival None departure None).
(** active.rs:58-70 [ActiveRunways::parse_with_excludes] *)
Definition parse_runways_excludes (pair : tree) : outcome active_runways :=
  let active := kids_of pair in
  do (p, active) <- next active; do arrival <- parse_runways p;
  do (p, active) <- next active; do arrival_excludes <- parse_runways p;
  do (p, active) <- next active; do departure <- parse_runways p;
  do (p, _) <- next active; do departure_excludes <- parse_runways p;
  Ret (mkActiveRunways arrival arrival_excludes departure departure_excludes).
(** active.rs:82-94 [ActiveAreas::parse] *)
Definition parse_areas (pair : tree) : outcome active_areas :=
  do (p, _) <- next (kids_of pair); Ret (mkActiveAreas (map text_of (kids_of p)) None).
(** active.rs:96-116 [ActiveAreas::parse_with_excludes] *)
Definition parse_areas_excludes (pair : tree) : outcome active_areas :=
  do (p, active) <- next (kids_of pair); do (q, _) <- next active;
  Ret (mkActiveAreas (map text_of (kids_of p)) (Some (map text_of (kids_of q)))).
(** active.rs:119-162 [Active::parse] *)
Definition parse_active (pair : tree) : outcome active :=
  do (active, _) <- next (kids_of pair);
  let is := is_rule active in
  if is "active_always" then Ret ATrue
  else if is "active_id" then do a <- parse_active_ids active; Ret (AId a)
  else if is "active_callsign" then do a <- parse_active_ids active; Ret (ACallsign a)
  else if is "active_aup" then Ret (AAup (map text_of (kids_of active)))
  else if is "active_notam" then do (p, rest) <- next (kids_of active); Ret (ANotam (text_of p) (map text_of rest))
  else if is "active_area" then do a <- parse_areas active; Ret (AArea a)
  else if is "active_area_with_excludes" then do a <- parse_areas_excludes active; Ret (AArea a)
  else if is "active_sched" then Ret ASchedule
  else if is "active_rwy" then do a <- parse_active_runways active; Ret (ARunway a)
  else if is "active_rwy_with_excludes" then do a <- parse_runways_excludes active; Ret (ARunway a)
  else if is "active_map" then
    do (p, active_map) <- next (kids_of active);
    do op <- (if eqb (text_of p) (s2t "!") then Ret false else if eqb (text_of p) (s2t "=") then Ret true else Panic);
    do (p, active_map) <- next active_map; let folder := text_of p in
    do (p, _) <- next active_map;
    Ret (AMap op folder (text_of p))
  else Panic.

(** *** Map rules *)

(** the text of the first inner pair, a number in it *)
Definition first_text (pair : tree) : outcome text := do (p, _) <- next (kids_of pair); Ret (text_of p).
Definition first_f32 (pair : tree) : outcome f32 := do s <- first_text pair; unwrap (parse_f32 s).
(** map/mod.rs:296-304: the rules that are not implemented *)
Definition ignored_rules : list string :=
  ["circle"; "fontstyle"; "textalign"; "override_sct"; "sctfiledata"; "sctdata"; "coord_af"; "coord_hm"; "coord_pbd"].
(** map/mod.rs:247-313 [MapRule::parse]: the closure *)
Definition parse_map_rule (upper : text -> text) (pair : tree) : outcome (option Maps.rule) :=
  let is := is_rule pair in
  if is "folder" then do s <- first_text pair; Ret (Some (RFolder s))
  else if is "colour" then do s <- first_text pair; Ret (Some (RColour s))
  else if is "asrdata" then do (p, _) <- next (kids_of pair); do l <- parse_names p; Ret (Some (RAsrData l))
  else if is "active" then do a <- parse_active pair; Ret (Some (RActive a))
  else if is "andactive" then do a <- parse_active pair; Ret (Some (RAndActive a))
  else if is "layer" then do x <- first_f32 pair; Ret (Some (RLayer x))
  else if is "mapsymbol" then do s <- parse_map_symbol pair; Ret (Some (RSymbol s))
  else if is "fontsize" then do f <- parse_font_size pair; Ret (Some (RFontSize f))
  else if is "zoom" then do x <- first_f32 pair; Ret (Some (RZoom x))
  else if is "style" then do s <- parse_line_style upper pair; Ret (Some (RLineStyle s))
  else if is "mapline" then do l <- parse_map_lines pair; Ret (Some (RLine l))
  else if is "text" then do t <- parse_map_text pair; Ret (Some (RText t))
  else if is "screen_specific" then Ret (Some RScreenSpecific)
  else if is "global" then Ret (Some RGlobal)
  else if is "hidden" then Ret (Some RHidden)
  else if is "coordline" then Ret (Some RCoordLine)
  else if is "coord" then do (p, _) <- next (kids_of pair); do l <- parse_location p; Ret (Some (RCoord l))
  else if is "coordpoly" then do s <- first_text pair; Ret (Some (RCoordPoly s))
  else if existsb is ignored_rules then Ret None
  else Panic.
Definition parse_map_rules (upper : text -> text) (pairs : list tree) : outcome (list Maps.rule) :=
  do l <- omap (parse_map_rule upper) pairs; Ret (filter_map (fun o => o) l).
(** map/mod.rs:341-352 [parse_map] *)
Definition parse_map (upper : text -> text) (pair : tree) : outcome map_def :=
  do (p, symbol) <- next (kids_of pair); let name := text_of p in
  do rules <- parse_map_rules upper symbol; Ret (mkMapDef name rules).
(** map/mod.rs:354-372 [parse_linestyle] *)
Definition parse_line_style_def (pair : tree) : outcome line_style_def :=
  let l := kids_of pair in
  do (p, l) <- next l; let name := text_of p in
  do (p, l) <- next l; let brush := text_of p in
  do (p, l) <- next l; let hatch := text_of p in
  do dash_lengths <- omap (fun p => unwrap (parse_f32 (text_of p))) l;
  Ret (mkLineStyleDef name brush hatch dash_lengths).
(** map/mod.rs:374-390 [parse_colour] *)
Definition parse_colour_def (pair : tree) : outcome colour_def :=
  let colour := kids_of pair in
  do (p, colour) <- next colour; let name := text_of p in
  do (p, colour) <- next colour; do r <- unwrap (parse_u8 (text_of p));
  do (p, colour) <- next colour; do g <- unwrap (parse_u8 (text_of p));
  do (p, _) <- next colour; do b <- unwrap (parse_u8 (text_of p));
  Ret (name, from_rgb r g b).
(** map/mod.rs:392-403 [parse_override] *)
Definition parse_override (pair : tree) : outcome override_sct :=
  do (p, rest) <- next (kids_of pair); Ret (text_of p, match rest with q :: _ => Some (text_of q) | [] => None end).
(** map/mod.rs:405-411 [MapDefinition]; 429-439: the closure *)
Inductive map_definition := DMap (m : map_def) | DColour (c : colour_def) | DSymbol (s : symbol_def) | DOverride (o : override_sct) | DLineStyle (l : line_style_def).
Definition parse_definition (upper : text -> text) (pair : tree) : outcome (option map_definition) :=
  let is := is_rule pair in
  if is "map" then do m <- parse_map upper pair; Ret (Some (DMap m))
  else if is "colourdef" then do c <- parse_colour_def pair; Ret (Some (DColour c))
  else if is "symboldef" then do s <- parse_symbol pair; Ret (option_map DSymbol s)
  else if is "linestyledef" then do l <- parse_line_style_def pair; Ret (Some (DLineStyle l))
  else if is "override_sct" then do o <- parse_override pair; Ret (Some (DOverride o))
  else if is "sctfilepath" || is "EOI" then Ret None
  else Panic.
(** map/mod.rs:412-421: the result; 448-467: the body of the fold *)
Record topsky_maps := mkTopskyMaps {
  tm_maps : list map_def; tm_symbols : list (text * symbol_def); tm_colours : list (text * colour_def);
  tm_styles : list (text * line_style_def); tm_overrides : list override_sct }.
Definition definition_step (acc : topsky_maps) (d : map_definition) : topsky_maps :=
  let '(mkTopskyMaps maps symbols colours styles overrides) := acc in
  match d with
  | DMap m => mkTopskyMaps (maps ++ [m]) symbols colours styles overrides
  | DColour c => mkTopskyMaps maps symbols (put (fst c) c colours) styles overrides
  | DSymbol s => mkTopskyMaps maps (put (fst s) s symbols) colours styles overrides
  | DLineStyle l => mkTopskyMaps maps symbols colours (put (ld_name l) l styles) overrides
  | DOverride o => mkTopskyMaps maps symbols colours styles (overrides ++ [o])
  end.
(** map/mod.rs:422-471 [parse_topsky_maps] *)
Definition parse_topsky_maps (upper : text -> text) (t : text) : outcome topsky_maps :=
  do kids <- top topsky_grammar "maps" t;
  do l <- omap (parse_definition upper) kids;
  Ret (fold_left definition_step (filter_map (fun o => o) l) (mkTopskyMaps [] [] [] [] [])).

(** ** The whole *)

(** topsky/mod.rs:210-218 [Topsky] *)
Record topsky := mkTopsky {
  tk_symbols : list (text * symbol_def); tk_maps : list map_def; tk_colours : list (text * colour_def);
  tk_settings : list (text * text); tk_styles : list (text * line_style_def); tk_overrides : list override_sct }.
(** topsky/mod.rs:229-249 [Topsky::parse]; the arguments are the bytes of TopSkySettings.txt, TopSkySymbols.txt and TopSkyMaps.txt, [None] for a
    file that cannot be read *)
Definition parse_topsky (upper : text -> text) (settings_file symbols_file maps_file : option (list N)) : outcome topsky :=
  do (colours, settings) <- match settings_file with Some b => parse_topsky_settings (read_to_string b) | None => Err end;
  do symbols <- match symbols_file with Some b => parse_topsky_symbols (read_to_string b) | None => Ret [] end;
  do m <- match maps_file with Some b => parse_topsky_maps upper (read_to_string b) | None => Err end;
  Ret (mkTopsky (put_all (tm_symbols m) symbols) (tm_maps m) (put_all (tm_colours m) colours) settings (tm_styles m) (tm_overrides m)).
