(** Specification of TopSky files (C44, C47, C58, C59): what is read, in terms of the pairs of the texts. *)
From Verif Require Import Base Num Float FloatParse Dms Colours Settings Locations Maps Lines Peg SpecPeg Trees SpecPairs SpecKeyed SpecSct SpecEse SpecSymbol TopskyParse.
Local Open Scope string_scope.
Local Open Scope list_scope.

Definition reads_f32 (s : text) (x : f32) : Prop := parse_f32 s = Some x.
(** the text of the pair of rule [n] inside [q], as a number *)
Definition number (n : string) (q : tree) (x : f32) : Prop := exists s, field n q s /\ reads_f32 s x.

(** ** Settings *)
(** red, green, blue *)
Definition reads_rgb (l : list text) (c : colour) : Prop :=
  exists s u v r g b, l = [s; u; v] /\ parse_u8 s = Some r /\ parse_u8 u = Some g /\ parse_u8 v = Some b /\ c = mkColour r g b 255.
Definition setting_rgb (p : tree) (c : colour) : Prop := exists q, of_rule "colour_setting_rgb" (kids_of p) = [q] /\ reads_rgb (texts "number" q) c.
Definition names_setting (p : tree) (id : text) : Prop := field "name" p id.
Definition reads_setting (p : tree) (v : text) : Prop := field "setting_value" p v.
(** colours are defined in the settings, if they are colours, and in the maps *)
Definition names_colour (p : tree) (id : text) : Prop :=
  rule_of p = "colour_setting" /\ field "name" p id /\ (exists c, setting_rgb p c) \/ rule_of p = "colourdef" /\ field "colon_delimited_text" p id.
Definition reads_colour (p : tree) (c : colour_def) : Prop :=
  names_colour p (fst c) /\ (rule_of p = "colour_setting" /\ setting_rgb p (snd c) \/ rule_of p = "colourdef" /\ reads_rgb (texts "integer" p) (snd c)).

(** ** Symbols *)
Definition names_symbol (p : tree) (id : text) : Prop := field "colon_delimited_text" p id.
Definition reads_symbol (p : tree) (s : symbol_def) : Prop := names_symbol p (fst s) /\ Forall2 reads_rule (symbol_rules p) (snd s).

(** ** Locations *)
(** latitude, then longitude, both as decimal numbers or both in degrees, minutes and seconds *)
Definition reads_geo (q : tree) (c : point) : Prop :=
  exists a b, of_rule "coord_part" (kids_of q) = [a; b] /\
    ((exists s u, field "decimal" a s /\ field "decimal" b u /\ reads_f64 s (snd c) /\ reads_f64 u (fst c)) \/
     (exists y x, reads_dms a y /\ reads_dms b x /\ c = (dms_value x, dms_value y))).
Definition reads_loc (q : tree) (l : location) : Prop :=
  match l with
  | LCoord c => rule_of q = "coordinate" /\ reads_geo q c
  | LFix d => rule_of q = "colon_delimited_text" /\ text_of q = d
  end.
(** coordinates that can be read *)
Definition place_fits (q : tree) : Prop := rule_of q = "coordinate" ->
  exists a b, of_rule "coord_part" (kids_of q) = [a; b] /\ ((exists s u, field "decimal" a s /\ field "decimal" b u) \/ fits_dms a /\ fits_dms b).

(** ** Activation conditions *)
Definition reads_names (q : tree) (o : option (list text)) : Prop :=
  match o with
  | None => rule_of q = "wildcard"
  | Some l => rule_of q = "names" /\ texts "comma_delimited_text" q = l
  end.
Definition reads_runway_id (q : tree) (r : runway_id) : Prop := field "icao" q (ri_icao r) /\ field "runway_designator" q (ri_des r).
Definition reads_runways (q : tree) (o : option (list runway_id)) : Prop :=
  match o with
  | None => rule_of q = "wildcard"
  | Some l => rule_of q = "runways" /\ Forall2 reads_runway_id (of_rule "runway" (kids_of q)) l
  end.
Definition reads_ids (q : tree) (a : active_ids) : Prop :=
  Forall2 reads_names (kids_of q) [ai_own a; ai_own_ex a; ai_online a; ai_online_ex a].
Definition reads_active (q : tree) (a : active) : Prop :=
  match a with
  | ATrue => rule_of q = "active_always"
  | ASchedule => rule_of q = "active_sched"
  | AAup l => rule_of q = "active_aup" /\ texts "names" q = l
  | ANotam icao l => rule_of q = "active_notam" /\ field "icao" q icao /\ texts "names" q = l
  | AArea a =>
    rule_of q = "active_area" /\ Forall2 reads_names (kids_of q) [Some (aa_areas a)] /\ aa_ex a = None \/
    rule_of q = "active_area_with_excludes" /\ exists l, aa_ex a = Some l /\ Forall2 reads_names (kids_of q) [Some (aa_areas a); Some l]
  | AId a => rule_of q = "active_id" /\ reads_ids q a
  | ACallsign a => rule_of q = "active_callsign" /\ reads_ids q a
  | ARunway a =>
    rule_of q = "active_rwy" /\ Forall2 reads_runways (kids_of q) [ar_arr a; ar_dep a] /\ ar_arr_ex a = None /\ ar_dep_ex a = None \/
    rule_of q = "active_rwy_with_excludes" /\ Forall2 reads_runways (kids_of q) [ar_arr a; ar_arr_ex a; ar_dep a; ar_dep_ex a]
  | AMap same folder name =>
    rule_of q = "active_map" /\ field "active_map_operator" q (s2t (if same then "=" else "!")) /\
    field "backslash_delimited_text" q folder /\ field "colon_delimited_text" q name
  end.

(** ** Maps *)
(** the pairs without the alignment, which is not read *)
Definition unaligned (q : tree) : list tree := filter (fun p => negb (String.eqb (rule_of p) "textalign_config")) (kids_of q).
Definition reads_caption (l : list tree) (o : option (text * point)) : Prop :=
  match o with
  | None => l = []
  | Some (s, pos) => exists q pt, l = [q] /\ field "colon_delimited_text" q s /\ of_rule "point" (kids_of q) = [pt] /\ reads_xy pt pos
  end.
Definition reads_segment (q : tree) (s : location * location) : Prop := exists a b, kids_of q = [a; b] /\ reads_loc a (fst s) /\ reads_loc b (snd s).
Definition reads_font (q : tree) (f : font_size) : Prop :=
  match f with
  | FDefault => of_rule "font_symbol" (kids_of q) = []
  | FExact x => field "font_symbol" q (s2t "=") /\ number "decimal" q x
  | FAdd x => field "font_symbol" q (s2t "+") /\ number "decimal" q x
  | FSub x => field "font_symbol" q (s2t "-") /\ number "decimal" q x
  | FMul x => field "font_symbol" q (s2t "*") /\ number "decimal" q x
  end.
Section upper.
  Variable upper : text -> text.
  (** the width is one without a number or with one beyond 32 bits *)
  Definition reads_style (q : tree) (l : line_style) : Prop :=
    (exists s, field "colon_delimited_text" q s /\ ls_style l = upper s) /\
    match texts "integer" q with
    | s :: _ => parse_i32 s = Some (ls_width l) \/ parse_i32 s = None /\ ls_width l = 1%Z
    | [] => ls_width l = 1%Z
    end.
  Definition reads_map_rule (q : tree) (r : Maps.rule) : Prop :=
    match r with
    | RFolder s => rule_of q = "folder" /\ field "colon_delimited_text" q s
    | RColour s => rule_of q = "colour" /\ exists fill, texts "colon_delimited_text" q = s :: fill
    | RAsrData o => rule_of q = "asrdata" /\ Forall2 reads_names (kids_of q) [o]
    | RActive a => rule_of q = "active" /\ Forall2 reads_active (kids_of q) [a]
    | RAndActive a => rule_of q = "andactive" /\ Forall2 reads_active (kids_of q) [a]
    | RGlobal => rule_of q = "global"
    | RScreenSpecific => rule_of q = "screen_specific"
    | RHidden => rule_of q = "hidden"
    | RLayer x => rule_of q = "layer" /\ number "integer" q x
    | RSymbol s => rule_of q = "mapsymbol" /\ ms_align s = None /\
        exists name place label, unaligned q = name :: place :: label /\ text_of name = ms_name s /\ reads_loc place (ms_loc s) /\ reads_caption label (ms_label s)
    | RZoom x => rule_of q = "zoom" /\ number "decimal" q x
    | RFontSize f => rule_of q = "fontsize" /\ reads_font q f
    | RLineStyle l => rule_of q = "style" /\ reads_style q l
    | RLine l => rule_of q = "mapline" /\ exists segs, Forall2 reads_segment (kids_of q) segs /\ l = merge_lines segs
    | RText t => rule_of q = "text" /\ mt_align t = None /\
        exists place content, unaligned q = [place; content] /\ reads_loc place (mt_loc t) /\ text_of content = mt_content t
    | RCoordPoly s => rule_of q = "coordpoly" /\ field "integer" q s
    | RCoordLine => rule_of q = "coordline"
    | RCoord l => rule_of q = "coord" /\ Forall2 reads_loc (kids_of q) [l]
    end.
  (** rules that are skipped *)
  Definition skipped (q : tree) : bool :=
    existsb (String.eqb (rule_of q)) ["circle"; "fontstyle"; "textalign"; "override_sct"; "sctfiledata"; "sctdata"; "coord_af"; "coord_hm"; "coord_pbd"].
  Definition reads_map (p : tree) (m : map_def) : Prop :=
    exists name rules, kids_of p = name :: rules /\ text_of name = md_name m /\ Forall2 reads_map_rule (filter (fun q => negb (skipped q)) rules) (md_rules m).
End upper.
(** the places of a rule that are read *)
Definition map_rule_fits (q : tree) : Prop :=
  (In (rule_of q) ["mapsymbol"; "text"; "coord"] -> Forall place_fits (kids_of q)) /\
  (rule_of q = "mapline" -> Forall (fun l => Forall place_fits (kids_of l)) (kids_of q)).
Definition map_fits (p : tree) : Prop := Forall map_rule_fits (tl (kids_of p)).

(** ** Line styles and overrides *)
Definition names_style (p : tree) (id : text) : Prop := exists brush hatch, texts "colon_delimited_text" p = [id; brush; hatch].
Definition reads_style_def (p : tree) (x : line_style_def) : Prop :=
  texts "colon_delimited_text" p = [ld_name x; ld_brush x; ld_hatch x] /\ Forall2 reads_f32 (texts "integer" p) (ld_dashes x).
Definition reads_override (p : tree) (o : override_sct) : Prop :=
  field "backslash_delimited_text" p (fst o) /\ texts "colon_delimited_text" p = match snd o with Some s => [s] | None => [] end.

(** ** Files *)
Definition settings_read (kids : list tree) (r : list (text * colour_def) * list (text * text)) : Prop :=
  holds names_colour (of_rule "colour_setting" kids) reads_colour (fst r) /\ holds names_setting (of_rule "other_setting" kids) reads_setting (snd r).
Definition symbols_read (kids : list tree) (m : list (text * symbol_def)) : Prop := holds names_symbol (of_rule "symbol" kids) reads_symbol m.
Definition symbols_fit (kids : list tree) : Prop := Forall (fun p => Forall rule_fits (symbol_rules p)) (of_rule "symbol" kids).
Definition maps_read (upper : text -> text) (kids : list tree) (r : topsky_maps) : Prop :=
  Forall2 (reads_map upper) (of_rule "map" kids) (tm_maps r) /\
  holds names_symbol (of_rule "symboldef" kids) reads_symbol (tm_symbols r) /\
  holds names_colour (of_rule "colourdef" kids) reads_colour (tm_colours r) /\
  holds names_style (of_rule "linestyledef" kids) reads_style_def (tm_styles r) /\
  Forall2 reads_override (of_rule "override_sct" kids) (tm_overrides r).
Definition maps_fit (kids : list tree) : Prop :=
  Forall map_fits (of_rule "map" kids) /\
  Forall (fun p => Forall rule_fits (symbol_rules p)) (of_rule "symboldef" kids) /\
  Forall (fun p => Forall (fun s => exists n, parse_u8 s = Some n) (texts "integer" p)) (of_rule "colourdef" kids).
