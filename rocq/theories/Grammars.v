(** Transcription of src/pest/*.pest, rule by rule and in order.  Rules no other rule reaches are kept. *)
From Verif Require Import Base Unicode Peg.
Local Open Scope string_scope.
Local Open Scope list_scope.

Definition LETTER : expr := Sat is_letter.
Definition NUMBER : expr := Sat is_number.
Definition SPTAB : expr := str " " // TAB.
(** (";" | "//") ~ (!NEWLINE ~ ANY)* *)
Definition comment_body : expr := (str ";" // str "//") ~~ Star (until NEWLINE).

(** base.pest:1-24 *)
Definition base : grammar := [
  ("point", normal (&"decimal" ~~ str ":" ~~ &"decimal"));
  ("NL", silent (Plus (Star SPTAB ~~ NEWLINE)));
  ("decimal", atomic (Opt (str "-" // str "+") ~~ ((Star ASCII_DIGIT ~~ str "." ~~ Plus ASCII_DIGIT) // Plus ASCII_DIGIT)));
  ("integer", atomic (Opt (str "-" // str "+") ~~ Plus ASCII_DIGIT));
  ("pos_integer", atomic (Opt (str "+") ~~ Plus ASCII_DIGIT));
  ("coordinate", normal (&"coord_part" ~~ str ":" ~~ &"coord_part"));
  ("coord_part", normal (&"sct_coord_part" // &"decimal"));
  ("sct_coord_part", compound (&"hemi" ~~ &"deg" ~~ str "." ~~ &"min" ~~ str "." ~~ &"sec"));
  ("deg", atomic (Plus ASCII_DIGIT));
  ("min", atomic (Plus ASCII_DIGIT));
  ("sec", atomic (&"decimal"));
  ("hemi", atomic (str "N" // str "S" // str "W" // str "E" // str "n" // str "s" // str "w" // str "e"));
  ("direction", atomic (str "<" // str ">"));
  ("runway_designator", atomic ((ASCII_DIGIT ~~ ASCII_DIGIT) ~~ Opt (str "L" // str "C" // str "R" // str "G")));
  ("quoted_string", silent (chr 34 ~~ &"quote_delimited_text" ~~ chr 34));
  ("colon_delimited_text", atomic (Star (until (&"NL" // str ":"))));
  ("comma_delimited_text", atomic (Star (until (&"NL" // str ":" // str ","))));
  ("backslash_delimited_text", atomic (Star (until (&"NL" // str "\"))));
  ("quote_delimited_text", atomic (Star (until (&"NL" // chr 34))));
  ("tab_delimited_text", atomic (Star (until (&"NL" // (Star (str " ") ~~ TAB)))))
].

(** sct.pest:1-95 *)
Definition sct_section (head : expr) (item : expr) : kind * expr :=
  normal (head ~~ Star (&"NL" ~~ (&"colour_definition" // item))).
Definition sct_grammar : grammar := base ++ [
  ("sct", normal (SOI ~~ Opt (&"section") ~~ Star (&"NL" ~~ &"section") ~~ Opt (&"NL") ~~ EOI));
  ("section", silent (
    &"info_section" // &"vor_section" // &"ndb_section" // &"fixes_section" // &"airport_section" // &"runway_section"
    // &"sid_section" // &"star_section" // &"artcc_high_section" // &"artcc_section" // &"artcc_low_section"
    // &"high_airway_section" // &"low_airway_section" // &"region_section" // &"labels_section" // &"geo_section"
    // &"colour_definition"));
  ("info_section", normal (
    str "[INFO]"
    ~~ Star (&"NL" ~~ &"colour_definition")
    ~~ &"NL" ~~ &"sector_name"
    ~~ &"NL" ~~ &"sector_callsign"
    ~~ &"NL" ~~ &"designator"
    ~~ &"NL" ~~ &"sct_coord_part"
    ~~ &"NL" ~~ &"sct_coord_part"
    ~~ &"NL" ~~ &"decimal"
    ~~ &"NL" ~~ &"decimal"
    ~~ &"NL" ~~ &"decimal"
    ~~ Opt (&"NL" ~~ &"decimal")
    ~~ Star (&"NL" ~~ &"colour_definition")));
  ("vor_section", sct_section (str "[VOR]") &"location");
  ("ndb_section", sct_section (str "[NDB]") (&"location" // &"broken"));
  ("fixes_section", sct_section (str "[FIXES]") (&"fix" // &"broken"));
  ("airport_section", sct_section (str "[AIRPORT]") &"aerodrome");
  ("runway_section", sct_section (str "[RUNWAY]") &"runway");
  ("sid_section", sct_section (str "[SID]") &"coloured_lines");
  ("star_section", sct_section (str "[STAR]") &"coloured_lines");
  ("artcc_high_section", sct_section (str "[ARTCC HIGH]") &"coloured_lines");
  ("artcc_section", sct_section (str "[ARTCC]") &"coloured_lines");
  ("artcc_low_section", sct_section (str "[ARTCC LOW]") &"coloured_lines");
  ("high_airway_section", sct_section (str "[HIGH AIRWAY]") &"airway");
  ("low_airway_section", sct_section (str "[LOW AIRWAY]") &"airway");
  ("region_section", sct_section (str "[Regions]" // str "[REGIONS]") &"region");
  ("labels_section", sct_section (str "[LABELS]") &"label");
  ("geo_section", sct_section (str "[GEO]") &"coloured_lines");
  ("sector_name", atomic (Plus (LETTER // ASCII_DIGIT // TAB // range 32 126)));
  ("sector_callsign", atomic (Plus (ASCII_ALPHANUMERIC // str "_")));
  ("colour_definition", normal (str "#define" ~~ &"colour_name" ~~ &"pos_integer"));
  ("colour_name", atomic (Plus (ASCII_ALPHANUMERIC // str "-" // str "_")));
  ("fix", normal (&"fix_designator" ~~ &"sct_coordinate"));
  ("aerodrome", normal (&"designator" ~~ Opt (&"frequency" // str ".") ~~ &"sct_coordinate" ~~ &"ctr_airspace"));
  ("location", normal (&"designator" ~~ &"frequency" ~~ &"sct_coordinate"));
  ("runway", normal (&"runway_designator" ~~ &"runway_designator" ~~ &"pos_integer" ~~ &"pos_integer" ~~ &"sct_coordinate"
    ~~ &"sct_coordinate" ~~ &"designator" ~~ Star (until NEWLINE)));
  ("airway", normal (&"fix_designator" ~~ (&"sct_coordinate" // &"airway_fix") ~~ (&"sct_coordinate" // &"airway_fix")));
  ("broken", atomic (Not (str "[" // str "#") ~~ Star (until &"NL")));
  ("region", normal (Opt (str "REGIONNAME") ~~ &"name" ~~ Opt (&"NL") ~~ &"colour_name" ~~ &"sct_coordinate"
    ~~ Star (&"NL" ~~ &"sct_coordinate")));
  ("ctr_airspace", normal (str "A" // str "B" // str "C" // str "D" // str "E" // str "F" // str "G"));
  ("coloured_lines", normal (&"non_coordinate_or_double_fix_name" ~~ &"coloured_line" ~~ Star (&"NL" ~~ &"coloured_line")));
  ("coloured_line", normal ((&"sct_coordinate" // &"airway_fix") ~~ (&"sct_coordinate" // &"airway_fix") ~~ Opt (&"colour_name")));
  ("label", normal (&"quoted_string" ~~ &"sct_coordinate" ~~ &"colour_name"));
  ("airway_fix", compound (Push &"designator" ~~ Plus &"WHITESPACE" ~~ Pop));
  ("sct_coordinate", compound (&"sct_coord_part" ~~ Plus &"WHITESPACE" ~~ &"sct_coord_part"));
  ("frequency", atomic &"decimal");
  ("name", atomic (Star (until (&"NL" // TAB // str "["))));
  ("non_coordinate_name", normal (Star (until (&"sct_coordinate" // &"NL"))));
  ("non_coordinate_or_double_fix_name", compound (Plus (until (
      (((Plus &"WHITESPACE" ~~ &"sct_coordinate") ~~ (Plus &"WHITESPACE" ~~ &"sct_coordinate")) ~~ Opt (Plus &"WHITESPACE" ~~ &"colour_name") ~~ &"NL")
      // (((Plus &"WHITESPACE" ~~ &"airway_fix") ~~ (Plus &"WHITESPACE" ~~ &"airway_fix")) ~~ Opt (Plus &"WHITESPACE" ~~ &"colour_name") ~~ &"NL")
      // str "[" // str "]"))));
  ("fix_designator", atomic (Plus (LETTER // ASCII_DIGIT // str "!" // str "(" // str ")" // str "/" // str "-" // str "_" // str "." // str "[" // str "]")));
  ("designator", atomic (Plus (ASCII_ALPHA_UPPER // ASCII_DIGIT)));
  ("COMMENT", silent comment_body);
  ("WHITESPACE", silent (str " " // TAB // chr 65279))
].

(** airway.pest:1-33 *)
Definition airway_grammar : grammar := [
  ("airways", normal (SOI ~~ Opt &"NL" ~~ Plus &"airway" ~~ EOI));
  ("airway", normal (
    &"designator" ~~ TAB ~~ &"coord" ~~ TAB ~~ str "14" ~~ TAB ~~ &"designator" ~~ TAB ~~ &"airway_type"
    ~~ (&"no_neighbour" // &"neighbour") ~~ (&"no_neighbour" // &"neighbour") ~~ &"NL"));
  ("airway_type", normal (str "B" // str "H" // str "L" // str ""));
  ("neighbour", normal (TAB ~~ &"designator" ~~ TAB ~~ &"coord" ~~ TAB ~~ (&"level" // &"not_established") ~~ TAB ~~ &"bool"));
  ("no_neighbour", normal (
    ((TAB ~~ Opt (str "0")) ~~ (TAB ~~ Opt (str "0")) ~~ (TAB ~~ Opt (str "0")) ~~ (TAB ~~ Opt (str "0")) ~~ (TAB ~~ Opt (str "0"))) ~~ str "N"));
  ("bool", silent (&"TRUE" // &"FALSE"));
  ("level", normal (Plus ASCII_DIGIT));
  ("not_established", normal (str "NESTB" // str ""));
  ("designator", normal (Plus (ASCII_ALPHA_UPPER // ASCII_DIGIT)));
  ("TRUE", normal (str "Y"));
  ("FALSE", normal (str "N"));
  ("coord", normal (&"coord_part" ~~ TAB ~~ &"coord_part"));
  ("coord_part", compound &"DECIMAL");
  ("DECIMAL", atomic (Opt (str "-") ~~ Plus ASCII_DIGIT ~~ str "." ~~ Plus ASCII_DIGIT));
  ("NL", silent (Plus NEWLINE));
  ("COMMENT", silent comment_body)
].

(** prf.pest:1-12 *)
Definition prf_grammar : grammar := [
  ("prf", normal (SOI ~~ Opt &"NL" ~~ Plus &"setting" ~~ EOI));
  ("setting", normal (&"category" ~~ &"key" ~~ &"value" ~~ Opt &"NL"));
  ("category", atomic (Plus LETTER));
  ("key", atomic (Plus (LETTER // ASCII_DIGIT // str "_")));
  ("value", atomic (Plus (until (chr 10))));
  ("NL", silent (Plus NEWLINE));
  ("WHITESPACE", silent SPTAB)
].

(** icao_aircraft.pest:1-17 *)
Definition icao_aircraft_grammar : grammar := base ++ [
  ("aircraft", normal (SOI ~~ Opt &"NL" ~~ Plus (&"COMMENT" // &"definition" // &"continued_name") ~~ EOI));
  ("definition", normal (&"designator" ~~ TAB ~~ &"wtc" ~~ &"aircrafttype" ~~ &"num_engines" ~~ &"enginetype" ~~ TAB
    ~~ &"manufacturer" ~~ TAB ~~ &"name" ~~ Opt &"NL"));
  ("continued_name", normal (Plus (until (TAB // NEWLINE)) ~~ Opt &"NL"));
  ("designator", atomic (seq [LETTER // ASCII_DIGIT; Opt (LETTER // ASCII_DIGIT); Opt (LETTER // ASCII_DIGIT); Opt (LETTER // ASCII_DIGIT)]));
  ("wtc", atomic (str "L" // str "M" // str "H" // str "J" // str "-"));
  ("aircrafttype", atomic (str "L" // str "S" // str "A" // str "G" // str "H" // str "T" // str "-"));
  ("num_engines", atomic (NUMBER // str "C" // str "-"));
  ("enginetype", atomic (str "P" // str "T" // str "J" // str "E" // str "R" // str "-"));
  ("manufacturer", atomic &"tab_delimited_text");
  ("name", atomic &"tab_delimited_text");
  ("COMMENT", silent comment_body);
  ("WHITESPACE", silent (str " "))
].

(** icao_airlines.pest:1-13 *)
Definition icao_airlines_grammar : grammar := base ++ [
  ("airlines", normal (SOI ~~ Opt &"NL" ~~ Plus (&"COMMENT" // &"definition") ~~ EOI));
  ("definition", normal (&"designator" ~~ TAB ~~ &"name" ~~ TAB ~~ &"callsign" ~~ TAB ~~ &"country" ~~ Opt &"NL"));
  ("designator", atomic (ASCII_ALPHA_UPPER ~~ ASCII_ALPHA_UPPER ~~ ASCII_ALPHA_UPPER));
  ("name", atomic &"tab_delimited_text");
  ("callsign", atomic &"tab_delimited_text");
  ("country", atomic &"tab_delimited_text");
  ("COMMENT", silent comment_body);
  ("WHITESPACE", silent (str " "))
].

(** icao_airports.pest:1-12 *)
Definition icao_airports_grammar : grammar := base ++ [
  ("aircraft", normal (SOI ~~ Opt &"NL" ~~ Plus (&"COMMENT" // &"definition") ~~ EOI));
  ("definition", normal (&"designator" ~~ TAB ~~ &"name" ~~ TAB ~~ &"country" ~~ Opt &"NL"));
  ("designator", atomic (Plus (LETTER // ASCII_DIGIT)));
  ("name", atomic &"tab_delimited_text");
  ("country", atomic &"tab_delimited_text");
  ("COMMENT", silent comment_body);
  ("WHITESPACE", silent (str " "))
].

(** navdata_airports.pest:1-11 *)
Definition navdata_grammar : grammar := base ++ [
  ("airports", normal (SOI ~~ Opt &"NL" ~~ Star (&"COMMENT" // &"definition") ~~ EOI));
  ("definition", normal (&"designator" ~~ &"decimal" ~~ &"decimal" ~~ &"name" ~~ Opt &"NL"));
  ("designator", atomic (Plus (LETTER // ASCII_DIGIT)));
  ("name", atomic (Plus (until NEWLINE)));
  ("COMMENT", silent comment_body);
  ("WHITESPACE", silent SPTAB)
].

(** isec.pest:1-16 *)
Definition isec_grammar : grammar := [
  ("wpts", normal (SOI ~~ Opt &"NL" ~~ Plus &"wpt" ~~ EOI));
  ("wpt", normal (&"designator" ~~ &"coord" ~~ str "15" ~~ &"NL"));
  ("designator", compound (Plus (ASCII_ALPHA_UPPER // ASCII_DIGIT)));
  ("coord", normal (&"coord_part" ~~ &"coord_part"));
  ("coord_part", compound &"DECIMAL");
  ("DECIMAL", atomic (Opt (str "-") ~~ Plus ASCII_DIGIT ~~ str "." ~~ Plus ASCII_DIGIT));
  ("NL", silent (Plus NEWLINE));
  ("COMMENT", silent comment_body);
  ("WHITESPACE", silent SPTAB)
].

(** symbol_rule.pest:1-31 *)
Definition symbol_rule : grammar :=
  let D := &"symbol_rule_delimiter" in let P := &"symbol_rule_point" in
  [
  ("symbolrule", silent ((&"moveto" // &"line" // &"fillarc_ellipse" // &"fillarc" // &"arc_ellipse" // &"arc" // &"polygon"
     // &"pixel" // &"ellipse" // &"ellipse_circle" // &"fillrect") ~~ Opt &"NL"));
  ("moveto", compound (str "MOVETO" ~~ D ~~ P));
  ("line", compound (str "LINETO" ~~ D ~~ P));
  ("fillarc", compound (str "FILLARC" ~~ D ~~ P ~~ D ~~ &"decimal" ~~ D ~~ &"integer" ~~ D ~~ &"integer"));
  ("fillarc_ellipse", compound (str "FILLARC" ~~ D ~~ P ~~ D ~~ &"decimal" ~~ D ~~ &"decimal" ~~ D ~~ &"integer" ~~ D ~~ &"integer"));
  ("arc", compound (str "ARC" ~~ D ~~ P ~~ D ~~ &"decimal" ~~ D ~~ &"integer" ~~ D ~~ &"integer"));
  ("arc_ellipse", compound (str "ARC" ~~ D ~~ P ~~ D ~~ &"decimal" ~~ D ~~ &"decimal" ~~ D ~~ &"integer" ~~ D ~~ &"integer"));
  ("ellipse", compound (str "ELLIPSE" ~~ D ~~ P ~~ D ~~ &"decimal" ~~ D ~~ &"decimal"));
  ("ellipse_circle", compound (str "ELLIPSE" ~~ D ~~ P ~~ D ~~ &"decimal"));
  ("polygon", compound (str "POLYGON" ~~ Plus (D ~~ P)));
  ("pixel", compound (str "SETPIXEL" ~~ D ~~ P));
  ("fillrect", compound (str "FILLRECT" ~~ D ~~ P ~~ D ~~ P));
  ("symbol_rule_delimiter", silent (str ":" // str " "));
  ("symbol_rule_point", compound (&"decimal" ~~ D ~~ &"decimal"))
].

(** symbology.pest:1-17 *)
Definition symbology_grammar : grammar := base ++ symbol_rule ++ [
  ("symbology", normal (SOI ~~ Opt &"NL" ~~ &"header" ~~ &"items" ~~ Plus &"symbol" ~~ &"footer" ~~ EOI));
  ("header", normal (str "SYMBOLOGY" ~~ &"NL" ~~ str "SYMBOLSIZE" ~~ &"NL"));
  ("items", silent (Plus &"item"));
  ("item", normal (&"colon_delimited_text" ~~ str ":" ~~ &"colon_delimited_text" ~~ str ":" ~~ &"integer" ~~ str ":" ~~ &"decimal"
     ~~ str ":" ~~ &"line_style" ~~ str ":" ~~ &"integer" ~~ str ":" ~~ &"alignment" ~~ &"NL"));
  ("line_style", normal (range 48 52));
  ("alignment", normal (str "12" // str "13" // str "14" // range 48 50 // range 54 56));
  ("symbol", normal (str "SYMBOL:" ~~ &"integer" ~~ &"NL" ~~ Plus &"symbolitem"));
  ("symbolitem", silent (str "SYMBOLITEM:" ~~ &"symbolrule"));
  ("footer", normal (&"clip_area" ~~ &"NL" ~~ str "END" ~~ Opt &"NL"));
  ("clip_area", normal (str "m_ClipArea:" ~~ &"integer"));
  ("WHITESPACE", silent SPTAB)
].

(** ese.pest:1-91 *)
Definition ese_grammar : grammar :=
  let CT := &"colon_delimited_text" in let C := str ":" in
  base ++ [
  ("ese", normal (SOI ~~ Opt &"NL" ~~ Plus &"section" ~~ EOI));
  ("section", silent (&"position_section" // &"airspace_section" // &"sidsstars_section" // &"unparsed_section"));
  ("line", silent (&"broken" ~~ &"NL"));
  ("section_header", silent (str "[" ~~ &"header_name" ~~ str "]"));
  ("position_section", normal (str "[POSITIONS]" ~~ &"NL" ~~ Star (&"position" ~~ &"NL")));
  ("airspace_section", normal (str "[AIRSPACE]" ~~ &"NL" ~~ Star (&"sectorline" // &"circle_sectorline" // &"display_sectorline" // &"sector"
     // &"cop" // &"fir_cop" // &"msaw")));
  ("sidsstars_section", normal (str "[SIDSSTARS]" ~~ &"NL" ~~ Star ((&"sid" // &"star") ~~ &"NL")));
  ("unparsed_section", normal (&"section_header" ~~ &"NL" ~~ Star &"line"));
  ("position", normal (
     CT ~~ C ~~ CT ~~ C ~~ &"frequency" ~~ C ~~ CT ~~ C ~~ CT ~~ C ~~ CT ~~ C
     ~~ CT ~~ C ~~ CT ~~ C ~~ CT ~~ C ~~ Opt &"squawk_range" ~~ Opt C
     ~~ Opt &"coordinate" ~~ Opt (C ~~ &"coordinate") ~~ Opt (C ~~ &"coordinate") ~~ Opt (C ~~ &"coordinate")));
  ("squawk_range", normal (&"integer" ~~ C ~~ &"integer"));
  ("cop", normal (str "COPX:" ~~ &"prev" ~~ C ~~ &"dep_rwy" ~~ C ~~ &"cop_def" ~~ C ~~ &"after" ~~ C ~~ &"arr_rwy" ~~ C ~~ &"sctx" ~~ C
     ~~ &"sctn" ~~ C ~~ &"alt_clb" ~~ C ~~ &"alt_des" ~~ C ~~ &"cop_description" ~~ &"NL"));
  ("fir_cop", normal (str "FIR_COPX:" ~~ &"prev" ~~ C ~~ &"dep_rwy" ~~ C ~~ &"cop_def" ~~ C ~~ &"after" ~~ C ~~ &"arr_rwy" ~~ C ~~ &"sctx" ~~ C
     ~~ &"sctn" ~~ C ~~ &"alt_clb" ~~ C ~~ &"alt_des" ~~ C ~~ &"cop_description" ~~ &"NL"));
  ("prev", silent (&"wildcard" // CT));
  ("dep_rwy", silent (&"wildcard" // &"designator"));
  ("after", silent (&"wildcard" // CT));
  ("arr_rwy", silent (&"wildcard" // &"designator"));
  ("cop_def", silent (&"wildcard" // CT));
  ("sctx", silent CT);
  ("sctn", silent CT);
  ("alt_clb", silent (&"wildcard" // &"integer"));
  ("alt_des", silent (&"wildcard" // &"integer"));
  ("cop_description", silent CT);
  ("sectorline", normal (str "SECTORLINE:" ~~ CT ~~ &"NL" ~~ Star ((&"display" // &"coord") ~~ &"NL")));
  ("display", normal (str "DISPLAY:" ~~ CT ~~ C ~~ CT ~~ C ~~ CT));
  ("circle_sectorline", normal (str "CIRCLE_SECTORLINE:" ~~ CT ~~ C ~~ &"fix_designator" ~~ C ~~ &"decimal" ~~ &"NL" ~~ Star (&"display" ~~ &"NL")));
  ("display_sectorline", normal (str "DISPLAY_SECTORLINE:" ~~ CT ~~ C ~~ CT ~~ C ~~ CT ~~ C ~~ CT ~~ &"NL"));
  ("sector", normal (str "SECTOR:" ~~ CT ~~ C ~~ &"integer" ~~ C ~~ &"integer" ~~ &"NL" ~~ Star (&"sector_subsettings" ~~ &"NL")));
  ("sector_subsettings", silent (&"owner" // &"altowner" // &"border" // &"guest" // &"active" // &"depapt" // &"arrapt"));
  ("owner", normal (str "OWNER" ~~ Plus (C ~~ CT)));
  ("altowner", normal (str "ALTOWNER:" ~~ CT ~~ Plus (C ~~ CT)));
  ("border", normal (str "BORDER" ~~ Plus (C ~~ CT)));
  ("guest", normal (str "GUEST" ~~ C ~~ &"sct" ~~ C ~~ &"adep" ~~ C ~~ &"ades"));
  ("active", normal (str "ACTIVE:" ~~ &"designator" ~~ C ~~ &"designator"));
  ("depapt", normal (str "DEPAPT" ~~ Plus (C ~~ &"designator")));
  ("arrapt", normal (str "ARRAPT" ~~ Plus (C ~~ &"designator")));
  ("sct", silent CT);
  ("adep", silent (&"wildcard" // &"designator"));
  ("ades", silent (&"wildcard" // &"designator"));
  ("msaw", normal (str "MSAW:" ~~ CT ~~ C ~~ &"integer" ~~ &"NL" ~~ Plus (&"coord" ~~ &"NL")));
  ("sid", normal (str "SID:" ~~ &"designator" ~~ C ~~ (&"runway_designator" // &"none") ~~ C ~~ CT ~~ C ~~ &"route"));
  ("star", normal (str "STAR:" ~~ &"designator" ~~ C ~~ (&"runway_designator" // &"none") ~~ C ~~ CT ~~ C ~~ &"route"));
  ("wildcard", normal (str "*"));
  ("broken", atomic (Not (str "[") ~~ Star (until &"NL")));
  ("coord", silent (str "COORD:" ~~ &"coordinate"));
  ("frequency", atomic &"decimal");
  ("route", normal (Star &"designator"));
  ("fix_designator", atomic (Plus (LETTER // ASCII_DIGIT // str "(" // str ")" // str "/" // str "-" // str "_" // str ".")));
  ("designator", atomic (Plus (ASCII_ALPHA_UPPER // ASCII_DIGIT // str "-")));
  ("pos_designator", atomic (Plus (ASCII_ALPHA_UPPER // ASCII_DIGIT // str "_" // str "-")));
  ("none", normal (str ""));
  ("header_name", atomic (Plus (ASCII_ALPHA_UPPER // &"WHITESPACE")));
  ("COMMENT", silent (str ";" ~~ Star (until NEWLINE)));
  ("WHITESPACE", silent SPTAB)
].

(** topsky_settings.pest:1-20 *)
Definition topsky_settings_grammar : grammar := [
  ("settings", normal (Opt SOI ~~ Star ((SOI // &"NL") ~~ &"setting") ~~ Star ((SOI // &"NL") ~~ &"section") ~~ Opt &"NL" ~~ EOI));
  ("setting", silent (&"colour_setting" // &"other_setting"));
  ("colour_setting", normal (str "Color_" ~~ &"name" ~~ Opt (str "=" ~~ &"colour_setting_rgb")));
  ("colour_setting_rgb", normal (&"number" ~~ str "," ~~ &"number" ~~ str "," ~~ &"number"));
  ("other_setting", normal (&"name" ~~ str "=" ~~ &"setting_value"));
  ("section", normal (((str "[" ~~ &"name" ~~ str "]") // (str "{" ~~ &"name" ~~ str "}")) ~~ Star (&"NL" ~~ &"setting")));
  ("name", atomic (Plus (str "/" // str "_" // ASCII_ALPHA // ASCII_DIGIT)));
  ("number", atomic (Plus ASCII_DIGIT));
  ("setting_value", normal (Star (until (&"NL" // EOI))));
  ("WHITESPACE", silent SPTAB);
  ("NL", silent (Plus NEWLINE));
  ("COMMENT", silent ((str ";" // str "//") ~~ Star (until &"NL")))
].

(** asr.pest:1-132 *)
Definition asr_grammar : grammar :=
  let C := str ":" in let MV := &"multivalue" in
  [
  ("asr", normal (SOI ~~ Opt &"NL" ~~ Plus &"setting" ~~ EOI));
  ("setting", silent (
    (&"above" // &"below" // &"disable_panning" // &"disable_zooming" // &"display_rotation" // &"display_type"
     // &"display_type_geo_referenced" // &"display_type_need_radar_content" // &"history_dots" // &"leader" // &"plugin"
     // &"sector_file" // &"sector_title" // &"show_leader" // &"show_c" // &"show_standby" // &"simulation_mode" // &"tag_family"
     // &"turn_leader" // &"window_area" // &"free_text" // &"airports" // &"fixes" // &"ndbs" // &"vors" // &"low_airways"
     // &"high_airways" // &"sids" // &"stars" // &"geo" // &"ground_network" // &"regions" // &"artcc_boundary"
     // &"artcc_low_boundary" // &"artcc_high_boundary" // &"runways") ~~ Opt &"NL"));
  ("above", normal (str "ABOVE:" ~~ &"INTEGER"));
  ("below", normal (str "BELOW:" ~~ &"INTEGER"));
  ("disable_panning", normal (str "DISABLEPANNING:" ~~ &"BOOL"));
  ("disable_zooming", normal (str "DISABLEZOOMING:" ~~ &"BOOL"));
  ("display_rotation", normal (str "DisplayRotation:" ~~ &"DECIMAL"));
  ("display_type", normal (str "DisplayTypeName:" ~~ &"value"));
  ("display_type_geo_referenced", normal (str "DisplayTypeGeoReferenced:" ~~ &"BOOL"));
  ("display_type_need_radar_content", normal (str "DisplayTypeNeedRadarContent:" ~~ &"BOOL"));
  ("history_dots", normal (str "HISTORY_DOTS:" ~~ &"INTEGER"));
  ("leader", normal (str "LEADER:" ~~ &"INTEGER"));
  ("sector_file", normal (str "SECTORFILE:" ~~ &"value"));
  ("sector_title", normal (str "SECTORTITLE:" ~~ &"value"));
  ("show_leader", normal (str "SHOWLEADER:" ~~ &"BOOL"));
  ("show_c", normal (str "SHOWC:" ~~ &"BOOL"));
  ("show_standby", normal (str "SHOWSB:" ~~ &"BOOL"));
  ("simulation_mode", normal (str "SIMULATION_MODE:" ~~ &"INTEGER"));
  ("tag_family", normal (str "TAGFAMILY:" ~~ &"value"));
  ("turn_leader", normal (str "TURNLEADER:" ~~ &"BOOL"));
  ("window_area", normal (str "WINDOWAREA:" ~~ &"coordinate" ~~ C ~~ &"coordinate"));
  ("plugin", normal (str "PLUGIN:" ~~ MV ~~ C ~~ MV ~~ C ~~ &"value"));
  ("runways", normal (str "Runways:" ~~ &"runway" ~~ C ~~ &"runway_type"));
  ("airports", normal (str "Airports:" ~~ MV ~~ C ~~ &"fix_type"));
  ("ndbs", normal (str "NDBs:" ~~ MV ~~ C ~~ &"navaid_type"));
  ("vors", normal (str "VORs:" ~~ MV ~~ C ~~ &"navaid_type"));
  ("fixes", normal (str "Fixes:" ~~ MV ~~ C ~~ &"fix_type"));
  ("low_airways", normal (str "Low airways:" ~~ MV ~~ C ~~ &"airway_type"));
  ("high_airways", normal (str "High airways:" ~~ MV ~~ C ~~ &"airway_type"));
  ("sids", normal (str "Sids:" ~~ MV ~~ C));
  ("stars", normal (str "Stars:" ~~ MV ~~ C));
  ("free_text", normal (str "Free Text:" ~~ &"multivalue_backslash" ~~ str "\" ~~ MV ~~ str ":freetext"));
  ("geo", normal (str "Geo:" ~~ MV ~~ C));
  ("ground_network", normal (str "Ground Network:" ~~ MV ~~ C ~~ &"ground_network_type"));
  ("regions", normal (str "Regions:" ~~ MV ~~ str ":polygon"));
  ("artcc_boundary", normal (str "ARTCC boundary:" ~~ MV ~~ C));
  ("artcc_low_boundary", normal (str "ARTCC low boundary:" ~~ MV ~~ C));
  ("artcc_high_boundary", normal (str "ARTCC high boundary:" ~~ MV ~~ C));
  ("broken", atomic (Not (str "[") ~~ Star (until &"NL")));
  ("coordinate", silent (&"coord_part" ~~ C ~~ &"coord_part"));
  ("coord_part", normal (&"DECIMAL" // &"sct_coord_part"));
  ("sct_coord_part", compound (&"hemi" ~~ &"deg" ~~ str "." ~~ &"min" ~~ str "." ~~ &"sec"));
  ("navaid_type", silent (&"symbol" // &"name" // &"frequency"));
  ("fix_type", silent (&"symbol" // &"name"));
  ("airway_type", silent (&"line" // &"name"));
  ("runway_type", silent (&"centerline" // &"name" // &"ext_centerline"));
  ("ground_network_type", silent (&"exit" // &"taxiway" // &"terminal_taxiway"));
  ("centerline", normal (str "centerline"));
  ("ext_centerline", normal (
    str "extended centerline 1 left ticks" // str "extended centerline 1 left vectoring" // str "extended centerline 1 left base"
    // str "extended centerline 1 right ticks" // str "extended centerline 1 right vectoring" // str "extended centerline 1 right base"
    // str "extended centerline 1"
    // str "extended centerline 2 left ticks" // str "extended centerline 2 left vectoring" // str "extended centerline 2 left base"
    // str "extended centerline 2 right ticks" // str "extended centerline 2 right vectoring" // str "extended centerline 2 right base"
    // str "extended centerline 2"));
  ("name", normal (str "name"));
  ("frequency", normal (str "frequency"));
  ("symbol", normal (str "symbol"));
  ("line", normal (str "line"));
  ("exit", normal (str "exit"));
  ("taxiway", normal (str "taxiway"));
  ("terminal_taxiway", normal (str "terminal taxiway"));
  ("runway", silent (&"airport" ~~ str " " ~~ &"runway_desig" ~~ str "-" ~~ &"runway_desig"));
  ("airport", atomic (Star (until (str " " ~~ &"runway_desig"))));
  ("runway_desig", atomic ((ASCII_DIGIT ~~ ASCII_DIGIT) ~~ Opt (str "L" // str "R" // str "C" // str "W" // str "G")));
  ("value", atomic (Star (until &"NL")));
  ("multivalue", atomic (Star (until (&"NL" // str ":"))));
  ("multivalue_backslash", atomic (Star (until (str "\"))));
  ("deg", atomic (Plus ASCII_DIGIT));
  ("min", atomic (Plus ASCII_DIGIT));
  ("sec", atomic &"DECIMAL");
  ("hemi", atomic (str "N" // str "S" // str "W" // str "E"));
  ("INTEGER", atomic (Opt (str "-") ~~ Plus ASCII_DIGIT));
  ("DECIMAL", atomic (Opt (str "-") ~~ Plus ASCII_DIGIT ~~ Opt (str "." ~~ Plus ASCII_DIGIT)));
  ("BOOL", normal (str "0" // str "1"));
  ("NL", silent (Plus NEWLINE));
  ("COMMENT", silent (str ";" ~~ Star (until NEWLINE) ~~ &"NL"))
].

(** topsky.pest:1-154 *)
Definition topsky_grammar : grammar :=
  let CT := &"colon_delimited_text" in let BT := &"backslash_delimited_text" in let C := str ":" in
  let WN := &"wildcard" // &"names" in let WR := &"wildcard" // &"runways" in let D2 := ASCII_DIGIT ~~ ASCII_DIGIT in
  let CO := &"coordinate" // CT in
  base ++ symbol_rule ++ [
  ("symbols", normal (SOI ~~ Opt &"NL" ~~ Plus &"symbol" ~~ EOI));
  ("maps", normal (SOI ~~ Opt &"NL" ~~ Plus (&"map" // &"symboldef" // &"colourdef" // &"linestyledef" // &"override_sct" // &"sctfilepath") ~~ EOI));
  ("symbol", normal (str "SYMBOL:" ~~ CT ~~ &"NL" ~~ Plus &"symbolrule"));
  ("symboldef", normal (str "SYMBOLDEF:" ~~ CT ~~ &"NL" ~~ Plus &"symbolrule"));
  ("colourdef", normal (str "COLORDEF:" ~~ CT ~~ C ~~ &"integer" ~~ C ~~ &"integer" ~~ C ~~ &"integer" ~~ Opt &"NL"));
  ("linestyledef", normal (str "LINESTYLEDEF:" ~~ CT ~~ C ~~ CT ~~ C ~~ CT ~~ Opt (C ~~ (&"integer" ~~ Star (str "," ~~ &"integer"))) ~~ Opt &"NL"));
  ("override_sct", normal (str "OVERRIDE_SCT_MAP:" ~~ BT ~~ Opt (str "\" ~~ CT) ~~ Opt &"NL"));
  ("sctfilepath", normal (str "SCTFILEPATH:" ~~ CT ~~ Opt &"NL"));
  ("map", normal (str "MAP:" ~~ CT ~~ &"NL" ~~ Plus &"map_setting"));
  ("map_setting", silent (Star SPTAB ~~ (
      &"folder" // &"colour" // &"asrdata" // &"active" // &"andactive" // &"layer" // &"mapsymbol"
      // &"fontstyle" // &"fontsize" // &"zoom" // &"style" // &"mapline" // &"text" // &"global"
      // &"screen_specific" // &"circle" // &"coordline" // &"coordpoly" // &"coord" // &"textalign"
      // &"override_sct" // &"hidden" // &"sctfiledata" // &"sctdata" // &"coord_af" // &"coord_hm"
      // &"coord_pbd") ~~ Opt &"NL"));
  ("folder", normal (str "FOLDER:" ~~ CT));
  ("colour", normal (str "COLOR:" ~~ CT ~~ Opt (C ~~ CT) ~~ Opt (C ~~ CT)));
  ("asrdata", normal (str "ASRDATA:" ~~ WN));
  ("active", normal (str "ACTIVE:" ~~ &"active_options"));
  ("andactive", normal (str "AND_ACTIVE:" ~~ &"active_options"));
  ("active_options", silent (&"active_sched" // &"active_id" // &"active_notam" // &"active_aup" // &"active_area_with_excludes" // &"active_area"
     // &"active_callsign" // &"active_rwy_with_excludes" // &"active_rwy" // &"active_always" // &"active_map"));
  ("active_always", normal (str "1"));
  ("active_id", normal (str "ID:" ~~ WN ~~ C ~~ WN ~~ C ~~ WN ~~ C ~~ WN));
  ("active_callsign", normal (str "CALLSIGN:" ~~ WN ~~ C ~~ WN ~~ C ~~ WN ~~ C ~~ WN));
  ("active_area", normal (str "AREA:" ~~ &"names"));
  ("active_area_with_excludes", normal (str "AREA:" ~~ &"names" ~~ C ~~ &"names"));
  ("active_aup", normal (str "AUP:" ~~ &"names"));
  ("active_map", normal (str "MAP:" ~~ &"active_map_operator" ~~ C ~~ BT ~~ str "\" ~~ CT));
  ("active_notam", normal (str "NOTAM:" ~~ &"icao" ~~ C ~~ &"names"));
  ("active_rwy", normal (str "RWY:ARR:" ~~ WR ~~ str ":DEP:" ~~ WR));
  ("active_rwy_with_excludes", normal (str "RWY:ARR:" ~~ WR ~~ C ~~ WR ~~ str ":DEP:" ~~ WR ~~ C ~~ WR));
  ("runways", normal (&"runway" ~~ Star (str "," ~~ &"runway")));
  ("active_sched", normal ((&"ymd" // &"md") ~~ C ~~ (&"ymd" // &"md") ~~ C ~~ Plus ASCII_DIGIT ~~ C ~~ &"hm" ~~ C ~~ &"hm"));
  ("active_map_operator", normal (str "!" // str "="));
  ("layer", normal (str "LAYER:" ~~ &"integer"));
  ("mapsymbol", normal (str "SYMBOL" ~~ Opt (str "/" ~~ &"textalign_config") ~~ C ~~ CT ~~ C ~~ CO ~~ Opt (C ~~ &"mapsymbollabel")));
  ("mapsymbollabel", normal (CT ~~ C ~~ &"point"));
  ("fontstyle", normal (str "FONTSTYLE:" ~~ (&"fontstyle_set" // &"fontstyle_default")));
  ("fontstyle_default", normal (str "0"));
  ("fontstyle_set", normal (&"integer" ~~ C ~~ &"boolean" ~~ C ~~ &"boolean" ~~ C ~~ &"boolean"));
  ("fontsize", normal (str "FONTSIZE:" ~~ ((&"font_symbol" ~~ C ~~ &"decimal") // &"fontsize_default")));
  ("fontsize_default", normal (str "0"));
  ("font_symbol", normal (str "=" // str "+" // str "-" // str "*"));
  ("zoom", normal (str "ZOOM:" ~~ &"decimal"));
  ("style", normal (str "STYLE:" ~~ CT ~~ Opt (C ~~ &"integer")));
  ("mapline", normal (Plus (str "LINE:" ~~ (&"maplinecoordinates" // &"maplinewpts") ~~ Opt &"NL")));
  ("maplinecoordinates", normal (&"coordinate" ~~ C ~~ &"coordinate"));
  ("maplinewpts", normal (CT ~~ C ~~ CT));
  ("text", normal (str "TEXT" ~~ Opt (str "/" ~~ &"textalign_config") ~~ C ~~ CO ~~ C ~~ &"text_content"));
  ("text_content", normal (Plus (until &"NL")));
  ("textalign", normal (str "TEXTALIGN:" ~~ &"textalign_config"));
  ("textalign_config", normal (Opt &"horizontalalign" ~~ Opt &"verticalalign"));
  ("horizontalalign", normal (str "L" // str "C" // str "R"));
  ("verticalalign", normal (str "T" // str "C" // str "B"));
  ("screen_specific", normal (str "SCREEN-SPECIFIC"));
  ("global", normal (str "GLOBAL"));
  ("inbound_course", normal (&"decimal" ~~ Opt &"is_magnetic"));
  ("is_magnetic", normal (str "M"));
  ("turn_direction", normal (str "L" // str "R"));
  ("length", normal (&"decimal" ~~ Opt &"is_minutes"));
  ("is_minutes", normal (str "MIN"));
  ("radius", normal (&"decimal" ~~ Opt &"is_knots"));
  ("is_knots", normal (str "KTS"));
  ("hidden", normal (str "HIDDEN"));
  ("circle", normal ((str "COORD_CIRCLE:" // str "CIRCLE:") ~~ &"coordinate" ~~ C ~~ &"decimal" ~~ C ~~ &"decimal"));
  ("coord", normal (str "COORD:" ~~ CO));
  ("coord_af", normal (str "COORD_AF:" ~~ CO ~~ C ~~ ((&"decimal" ~~ C) ~~ (&"decimal" ~~ C) ~~ (&"decimal" ~~ C)) ~~ &"direction" ~~ C ~~ &"decimal"));
  ("coord_hm", normal (str "COORD_HM:" ~~ CO ~~ C ~~ &"inbound_course" ~~ C ~~ &"turn_direction" ~~ C ~~ &"length" ~~ C ~~ &"radius" ~~ C ~~ &"decimal"));
  ("coord_pbd", normal (str "COORD_PBD:" ~~ &"icao" ~~ str "/" ~~ &"runway_designator" ~~ C ~~ &"decimal" ~~ C ~~ Plus ASCII_DIGIT));
  ("coordline", normal (str "COORDLINE"));
  ("coordpoly", normal (str "COORDPOLY:" ~~ &"integer"));
  ("sctfiledata", normal (str "SCTFILEDATA" ~~ Opt &"sctfiledata_ignore_style" ~~ C ~~ BT ~~ str "\" ~~ BT));
  ("sctfiledata_ignore_style", normal (str "/MONO"));
  ("sctdata", normal (str "SCTDATA" ~~ C ~~ BT ~~ str "\" ~~ BT));
  ("names", normal (&"comma_delimited_text" ~~ Star (str "," ~~ &"comma_delimited_text")));
  ("wildcard", normal (str "*"));
  ("md", normal (D2 ~~ D2));
  ("ymd", normal (D2 ~~ D2 ~~ D2));
  ("hm", normal (D2 ~~ D2));
  ("runway", normal (&"icao" ~~ &"runway_designator"));
  ("icao", normal (ASCII_ALPHA_UPPER ~~ ASCII_ALPHA_UPPER ~~ ASCII_ALPHA_UPPER ~~ ASCII_ALPHA_UPPER));
  ("boolean", normal (str "0" // str "1"));
  ("COMMENT", silent (Star SPTAB ~~ (str "//" // str ";") ~~ Star (until &"NL")))
].

(** The parse calls: format, grammar, start rule (src/sct.rs:1062, src/ese.rs:636, src/asr.rs:430, src/prf.rs:129,
    src/airway.rs:84, src/isec.rs:58, src/icao_aircraft.rs:28, src/icao_airlines.rs:57, src/icao_airports.rs:28,
    src/navdata_airports.rs:34, src/symbology.rs:244, src/topsky/symbol.rs:122, src/topsky/map/mod.rs:423,
    src/topsky/settings.rs:76) *)
Definition formats : list (string * grammar * string) := [
  ("sct", sct_grammar, "sct"); ("ese", ese_grammar, "ese"); ("asr", asr_grammar, "asr"); ("prf", prf_grammar, "prf");
  ("airway", airway_grammar, "airways"); ("isec", isec_grammar, "wpts");
  ("icao_aircraft", icao_aircraft_grammar, "aircraft"); ("icao_airlines", icao_airlines_grammar, "airlines");
  ("icao_airports", icao_airports_grammar, "aircraft"); ("navdata_airports", navdata_grammar, "airports");
  ("symbology", symbology_grammar, "symbology"); ("topsky_symbols", topsky_grammar, "symbols");
  ("topsky_maps", topsky_grammar, "maps"); ("topsky_settings", topsky_settings_grammar, "settings")
].
