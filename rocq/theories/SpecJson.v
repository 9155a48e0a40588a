(** Specification vocabulary for the JSON form of an adaptation (C68-C71).  Of the model only the types of the data, the JSON values and
    the reading of written numbers are used. *)
From Verif Require Import Base Num Float Paths Colours SpecColours Settings Adaptation SpecAdaptation Json.
From Verif Require Constraints Locations Airways Sectors Maps SctData SctItems Icao.
Local Open Scope string_scope.
Local Open Scope list_scope.

(** ** Numbers *)

(** A float that JSON can express: neither NaN nor infinite *)
Definition number (prec emax : Z) (x : spec_float) : Prop :=
  SpecFloat.valid_binary prec emax x = true /\ match x with S754_nan | S754_infinity _ => False | _ => True end.
Definition is64 := number 53 1024.
Definition is32 := number 24 128.

(** Numbers are read as they were written. *)
Definition faithful (nm : numerals) : Prop :=
  (forall x, is64 x -> read64 nm (write64 nm x) = Some x) /\
  (forall x, is32 x -> read32 nm (write32 nm x) = Some x) /\
  (forall z, (- 2 ^ 63 <= z < 2 ^ 64)%Z -> read_int nm (fmt_int z) = Some z).

(** What is read as a float is a number. *)
Definition reads_numbers (nm : numerals) : Prop :=
  (forall n x, read64 nm n = Some x -> is64 x) /\ (forall n x, read32 nm n = Some x -> is32 x).

(** Two JSON values that differ in the order of the members of objects and in written numbers related by [R] *)
Inductive alike (R : text -> text -> Prop) : json -> json -> Prop :=
| AlNull : alike R JNull JNull
| AlBool b : alike R (JBool b) (JBool b)
| AlNum n n' : R n n' -> alike R (JNum n) (JNum n')
| AlStr s : alike R (JStr s) (JStr s)
| AlArr l l' : Forall2 (alike R) l l' -> alike R (JArr l) (JArr l')
| AlObj o p o' : Permutation o p -> Forall2 (fun e e' => fst e = fst e' /\ alike R (snd e) (snd e')) p o' -> alike R (JObj o) (JObj o').
Definition reordered : json -> json -> Prop := alike eq.
(** [n'] is read like [n] wherever [n] can be read *)
Definition same_number (nm : numerals) (n n' : text) : Prop :=
  (forall x, read64 nm n = Some x -> read64 nm n' = Some x) /\ (forall x, read32 nm n = Some x -> read32 nm n' = Some x) /\
  (forall z, read_int nm n = Some z -> read_int nm n' = Some z).
Definition restated (nm : numerals) : json -> json -> Prop := alike (same_number nm).

(** ** Adaptations JSON can express

    The values have the ranges of their Rust types, keys are unique, paths consist of names, and: floats are numbers and colours opaque. *)
Definition point_ok (p : point) : Prop := is64 (fst p) /\ is64 (snd p).
Definition colour_ok (c : colour) : Prop := wf_colour c /\ ca c = 255%N.
Definition path_ok (p : path) : Prop := forall c, In c (comps p) -> c <> [] /\ c <> s2t "." /\ ~ In 47%N c.
Definition when {A} (P : A -> Prop) (o : option A) : Prop := match o with Some a => P a | None => True end.
Definition entries {K A} (P : A -> Prop) (m : list (K * A)) : Prop := NoDup (map fst m) /\ forall k a, In (k, a) m -> P a.
Definition multi {A} (P : A -> Prop) : list (text * list A) -> Prop := entries (Forall P).
Definition u32_ok (n : N) : Prop := (n < 2 ^ 32)%N.
Definition i32_ok (z : Z) : Prop := (- 2 ^ 31 <= z < 2 ^ 31)%Z.
Definition i64_ok (z : Z) : Prop := (- 2 ^ 63 <= z < 2 ^ 63)%Z.
Definition usize_ok (n : nat) : Prop := (N.of_nat n < 2 ^ 64)%N.

Definition fix_ok (x : Locations.fix_) : Prop := point_ok (Locations.f_pos x).
Definition nav_ok (x : Locations.nav) : Prop := point_ok (Locations.n_pos x).
Definition runway_ok (x : Locations.runway) : Prop :=
  u32_ok (fst (Locations.r_hdg x)) /\ u32_ok (snd (Locations.r_hdg x)) /\ point_ok (fst (Locations.r_loc x)) /\ point_ok (snd (Locations.r_loc x)).
Definition airport_ok (x : Locations.airport) : Prop := point_ok (Locations.ap_pos x) /\ Forall runway_ok (Locations.ap_runways x).
Definition procedure_ok (x : Locations.procedure) : Prop := Forall fix_ok (Locations.pr_wpts x).
Definition edge_ok (x : Airways.edge) : Prop := usize_ok (Airways.e_to x) /\ when u32_ok (Airways.e_min x) /\ when u32_ok (Airways.e_max x).
Definition gfix_ok (x : Airways.gfix) : Prop :=
  point_ok (Airways.g_pos x) /\ entries (Forall edge_ok) (Airways.g_edges x) /\ Forall usize_ok (map fst (Airways.g_edges x)).
Definition graph_ok (x : Airways.graph) : Prop :=
  Forall gfix_ok (Airways.fixes x) /\ multi usize_ok (Airways.fix_id_by_name x) /\ entries usize_ok (Airways.airway_id_by_name x).
Definition locations_ok (x : all_locations) : Prop :=
  let p := al_points x in
  multi fix_ok (Locations.l_fixes p) /\ multi nav_ok (Locations.l_vors p) /\ multi nav_ok (Locations.l_ndbs p) /\
  entries airport_ok (Locations.l_airports p) /\ graph_ok (al_airways x) /\
  entries (multi procedure_ok) (Locations.l_sids p) /\ entries (multi procedure_ok) (Locations.l_stars p).

Definition position_ok (x : position) : Prop := Forall point_ok (ps_points x).
Definition volume_ok (x : Sectors.volume) : Prop := u32_ok (Sectors.v_lower x) /\ u32_ok (Sectors.v_upper x) /\ Forall point_ok (Sectors.v_border x).
Definition sector_ok (x : Sectors.sector) : Prop := NoDup (Sectors.sc_volumes x) /\ NoDup (Sectors.sc_dep x) /\ NoDup (Sectors.sc_arr x).
Definition timing_ok (x : Constraints.timing) : Prop :=
  when is32 (Constraints.t_act x) /\ when is32 (Constraints.t_abi x) /\ when is32 (Constraints.t_rev x).
Definition constraint_ok (x : Constraints.constraint) : Prop :=
  when u32_ok (Constraints.c_climb x) /\ when u32_ok (Constraints.c_descent x) /\ when timing_ok (Constraints.c_timing x).

Definition lines_ok : list (list point) -> Prop := Forall (Forall point_ok).
Definition style_ok (x : line_style) : Prop := i32_ok (ls_width x).
Definition label_ok (x : Maps.label) : Prop := point_ok (Maps.lb_coord x).
Definition symbol_ok (x : Maps.dsymbol) : Prop := point_ok (Maps.ds_coord x) /\ point_ok (Maps.ds_offset x).
Definition group_ok (x : Maps.group) : Prop :=
  colour_ok (Maps.g_colour x) /\ is32 (Maps.g_font x) /\ is32 (Maps.g_layer x) /\ when is32 (Maps.g_zoom x) /\ lines_ok (Maps.g_lines x) /\
  Forall label_ok (Maps.g_labels x) /\ Forall symbol_ok (Maps.g_symbols x) /\ lines_ok (Maps.g_polygons x) /\ style_ok (Maps.g_style x).
Definition map_ok (x : Maps.map_) : Prop := Forall group_ok (Maps.m_groups x).
Definition folder_ok (x : Maps.folder) : Prop := entries map_ok (Maps.fo_maps x).

Definition rule_ok (x : symbol_rule) : Prop :=
  match x with
  | SMove p | SLine p | SPixel p => point_ok p
  | SArc p r a b | SFilledArc p r a b => point_ok p /\ is64 r /\ i64_ok a /\ i64_ok b
  | SEllipticArc p r q a b | SFilledEllipticArc p r q a b => point_ok p /\ is64 r /\ is64 q /\ i64_ok a /\ i64_ok b
  | SPolygon l => Forall point_ok l
  end.
Definition symbols_ok (x : symbols) : Prop :=
  Forall (Forall rule_ok) [sy_history x; sy_fix x; sy_ndb x; sy_vor x; sy_airport x; sy_primary x; sy_coasted x; sy_uncontrolled x; sy_controlled x] /\
  entries (Forall rule_ok) (sy_other x).
(** the groups of colours with the fields of Colours.v *)
Definition colours_ok (x : colours) : Prop :=
  map fst (col_track x) = map fst (track_colours [] false) /\ map fst (col_sector x) = map fst (sector_colours []) /\
  map fst (col_map x) = map fst (map_colours []) /\ map fst (col_ui x) = map fst (ui_colours [] false) /\
  Forall (fun e => colour_ok (snd e)) (col_track x ++ col_sector x ++ col_map x ++ col_ui x) /\ entries colour_ok (col_other x).
Definition dash_ok (x : dash) : Prop := is32 (d_len x) /\ is32 (d_gap x).
Definition settings_ok (x : settings) : Prop :=
  is32 (Maps.st_font (se_maps x)) /\ is32 (Maps.st_layer (se_maps x)) /\ point_ok (Maps.st_offset (se_maps x)) /\ when path_ok (se_font x) /\
  (let l := se_lines x in
   Forall style_ok [li_runway l; li_geo l; li_sid l; li_star l; li_high l; li_low l; li_artcc_low l; li_artcc l; li_artcc_high l]) /\
  (let l := se_labels x in Forall (fun e => is32 (snd e)) [la_vor l; la_ndb l; la_fix l; la_airport l; la_runway l]) /\
  is32 (snd (se_vector x)) /\ Forall is32 (se_vector_options x) /\ u32_ok (snd (se_dots x)) /\ Forall u32_ok (se_dots_options x) /\
  NoDup (map fst (se_codes x)) /\ Forall path_ok (se_asr x) /\
  (let c := se_coordination x in Forall is32 [co_act c; co_abi c; co_rev c; co_lam c] /\ entries timing_ok (co_firs c)).

Definition aircraft_ok (x : Icao.aircraft) : Prop := (Icao.ac_engines x < 256)%N.
Definition coloured_ok (x : SctItems.coloured_lines) : Prop := colour_ok (SctItems.cl_colour x) /\ lines_ok (SctItems.cl_lines x).
Definition location_ok (x : Locations.location) : Prop := match x with Locations.LCoord p => point_ok p | Locations.LFix _ => True end.
Definition region_ok (x : SctData.region) : Prop := Forall point_ok (SctData.rg_polygon x).
Definition sct_label_ok (x : SctData.sct_label) : Prop := location_ok (SctData.sb_coord x).
Definition sct_items_ok (x : SctItems.sct_items) : Prop :=
  multi coloured_ok (SctItems.si_sids x) /\ multi coloured_ok (SctItems.si_stars x) /\ multi lines_ok (SctItems.si_high_airways x) /\
  multi lines_ok (SctItems.si_low_airways x) /\ multi coloured_ok (SctItems.si_artccs_high x) /\ multi coloured_ok (SctItems.si_artccs x) /\
  multi coloured_ok (SctItems.si_artccs_low x) /\ multi coloured_ok (SctItems.si_geo x) /\ multi region_ok (SctItems.si_regions x) /\
  multi sct_label_ok (SctItems.si_labels x).

Definition expressible (a : adaptation) : Prop :=
  locations_ok (ad_locations a) /\ entries position_ok (ad_positions a) /\ entries volume_ok (ad_volumes a) /\ entries sector_ok (ad_sectors a) /\
  entries constraint_ok (ad_departure a) /\ entries constraint_ok (ad_destination a) /\ entries folder_ok (ad_maps a) /\ symbols_ok (ad_symbols a) /\
  colours_ok (ad_colours a) /\ entries (when (Forall dash_ok)) (ad_line_styles a) /\ settings_ok (ad_settings a) /\ entries aircraft_ok (ad_aircraft a) /\
  entries (fun _ => True) (ad_airlines a) /\ sct_items_ok (ad_sct_items a).

(** ** The document that is written

    Colours are written as in C04. *)
Section Document.
Context (nm : numerals).
Definition obj (l : list (string * json)) : json := JObj (map (fun '(k, j) => (s2t k, j)) l).
Definition w_name (k : string) : json := JStr (s2t k).
Definition tagged (k : string) (j : json) : json := obj [(k, j)].
(** null for what is no number *)
Definition w_float (write : spec_float -> text) (x : spec_float) : json :=
  match x with S754_nan | S754_infinity _ => JNull | _ => JNum (write x) end.
Definition w_f64 := w_float (write64 nm).
Definition w_f32 := w_float (write32 nm).
Definition w_int (z : Z) : json := JNum (fmt_int z).
Definition w_nat (n : N) : json := w_int (Z.of_N n).
Definition w_id (n : nat) : json := w_int (Z.of_nat n).
Definition w_option {A} (w : A -> json) (o : option A) : json := match o with Some a => w a | None => JNull end.
Definition w_list {A} (w : A -> json) (l : list A) : json := JArr (map w l).
Definition w_map {A} (w : A -> json) (l : list (text * A)) : json := JObj (map (fun '(k, a) => (k, w a)) l).
Definition w_multi {A} (w : A -> json) : list (text * list A) -> json := w_map (w_list w).
Definition w_pair {A} (w : A -> json) (p : A * A) : json := JArr [w (fst p); w (snd p)].
Definition w_colour (c : colour) : json := JStr (serialize_colour c).
Definition w_path (p : path) : json := JStr (display p).

Definition w_point (p : point) : json := obj [("x", w_f64 (fst p)); ("y", w_f64 (snd p))].
Definition w_lines : list (list point) -> json := w_list (w_list w_point).
Definition w_polygon (l : list point) : json := obj [("exterior", w_list w_point l); ("interiors", JArr [])].
Definition w_xy : point -> json := w_pair w_f64.
Definition w_fix (x : Locations.fix_) : json := obj [("designator", JStr (Locations.f_des x)); ("coordinate", w_point (Locations.f_pos x))].
Definition w_nav (x : Locations.nav) : json :=
  obj [("designator", JStr (Locations.n_des x)); ("frequency", JStr (Locations.n_freq x)); ("coordinate", w_point (Locations.n_pos x))].
Definition w_runway (x : Locations.runway) : json :=
  obj [("designators", w_pair JStr (Locations.r_des x)); ("headings", w_pair w_nat (Locations.r_hdg x)); ("location", w_pair w_point (Locations.r_loc x));
       ("aerodrome", JStr (Locations.r_ad x))].
Definition w_airport (x : Locations.airport) : json :=
  obj [("designator", JStr (Locations.ap_des x)); ("coordinate", w_point (Locations.ap_pos x)); ("name", w_option JStr (Locations.ap_name x));
       ("country", w_option JStr (Locations.ap_country x)); ("runways", w_list w_runway (Locations.ap_runways x))].
Definition w_procedure (x : Locations.procedure) : json :=
  obj [("name", JStr (Locations.pr_name x)); ("airport", JStr (Locations.pr_airport x)); ("runway", w_option JStr (Locations.pr_runway x));
       ("waypoints", w_list w_fix (Locations.pr_wpts x))].
Definition w_edge (x : Airways.edge) : json :=
  obj [("to", w_id (Airways.e_to x)); ("valid_direction", JBool (Airways.e_valid x)); ("minimum_level", w_option w_nat (Airways.e_min x));
       ("maximum_level", w_option w_nat (Airways.e_max x));
       ("airway_type", w_name match Airways.e_type x with Airways.AHigh => "High" | Airways.ALow => "Low" | Airways.ABoth => "Both" | Airways.AUnknown => "Unknown" end)].
Definition w_gfix (x : Airways.gfix) : json :=
  obj [("position", w_point (Airways.g_pos x)); ("edges", JObj (map (fun '(k, l) => (fmt_int (Z.of_nat k), w_list w_edge l)) (Airways.g_edges x)))].
Definition w_graph (x : Airways.graph) : json :=
  obj [("fixes", w_list w_gfix (Airways.fixes x)); ("fix_id_by_name", w_multi w_id (Airways.fix_id_by_name x));
       ("fix_name_by_id", w_list JStr (Airways.fix_name_by_id x)); ("airway_id_by_name", w_map w_id (Airways.airway_id_by_name x));
       ("airway_name_by_id", w_list JStr (Airways.airway_name_by_id x))].
Definition w_locations (x : all_locations) : json :=
  let p := al_points x in
  obj [("fixes", w_multi w_fix (Locations.l_fixes p)); ("vors", w_multi w_nav (Locations.l_vors p)); ("ndbs", w_multi w_nav (Locations.l_ndbs p));
       ("airports", w_map w_airport (Locations.l_airports p)); ("airways", w_graph (al_airways x));
       ("sids", w_map (w_multi w_procedure) (Locations.l_sids p)); ("stars", w_map (w_multi w_procedure) (Locations.l_stars p))].

Definition w_position (x : position) : json :=
  obj [("id", JStr (ps_id x)); ("name", JStr (ps_name x)); ("frequency", JStr (ps_frequency x)); ("prefix", JStr (ps_prefix x)); ("suffix", JStr (ps_suffix x));
       ("visibility_points", w_list w_point (ps_points x))].
Definition w_volume (x : Sectors.volume) : json :=
  obj [("id", JStr (Sectors.v_id x)); ("lower_level", w_nat (Sectors.v_lower x)); ("upper_level", w_nat (Sectors.v_upper x));
       ("lateral_border", w_polygon (Sectors.v_border x)); ("private", JNull)].
Definition w_runway_of (icao designator : text) : json := obj [("icao", JStr icao); ("designator", JStr designator)].
Definition w_sector (x : Sectors.sector) : json :=
  obj [("id", JStr (Sectors.sc_id x)); ("position_priority", w_list JStr (Sectors.sc_priority x));
       ("runway_filter", w_list (w_list (fun r => w_runway_of (fst r) (snd r))) (Sectors.sc_filter x)); ("volumes", w_list JStr (Sectors.sc_volumes x));
       ("departure_aerodromes", w_list JStr (Sectors.sc_dep x)); ("arrival_aerodromes", w_list JStr (Sectors.sc_arr x))].
Definition w_timing (x : Constraints.timing) : json :=
  obj [("act_time", w_option w_f32 (Constraints.t_act x)); ("abi_time", w_option w_f32 (Constraints.t_abi x)); ("rev_time", w_option w_f32 (Constraints.t_rev x))].
Definition w_constraint (x : Constraints.constraint) : json :=
  obj [("previous_fix", w_option JStr (Constraints.c_prev x)); ("departure_runway", w_option JStr (Constraints.c_dep x));
       ("subsequent_fix", w_option JStr (Constraints.c_next x)); ("arrival_runway", w_option JStr (Constraints.c_arr x)); ("fix", w_option JStr (Constraints.c_fix x));
       ("exit_sector", JStr (Constraints.c_exit x)); ("entry_sector", JStr (Constraints.c_entry x)); ("climb_level", w_option w_nat (Constraints.c_climb x));
       ("descent_level", w_option w_nat (Constraints.c_descent x)); ("description", JStr (Constraints.c_desc x));
       ("coord_timing", w_option w_timing (Constraints.c_timing x))].

Definition w_alignment (x : alignment) : json :=
  obj [("horizontal", w_name match fst x with HLeft => "Left" | HCenter => "Center" | HRight => "Right" end);
       ("vertical", w_name match snd x with VTop => "Top" | VCenter => "Center" | VBottom => "Bottom" end)].
Definition w_style (x : line_style) : json := obj [("width", w_int (ls_width x)); ("style", JStr (ls_style x))].
Definition w_runways (l : list Maps.runway_id) : json := w_list (fun r => w_runway_of (Maps.ri_icao r) (Maps.ri_des r)) l.
Definition w_ids (x : Maps.active_ids) : json :=
  let w := w_option (w_list JStr) in
  obj [("own", w (Maps.ai_own x)); ("own_excludes", w (Maps.ai_own_ex x)); ("online", w (Maps.ai_online x)); ("online_excludes", w (Maps.ai_online_ex x))].
Definition w_active (x : Maps.active) : json :=
  match x with
  | Maps.ATrue => w_name "True"
  | Maps.ASchedule => w_name "Schedule"
  | Maps.AAup l => tagged "Aup" (w_list JStr l)
  | Maps.ANotam i l => tagged "Notam" (JArr [JStr i; w_list JStr l])
  | Maps.AArea a => tagged "Area" (obj [("areas", w_list JStr (Maps.aa_areas a)); ("area_excludes", w_option (w_list JStr) (Maps.aa_ex a))])
  | Maps.AId a => tagged "Id" (w_ids a)
  | Maps.ACallsign a => tagged "Callsign" (w_ids a)
  | Maps.ARunway a => tagged "Runway" (obj [
      ("arrival", w_option w_runways (Maps.ar_arr a)); ("arrival_excludes", w_option w_runways (Maps.ar_arr_ex a));
      ("departure", w_option w_runways (Maps.ar_dep a)); ("departure_excludes", w_option w_runways (Maps.ar_dep_ex a))])
  | Maps.AMap same f n => tagged "Map" (JArr [w_name (if same then "Same" else "Opposite"); JStr f; JStr n])
  end.
Definition w_label (x : Maps.label) : json :=
  obj [("coordinate", w_point (Maps.lb_coord x)); ("alignment", w_alignment (Maps.lb_align x)); ("text", JStr (Maps.lb_text x))].
Definition w_dsymbol (x : Maps.dsymbol) : json :=
  obj [("name", JStr (Maps.ds_name x)); ("coordinate", w_point (Maps.ds_coord x)); ("label", w_option JStr (Maps.ds_label x));
       ("label_alignment", w_alignment (Maps.ds_align x)); ("label_offset", w_xy (Maps.ds_offset x))].
Definition w_group (x : Maps.group) : json :=
  obj [("colour", w_colour (Maps.g_colour x)); ("font_size", w_f32 (Maps.g_font x)); ("layer", w_f32 (Maps.g_layer x));
       ("asr_data", w_option (w_list JStr) (Maps.g_asr x)); ("zoom", w_option w_f32 (Maps.g_zoom x)); ("lines", w_lines (Maps.g_lines x));
       ("labels", w_list w_label (Maps.g_labels x)); ("symbols", w_list w_dsymbol (Maps.g_symbols x)); ("polygons", w_list w_polygon (Maps.g_polygons x));
       ("line_style", w_style (Maps.g_style x))].
Definition w_map_ (x : Maps.map_) : json :=
  obj [("name", JStr (Maps.m_name x)); ("folder", JStr (Maps.m_folder x)); ("map_groups", w_list w_group (Maps.m_groups x));
       ("hidden", JBool (Maps.m_hidden x)); ("active", w_list (w_list w_active) (Maps.m_active x))].
Definition w_folder (x : Maps.folder) : json :=
  obj [("name", JStr (Maps.fo_name x)); ("hidden", JBool (Maps.fo_hidden x)); ("maps", w_map w_map_ (Maps.fo_maps x))].

Definition w_rule (x : symbol_rule) : json :=
  match x with
  | SMove p => tagged "Move" (w_xy p)
  | SLine p => tagged "Line" (w_xy p)
  | SPixel p => tagged "Pixel" (w_xy p)
  | SArc p r a b => tagged "Arc" (JArr [w_xy p; w_f64 r; w_int a; w_int b])
  | SEllipticArc p r q a b => tagged "EllipticArc" (JArr [w_xy p; w_f64 r; w_f64 q; w_int a; w_int b])
  | SFilledArc p r a b => tagged "FilledArc" (JArr [w_xy p; w_f64 r; w_int a; w_int b])
  | SFilledEllipticArc p r q a b => tagged "FilledEllipticArc" (JArr [w_xy p; w_f64 r; w_f64 q; w_int a; w_int b])
  | SPolygon l => tagged "Polygon" (w_list w_xy l)
  end.
Definition w_symbol : list symbol_rule -> json := w_list w_rule.
Definition w_symbols (x : symbols) : json :=
  obj [("history_dot", w_symbol (sy_history x)); ("fix", w_symbol (sy_fix x)); ("ndb", w_symbol (sy_ndb x)); ("vor", w_symbol (sy_vor x));
       ("airport", w_symbol (sy_airport x)); ("primary", w_symbol (sy_primary x)); ("coasted", w_symbol (sy_coasted x));
       ("uncontrolled", w_symbol (sy_uncontrolled x)); ("controlled", w_symbol (sy_controlled x)); ("other", w_map w_symbol (sy_other x))].
(** a group of colours: every colour in a member with its name *)
Definition w_colours_of (fields : list string) (l : list (string * colour)) : json :=
  obj (map (fun k => (k, match get k l with Some c => w_colour c | None => w_name "#000000" end)) fields).
Definition w_colours (x : colours) : json :=
  obj [("track", w_colours_of ["assumed"; "advanced"; "concerned"; "unconcerned"; "flight_leg"; "predicted_alert"; "current_alert"; "reaction"; "cleared"; "vfr"]
          (col_track x));
       ("sector", w_colours_of ["active_background"; "inactive_background"] (col_sector x));
       ("map", w_colours_of ["fix_symbol"; "fix_name"; "airport_symbol"; "airport_name"; "ndb_symbol"; "ndb_name"; "ndb_frequency"; "vor_symbol"; "vor_name";
          "vor_frequency"; "low_airway_line"; "low_airway_name"; "high_airway_line"; "high_airway_name"; "sid"; "star"; "artcc_boundary"; "artcc_low_boundary";
          "artcc_high_boundary"; "geo"; "runway_centreline"; "runway_extended_centreline"; "runway_name"; "free_text"] (col_map x));
       ("ui", w_colours_of ["foreground"; "background"; "armed"; "window_title_background_selected"; "text_input"; "warning"; "alert"] (col_ui x));
       ("other", w_map w_colour (col_other x))].
Definition w_dash (x : dash) : json := obj [("length", w_f32 (d_len x)); ("gap", w_f32 (d_gap x))].
Definition w_settings (x : settings) : json :=
  let m := se_maps x in let l := se_lines x in let t := se_labels x in let c := se_coordination x in
  obj [("maps", obj [
          ("font", w_option w_path (se_font x)); ("font_size", w_f32 (Maps.st_font m)); ("auto_folder", JStr (Maps.st_auto m)); ("layer", w_f32 (Maps.st_layer m));
          ("label_offset", w_xy (Maps.st_offset m));
          ("line_styles", obj [("runway_centreline", w_style (li_runway l)); ("geo", w_style (li_geo l)); ("sid", w_style (li_sid l)); ("star", w_style (li_star l));
             ("high_airways", w_style (li_high l)); ("low_airways", w_style (li_low l)); ("artcc_low", w_style (li_artcc_low l)); ("artcc", w_style (li_artcc l));
             ("artcc_high", w_style (li_artcc_high l))]);
          ("labels", obj [("vor_alignment", w_alignment (fst (la_vor t))); ("vor_font_size", w_f32 (snd (la_vor t)));
             ("ndb_alignment", w_alignment (fst (la_ndb t))); ("ndb_font_size", w_f32 (snd (la_ndb t)));
             ("fix_alignment", w_alignment (fst (la_fix t))); ("fix_font_size", w_f32 (snd (la_fix t)));
             ("airport_alignment", w_alignment (fst (la_airport t))); ("airport_font_size", w_f32 (snd (la_airport t)));
             ("runway_alignment", w_alignment (fst (la_runway t))); ("runway_font_size", w_f32 (snd (la_runway t)))])]);
       ("track", obj [
          ("vector", obj [("enabled", JBool (fst (se_vector x))); ("length", w_f32 (snd (se_vector x))); ("options", w_list w_f32 (se_vector_options x))]);
          ("history_dots", obj [("enabled", JBool (fst (se_dots x))); ("count", w_nat (snd (se_dots x))); ("options", w_list w_nat (se_dots_options x))])]);
       ("coopans", JBool (se_coopans x)); ("ssr", obj [("special_use_codes", w_map JStr (se_codes x))]); ("asr_files", w_list w_path (se_asr x));
       ("coordination", obj [("act_time", w_f32 (co_act c)); ("abi_time", w_f32 (co_abi c)); ("rev_time", w_f32 (co_rev c)); ("lam_timeout", w_f32 (co_lam c));
          ("fir_overrides", w_map w_timing (co_firs c))])].

Definition w_aircraft (x : Icao.aircraft) : json :=
  obj [("designator", JStr (Icao.ac_designator x));
       ("wtc", w_name match Icao.ac_wtc x with Icao.WtcLight => "LIGHT" | Icao.WtcMedium => "MEDIUM" | Icao.WtcHeavy => "HEAVY" | Icao.WtcSuper => "SUPER"
                                             | Icao.WtcUnknown => "UNKNOWN" end);
       ("aircrafttype", w_name match Icao.ac_type x with Icao.Landplane => "LANDPLANE" | Icao.Seaplane => "SEAPLANE" | Icao.Amphibian => "AMPHIBIAN"
          | Icao.Gyrocopter => "GYROCOPTER" | Icao.Helicopter => "HELICOPTER" | Icao.Tiltrotor => "TILTROTOR" | Icao.UnknownType => "UNKNOWN" end);
       ("num_engines", w_nat (Icao.ac_engines x));
       ("enginetype", w_name match Icao.ac_engine x with Icao.Jet => "JET" | Icao.Turboprop => "TURBOPROP" | Icao.Piston => "PISTON" | Icao.Electric => "ELECTRIC"
          | Icao.Rocket => "ROCKET" | Icao.UnknownEngine => "UNKNOWN" end);
       ("manufacturer", JStr (Icao.ac_manufacturer x)); ("name", JStr (Icao.ac_name x))].
Definition w_airline (x : Icao.airline) : json :=
  obj [("designator", JStr (Icao.al_designator x)); ("name", JStr (Icao.al_name x)); ("callsign", JStr (Icao.al_callsign x)); ("country", JStr (Icao.al_country x))].
Definition w_coloured (x : SctItems.coloured_lines) : json := obj [("colour", w_colour (SctItems.cl_colour x)); ("lines", w_lines (SctItems.cl_lines x))].
Definition w_region (x : SctData.region) : json :=
  obj [("name", JStr (SctData.rg_name x)); ("colour_name", JStr (SctData.rg_colour x)); ("polygon", w_list w_point (SctData.rg_polygon x))].
Definition w_sct_label (x : SctData.sct_label) : json :=
  obj [("name", JStr (SctData.sb_name x));
       ("coordinate", match SctData.sb_coord x with Locations.LFix d => tagged "Fix" (JStr d) | Locations.LCoord p => tagged "Coordinate" (w_point p) end);
       ("colour_name", JStr (SctData.sb_colour x))].
Definition w_sct_items (x : SctItems.sct_items) : json :=
  obj [("sids", w_multi w_coloured (SctItems.si_sids x)); ("stars", w_multi w_coloured (SctItems.si_stars x));
       ("high_airways", w_multi w_lines (SctItems.si_high_airways x)); ("low_airways", w_multi w_lines (SctItems.si_low_airways x));
       ("artccs_high", w_multi w_coloured (SctItems.si_artccs_high x)); ("artccs", w_multi w_coloured (SctItems.si_artccs x));
       ("artccs_low", w_multi w_coloured (SctItems.si_artccs_low x)); ("geo", w_multi w_coloured (SctItems.si_geo x));
       ("regions", w_multi w_region (SctItems.si_regions x)); ("labels", w_multi w_sct_label (SctItems.si_labels x))].
Definition members (a : adaptation) : list (string * json) := [
  ("name", JStr (ad_name a)); ("locations", w_locations (ad_locations a)); ("positions", w_map w_position (ad_positions a));
  ("volumes", w_map w_volume (ad_volumes a)); ("sectors", w_map w_sector (ad_sectors a)); ("departure_constraints", w_map w_constraint (ad_departure a));
  ("destination_constraints", w_map w_constraint (ad_destination a)); ("maps", w_map w_folder (ad_maps a)); ("symbols", w_symbols (ad_symbols a));
  ("colours", w_colours (ad_colours a)); ("line_styles", w_map (w_option (w_list w_dash)) (ad_line_styles a)); ("settings", w_settings (ad_settings a));
  ("aircraft", w_map w_aircraft (ad_aircraft a)); ("airlines", w_map w_airline (ad_airlines a)); ("sct_items", w_sct_items (ad_sct_items a))].
Definition document (a : adaptation) : json := obj (members a).
End Document.

(** The same adaptation without its index *)
Definition without_index (a : adaptation) : adaptation :=
  mkAdaptation (ad_name a) (ad_locations a) (ad_positions a) (ad_volumes a) (ad_sectors a) (ad_departure a) (ad_destination a) (ad_maps a)
    (ad_symbols a) (ad_colours a) (ad_line_styles a) (ad_settings a) (ad_aircraft a) (ad_airlines a) (ad_sct_items a) None.

(** ** The schema of the document *)

(** A member of an object that represents a struct is required, or optional, or optional also at the end of an array *)
Inductive presence := Required | Optional | Defaulted.
Inductive schema :=
| SText | SBool | SNull | SInt (lo hi : Z) | SFloat | SFloat32 | SColour
| SOption (s : schema) | SList (s : schema) | SMap (s : schema) | SIds (s : schema)
| STuple (l : list schema) | SStruct (l : list (string * presence * schema)) | SEnum (l : list (string * option schema)).

(** #rrggbb *)
Definition colour_text (s : text) : Prop :=
  exists ds, s = 35%N :: ds /\ List.length ds = 6 /\ forall c, In c ds -> exists v, hex_digit c v.
Definition once (k : string) (v : json) (o : list (text * json)) : Prop := exists l l', o = l ++ (s2t k, v) :: l' /\ ~ In (s2t k) (map fst (l ++ l')).

Inductive conforms (nm : numerals) : schema -> json -> Prop :=
| CfText s : conforms nm SText (JStr s)
| CfBool b : conforms nm SBool (JBool b)
| CfNull : conforms nm SNull JNull
| CfInt lo hi n z : read_int nm n = Some z -> (lo <= z <= hi)%Z -> conforms nm (SInt lo hi) (JNum n)
| CfFloat n x : read64 nm n = Some x -> conforms nm SFloat (JNum n)
| CfFloat32 n x : read32 nm n = Some x -> conforms nm SFloat32 (JNum n)
| CfColour s : colour_text s -> conforms nm SColour (JStr s)
| CfNone s : conforms nm (SOption s) JNull
| CfSome s j : conforms nm s j -> conforms nm (SOption s) j
| CfList s l : Forall (conforms nm s) l -> conforms nm (SList s) (JArr l)
| CfMap s o : Forall (fun e => conforms nm s (snd e)) o -> conforms nm (SMap s) (JObj o)
| CfIds s o : Forall (fun e => (exists z, read_int nm (fst e) = Some z /\ (0 <= z < 2 ^ 64)%Z) /\ conforms nm s (snd e)) o -> conforms nm (SIds s) (JObj o)
| CfTuple ss l : Forall2 (conforms nm) ss l -> conforms nm (STuple ss) (JArr l)
| CfObject fs o :
    (forall k p s, In (k, p, s) fs -> (p <> Required /\ ~ In (s2t k) (map fst o)) \/ exists v, once k v o /\ conforms nm s v) ->
    conforms nm (SStruct fs) (JObj o)
| CfArray fs l : elements nm fs l -> conforms nm (SStruct fs) (JArr l)
| CfName k vs : In (k, None) vs -> conforms nm (SEnum vs) (JStr (s2t k))
| CfNameNull k vs : In (k, None) vs -> conforms nm (SEnum vs) (JObj [(s2t k, JNull)])
| CfVariant k s v vs : In (k, Some s) vs -> conforms nm s v -> conforms nm (SEnum vs) (JObj [(s2t k, v)])
with elements (nm : numerals) : list (string * presence * schema) -> list json -> Prop :=
| ElNil : elements nm [] []
| ElCons k p s fs v l : conforms nm s v -> elements nm fs l -> elements nm ((k, p, s) :: fs) (v :: l)
| ElAbsent k s fs : elements nm fs [] -> elements nm ((k, Defaulted, s) :: fs) [].

Definition req (k : string) (s : schema) := (k, Required, s).
Definition opt (k : string) (s : schema) := (k, Optional, SOption s).
Definition names (l : list string) : schema := SEnum (map (fun k => (k, None)) l).

Definition s_u32 := SInt 0 4294967295.
Definition s_usize := SInt 0 18446744073709551615.
Definition s_i32 := SInt (-2147483648) 2147483647.
Definition s_i64 := SInt (-9223372036854775808) 9223372036854775807.
Definition s_point := SStruct [req "x" SFloat; req "y" SFloat].
Definition s_lines := SList (SList s_point).
Definition s_polygon := SStruct [req "exterior" (SList s_point); req "interiors" s_lines].
Definition s_xy := STuple [SFloat; SFloat].
Definition s_fix := SStruct [req "designator" SText; req "coordinate" s_point].
Definition s_nav := SStruct [req "designator" SText; req "frequency" SText; req "coordinate" s_point].
Definition s_runway := SStruct [req "designators" (STuple [SText; SText]); req "headings" (STuple [s_u32; s_u32]);
  req "location" (STuple [s_point; s_point]); req "aerodrome" SText].
Definition s_airport := SStruct [req "designator" SText; req "coordinate" s_point; opt "name" SText; opt "country" SText; req "runways" (SList s_runway)].
Definition s_procedure := SStruct [req "name" SText; req "airport" SText; opt "runway" SText; req "waypoints" (SList s_fix)].
Definition s_edge := SStruct [req "to" s_usize; req "valid_direction" SBool; opt "minimum_level" s_u32; opt "maximum_level" s_u32;
  req "airway_type" (names ["High"; "Low"; "Both"; "Unknown"])].
Definition s_graph := SStruct [
  req "fixes" (SList (SStruct [req "position" s_point; req "edges" (SIds (SList s_edge))]));
  req "fix_id_by_name" (SMap (SList s_usize)); req "fix_name_by_id" (SList SText);
  req "airway_id_by_name" (SMap s_usize); req "airway_name_by_id" (SList SText)].
Definition s_locations := SStruct [
  req "fixes" (SMap (SList s_fix)); req "vors" (SMap (SList s_nav)); req "ndbs" (SMap (SList s_nav)); req "airports" (SMap s_airport);
  req "airways" s_graph; req "sids" (SMap (SMap (SList s_procedure))); req "stars" (SMap (SMap (SList s_procedure)))].
Definition s_position := SStruct [req "id" SText; req "name" SText; req "frequency" SText; req "prefix" SText; req "suffix" SText;
  req "visibility_points" (SList s_point)].
Definition s_volume := SStruct [req "id" SText; req "lower_level" s_u32; req "upper_level" s_u32; req "lateral_border" s_polygon; req "private" SNull].
Definition s_runway_id := SStruct [req "icao" SText; req "designator" SText].
Definition s_sector := SStruct [req "id" SText; req "position_priority" (SList SText); req "runway_filter" (SList (SList s_runway_id));
  req "volumes" (SList SText); req "departure_aerodromes" (SList SText); req "arrival_aerodromes" (SList SText)].
Definition s_timing := SStruct [opt "act_time" SFloat32; opt "abi_time" SFloat32; opt "rev_time" SFloat32].
Definition s_constraint := SStruct [opt "previous_fix" SText; opt "departure_runway" SText; opt "subsequent_fix" SText; opt "arrival_runway" SText;
  opt "fix" SText; req "exit_sector" SText; req "entry_sector" SText; opt "climb_level" s_u32; opt "descent_level" s_u32; req "description" SText;
  ("coord_timing", Defaulted, SOption s_timing)].
Definition s_alignment := SStruct [req "horizontal" (names ["Left"; "Center"; "Right"]); req "vertical" (names ["Top"; "Center"; "Bottom"])].
Definition s_style := SStruct [req "width" s_i32; req "style" SText].
Definition s_ids := SStruct [opt "own" (SList SText); opt "own_excludes" (SList SText); opt "online" (SList SText); opt "online_excludes" (SList SText)].
Definition s_active := SEnum [("True", None); ("Schedule", None); ("Aup", Some (SList SText)); ("Notam", Some (STuple [SText; SList SText]));
  ("Area", Some (SStruct [req "areas" (SList SText); opt "area_excludes" (SList SText)])); ("Id", Some s_ids); ("Callsign", Some s_ids);
  ("Runway", Some (SStruct [opt "arrival" (SList s_runway_id); opt "arrival_excludes" (SList s_runway_id);
                            opt "departure" (SList s_runway_id); opt "departure_excludes" (SList s_runway_id)]));
  ("Map", Some (STuple [names ["Same"; "Opposite"]; SText; SText]))].
Definition s_group := SStruct [req "colour" SColour; req "font_size" SFloat32; req "layer" SFloat32; opt "asr_data" (SList SText); opt "zoom" SFloat32;
  req "lines" s_lines; req "labels" (SList (SStruct [req "coordinate" s_point; req "alignment" s_alignment; req "text" SText]));
  req "symbols" (SList (SStruct [req "name" SText; req "coordinate" s_point; opt "label" SText; req "label_alignment" s_alignment; req "label_offset" s_xy]));
  req "polygons" (SList s_polygon); req "line_style" s_style].
Definition s_folder := SStruct [req "name" SText; req "hidden" SBool;
  req "maps" (SMap (SStruct [req "name" SText; req "folder" SText; req "map_groups" (SList s_group); req "hidden" SBool; req "active" (SList (SList s_active))]))].
Definition s_arc := STuple [s_xy; SFloat; s_i64; s_i64].
Definition s_elliptic := STuple [s_xy; SFloat; SFloat; s_i64; s_i64].
Definition s_symbol := SList (SEnum [("Move", Some s_xy); ("Line", Some s_xy); ("Pixel", Some s_xy); ("Arc", Some s_arc); ("EllipticArc", Some s_elliptic);
  ("FilledArc", Some s_arc); ("FilledEllipticArc", Some s_elliptic); ("Polygon", Some (SList s_xy))]).
Definition s_symbols := SStruct (map (fun k => req k s_symbol) ["history_dot"; "fix"; "ndb"; "vor"; "airport"; "primary"; "coasted"; "uncontrolled"; "controlled"]
  ++ [req "other" (SMap s_symbol)]).
Definition s_colour_group (l : list string) := SStruct (map (fun k => req k SColour) l).
Definition s_colours := SStruct [
  req "track" (s_colour_group ["assumed"; "advanced"; "concerned"; "unconcerned"; "flight_leg"; "predicted_alert"; "current_alert"; "reaction"; "cleared"; "vfr"]);
  req "sector" (s_colour_group ["active_background"; "inactive_background"]);
  req "map" (s_colour_group ["fix_symbol"; "fix_name"; "airport_symbol"; "airport_name"; "ndb_symbol"; "ndb_name"; "ndb_frequency"; "vor_symbol"; "vor_name";
    "vor_frequency"; "low_airway_line"; "low_airway_name"; "high_airway_line"; "high_airway_name"; "sid"; "star"; "artcc_boundary"; "artcc_low_boundary";
    "artcc_high_boundary"; "geo"; "runway_centreline"; "runway_extended_centreline"; "runway_name"; "free_text"]);
  req "ui" (s_colour_group ["foreground"; "background"; "armed"; "window_title_background_selected"; "text_input"; "warning"; "alert"]);
  req "other" (SMap SColour)].
Definition s_settings := SStruct [
  req "maps" (SStruct [opt "font" SText; req "font_size" SFloat32; req "auto_folder" SText; req "layer" SFloat32; req "label_offset" s_xy;
    req "line_styles" (SStruct (map (fun k => req k s_style)
      ["runway_centreline"; "geo"; "sid"; "star"; "high_airways"; "low_airways"; "artcc_low"; "artcc"; "artcc_high"]));
    req "labels" (SStruct [req "vor_alignment" s_alignment; req "vor_font_size" SFloat32; req "ndb_alignment" s_alignment; req "ndb_font_size" SFloat32;
      req "fix_alignment" s_alignment; req "fix_font_size" SFloat32; req "airport_alignment" s_alignment; req "airport_font_size" SFloat32;
      req "runway_alignment" s_alignment; req "runway_font_size" SFloat32])]);
  req "track" (SStruct [req "vector" (SStruct [req "enabled" SBool; req "length" SFloat32; req "options" (SList SFloat32)]);
    req "history_dots" (SStruct [req "enabled" SBool; req "count" s_u32; req "options" (SList s_u32)])]);
  req "coopans" SBool; req "ssr" (SStruct [req "special_use_codes" (SMap SText)]); req "asr_files" (SList SText);
  req "coordination" (SStruct [req "act_time" SFloat32; req "abi_time" SFloat32; req "rev_time" SFloat32; req "lam_timeout" SFloat32;
    ("fir_overrides", Defaulted, SMap s_timing)])].
Definition s_aircraft := SStruct [req "designator" SText; req "wtc" (names ["LIGHT"; "MEDIUM"; "HEAVY"; "SUPER"; "UNKNOWN"]);
  req "aircrafttype" (names ["LANDPLANE"; "SEAPLANE"; "AMPHIBIAN"; "GYROCOPTER"; "HELICOPTER"; "TILTROTOR"; "UNKNOWN"]); req "num_engines" (SInt 0 255);
  req "enginetype" (names ["JET"; "TURBOPROP"; "PISTON"; "ELECTRIC"; "ROCKET"; "UNKNOWN"]); req "manufacturer" SText; req "name" SText].
Definition s_airline := SStruct [req "designator" SText; req "name" SText; req "callsign" SText; req "country" SText].
Definition s_coloured := SMap (SList (SStruct [req "colour" SColour; req "lines" s_lines])).
Definition s_sct_items := SStruct [req "sids" s_coloured; req "stars" s_coloured; req "high_airways" (SMap (SList s_lines)); req "low_airways" (SMap (SList s_lines));
  req "artccs_high" s_coloured; req "artccs" s_coloured; req "artccs_low" s_coloured; req "geo" s_coloured;
  req "regions" (SMap (SList (SStruct [req "name" SText; req "colour_name" SText; req "polygon" (SList s_point)])));
  req "labels" (SMap (SList (SStruct [req "name" SText; req "coordinate" (SEnum [("Fix", Some SText); ("Coordinate", Some s_point)]); req "colour_name" SText])))].
Definition parts : list (string * schema) := [
  ("name", SText); ("locations", s_locations); ("positions", SMap s_position); ("volumes", SMap s_volume); ("sectors", SMap s_sector);
  ("departure_constraints", SMap s_constraint); ("destination_constraints", SMap s_constraint); ("maps", SMap s_folder); ("symbols", s_symbols);
  ("colours", s_colours); ("line_styles", SMap (SOption (SList (SStruct [req "length" SFloat32; req "gap" SFloat32])))); ("settings", s_settings);
  ("aircraft", SMap s_aircraft); ("airlines", SMap s_airline); ("sct_items", s_sct_items)].
Definition s_adaptation := SStruct (map (fun '(k, s) => req k s) parts).

(** ** Overlays

    Jsonnet's [+] for an object of plain values: its members replace those of the same name. *)
Definition merged (o p : list (text * json)) : list (text * json) := filter (fun e => negb (existsb (eqb (fst e)) (map fst p))) o ++ p.
(** one overlay after the other *)
Definition merged_all (o : list (text * json)) (ps : list (list (text * json))) : list (text * json) := fold_left merged ps o.
Definition names_part (k : string) (p : list (text * json)) : Prop := In (s2t k) (map fst p).
(** the last of the overlays that has the member has it with this value *)
Definition decides (k : string) (v : json) (ps : list (list (text * json))) : Prop :=
  exists l p l', ps = l ++ p :: l' /\ once k v p /\ forall q, In q l' -> ~ names_part k q.

(** [a] and [a'] have these parts in common *)
Record agree (same : string -> Prop) (a a' : adaptation) : Prop := mkAgree {
  k_name : same "name" -> ad_name a' = ad_name a;
  k_locations : same "locations" -> ad_locations a' = ad_locations a;
  k_positions : same "positions" -> ad_positions a' = ad_positions a;
  k_volumes : same "volumes" -> ad_volumes a' = ad_volumes a;
  k_sectors : same "sectors" -> ad_sectors a' = ad_sectors a;
  k_departure : same "departure_constraints" -> ad_departure a' = ad_departure a;
  k_destination : same "destination_constraints" -> ad_destination a' = ad_destination a;
  k_maps : same "maps" -> ad_maps a' = ad_maps a;
  k_symbols : same "symbols" -> ad_symbols a' = ad_symbols a;
  k_colours : same "colours" -> ad_colours a' = ad_colours a;
  k_line_styles : same "line_styles" -> ad_line_styles a' = ad_line_styles a;
  k_settings : same "settings" -> ad_settings a' = ad_settings a;
  k_aircraft : same "aircraft" -> ad_aircraft a' = ad_aircraft a;
  k_airlines : same "airlines" -> ad_airlines a' = ad_airlines a;
  k_sct_items : same "sct_items" -> ad_sct_items a' = ad_sct_items a }.

(** Jsonnet on the program that adds the overlays [ps] in the files [l] to the object [o]: it may sort members and write numbers differently. *)
Definition jsonnet_adds (nm : numerals) (print : json -> text) (parse : text -> option json) (b : libs)
    (o : list (text * json)) (l : list path) (ps : list (list (text * json))) : Prop :=
  forall x, program b (print (JObj o)) l x -> exists m j, evaluate b x = Some m /\ parse m = Some j /\ restated nm (JObj (merged_all o ps)) j.
