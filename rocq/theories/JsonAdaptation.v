(** Model of the serde derives of src/adaptation/**, src/ese.rs, src/sct.rs, src/lib.rs and src/icao_airlines.rs: the JSON form of an
    adaptation, as written and read by [apply_jsonnet_overlays] (adaptation/mod.rs:283, 308).

    The types [Point], [Coord], [LineString], [MultiLineString] and [Polygon] are those of geo-types, [Time] is uom's (a number of
    seconds).  Simplification: holes of polygons ([interiors]) are read and dropped, no adaptation built from files has any. *)
From Verif Require Import Base Num Float Paths Colours Settings Adaptation Json.
From Verif Require Constraints Locations Airways Sectors Maps SctData SctItems Icao.
Local Open Scope string_scope.
Local Open Scope list_scope.

Section Numerals.
Context (nm : numerals).
Notation f64_ := (c_f64 nm). Notation f32_ := (c_f32 nm).
Notation u32 := (c_uint nm u32_max).
Notation i32 := (c_int nm i32_min i32_max).
Notation i64 := (c_int nm (-9223372036854775808) 9223372036854775807).

(** [PathBuf] *)
Definition c_path : codec path := iso to_path display c_text.

(** geo-types: [Point] is a newtype of [Coord] *)
Definition c_point : codec point :=
  iso (fun '(x, (y, _)) => (x, y)) (fun '(x, y) => (x, (y, tt))) (c_struct (field "x" f64_ (field "y" f64_ fnil))).
(** geo-types [LineString], [MultiLineString]: newtypes *)
Definition c_lines : codec (list (list point)) := c_list (c_list c_point).
(** geo-types [Polygon] *)
Definition c_polygon : codec (list point) :=
  iso (fun '(e, (_, _)) => e) (fun e => (e, ([], tt))) (c_struct (field "exterior" (c_list c_point) (field "interiors" c_lines fnil))).
Definition c_xy : codec (f64 * f64) := c_pair f64_ f64_.

(** ** Locations (adaptation/locations) *)

(** locations/mod.rs:27-31 *)
Definition c_fix : codec Locations.fix_ :=
  iso (fun '(d, (p, _)) => Locations.mkFix d p) (fun x => (Locations.f_des x, (Locations.f_pos x, tt)))
    (c_struct (field "designator" c_text (field "coordinate" c_point fnil))).
(** locations/mod.rs:73-84 [NDB], [VOR] *)
Definition c_nav : codec Locations.nav :=
  iso (fun '(d, (f, (p, _))) => Locations.mkNav d f p) (fun x => (Locations.n_des x, (Locations.n_freq x, (Locations.n_pos x, tt))))
    (c_struct (field "designator" c_text (field "frequency" c_text (field "coordinate" c_point fnil)))).
(** locations/mod.rs:86-92 *)
Definition c_runway : codec Locations.runway :=
  iso (fun '(d, (h, (l, (a, _)))) => Locations.mkRunway d h l a)
    (fun x => (Locations.r_des x, (Locations.r_hdg x, (Locations.r_loc x, (Locations.r_ad x, tt)))))
    (c_struct (field "designators" (c_pair c_text c_text) (field "headings" (c_pair u32 u32)
      (field "location" (c_pair c_point c_point) (field "aerodrome" c_text fnil))))).
(** locations/mod.rs:94-101 *)
Definition c_airport : codec Locations.airport :=
  iso (fun '(d, (p, (n, (c, (r, _))))) => Locations.mkAirport d p n c r)
    (fun x => (Locations.ap_des x, (Locations.ap_pos x, (Locations.ap_name x, (Locations.ap_country x, (Locations.ap_runways x, tt))))))
    (c_struct (field "designator" c_text (field "coordinate" c_point (field_option "name" c_text (field_option "country" c_text
      (field "runways" (c_list c_runway) fnil)))))).
(** locations/mod.rs:129-143 [SID], [STAR] *)
Definition c_procedure : codec Locations.procedure :=
  iso (fun '(n, (a, (r, (w, _)))) => Locations.mkProc n a r w)
    (fun x => (Locations.pr_name x, (Locations.pr_airport x, (Locations.pr_runway x, (Locations.pr_wpts x, tt)))))
    (c_struct (field "name" c_text (field "airport" c_text (field_option "runway" c_text (field "waypoints" (c_list c_fix) fnil))))).

(** airways.rs:14-20 *)
Definition c_airway_type : codec Airways.airway_type :=
  iso (fun x => match x with inl _ => Airways.AHigh | inr (inl _) => Airways.ALow | inr (inr (inl _)) => Airways.ABoth
                           | inr (inr (inr (inl _))) => Airways.AUnknown | inr (inr (inr (inr e))) => match e : Empty_set with end end)
    (fun x => match x with Airways.AHigh => inl tt | Airways.ALow => inr (inl tt) | Airways.ABoth => inr (inr (inl tt))
                         | Airways.AUnknown => inr (inr (inr (inl tt))) end)
    (c_enum (variant0 "High" (variant0 "Low" (variant0 "Both" (variant0 "Unknown" enil))))).
(** airways.rs:28-36 [AirwayEdge] with [FixId] *)
Definition c_edge : codec Airways.edge :=
  iso (fun '(t, (v, (lo, (hi, (k, _))))) => Airways.mkEdge t v lo hi k)
    (fun x => (Airways.e_to x, (Airways.e_valid x, (Airways.e_min x, (Airways.e_max x, (Airways.e_type x, tt))))))
    (c_struct (field "to" (c_usize nm) (field "valid_direction" c_bool (field_option "minimum_level" u32 (field_option "maximum_level" u32
      (field "airway_type" c_airway_type fnil)))))).
(** airways.rs:336-340 [GraphFix] with [GraphPosition] and [AirwayId] *)
Definition c_gfix : codec Airways.gfix :=
  iso (fun '(p, (e, _)) => Airways.mkGfix p e) (fun x => (Airways.g_pos x, (Airways.g_edges x, tt)))
    (c_struct (field "position" c_point (field "edges" (c_id_map nm (c_list c_edge)) fnil))).
(** airways.rs:64-71 [AirwayGraph] *)
Definition c_graph : codec Airways.graph :=
  iso (fun '(f, (i, (n, (a, (b, _))))) => Airways.mkGraph f i n a b)
    (fun x => (Airways.fixes x, (Airways.fix_id_by_name x, (Airways.fix_name_by_id x, (Airways.airway_id_by_name x, (Airways.airway_name_by_id x, tt))))))
    (c_struct (field "fixes" (c_list c_gfix) (field "fix_id_by_name" (c_multi (c_usize nm)) (field "fix_name_by_id" (c_list c_text)
      (field "airway_id_by_name" (c_map (c_usize nm)) (field "airway_name_by_id" (c_list c_text) fnil)))))).
(** locations/mod.rs:155-165 [Locations] *)
Definition c_locations : codec all_locations :=
  iso (fun '(f, (v, (n, (a, (w, (s, (t, _))))))) => mkAllLocations (Locations.mkLocations f v n a s t) w)
    (fun x => let p := al_points x in
       (Locations.l_fixes p, (Locations.l_vors p, (Locations.l_ndbs p, (Locations.l_airports p, (al_airways x, (Locations.l_sids p, (Locations.l_stars p, tt))))))))
    (c_struct (field "fixes" (c_multi c_fix) (field "vors" (c_multi c_nav) (field "ndbs" (c_multi c_nav) (field "airports" (c_map c_airport)
      (field "airways" c_graph (field "sids" (c_map (c_multi c_procedure)) (field "stars" (c_map (c_multi c_procedure)) fnil)))))))).

(** ** Positions, volumes, sectors, constraints *)

(** mod.rs:77-85 *)
Definition c_position : codec position :=
  iso (fun '(i, (n, (f, (p, (s, (v, _)))))) => mkPosition i n f p s v)
    (fun x => (ps_id x, (ps_name x, (ps_frequency x, (ps_prefix x, (ps_suffix x, (ps_points x, tt)))))))
    (c_struct (field "id" c_text (field "name" c_text (field "frequency" c_text (field "prefix" c_text (field "suffix" c_text
      (field "visibility_points" (c_list c_point) fnil))))))).
(** sectors.rs:31-39 [Volume]; the field [private] of type [PhantomData] is written and read too *)
Definition c_volume : codec Sectors.volume :=
  iso (fun '(i, (l, (u, (b, (_, _))))) => Sectors.mkVolume i l u b)
    (fun x => (Sectors.v_id x, (Sectors.v_lower x, (Sectors.v_upper x, (Sectors.v_border x, (tt, tt))))))
    (c_struct (field "id" c_text (field "lower_level" u32 (field "upper_level" u32 (field "lateral_border" c_polygon
      (field "private" c_unit fnil)))))).
(** maps/active.rs:4-8 [RunwayIdentifier] *)
Definition c_runway_pair : codec (text * text) :=
  iso (fun '(i, (d, _)) => (i, d)) (fun '(i, d) => (i, (d, tt))) (c_struct (field "icao" c_text (field "designator" c_text fnil))).
(** sectors.rs:57-66 [Sector] *)
Definition c_sector : codec Sectors.sector :=
  iso (fun '(i, (p, (r, (v, (d, (a, _)))))) => Sectors.mkSector i p r v d a)
    (fun x => (Sectors.sc_id x, (Sectors.sc_priority x, (Sectors.sc_filter x, (Sectors.sc_volumes x, (Sectors.sc_dep x, (Sectors.sc_arr x, tt)))))))
    (c_struct (field "id" c_text (field "position_priority" (c_list c_text) (field "runway_filter" (c_list (c_list c_runway_pair))
      (field "volumes" c_set (field "departure_aerodromes" c_set (field "arrival_aerodromes" c_set fnil))))))).
(** settings/mod.rs:381-386 [CoordinationTiming] *)
Definition c_timing : codec Constraints.timing :=
  iso (fun '(a, (b, (r, _))) => Constraints.mkTiming a b r)
    (fun x => (Constraints.t_act x, (Constraints.t_abi x, (Constraints.t_rev x, tt))))
    (c_struct (field_option "act_time" f32_ (field_option "abi_time" f32_ (field_option "rev_time" f32_ fnil)))).
(** ese.rs:265-282 [Constraint] *)
Definition c_constraint : codec Constraints.constraint :=
  iso (fun '(p, (d, (n, (a, (f, (x, (e, (c, (l, (t, (m, _))))))))))) => Constraints.mkConstraint p d n a f x e c l t m)
    (fun x => (Constraints.c_prev x, (Constraints.c_dep x, (Constraints.c_next x, (Constraints.c_arr x, (Constraints.c_fix x, (Constraints.c_exit x,
      (Constraints.c_entry x, (Constraints.c_climb x, (Constraints.c_descent x, (Constraints.c_desc x, (Constraints.c_timing x, tt))))))))))))
    (c_struct (field_option "previous_fix" c_text (field_option "departure_runway" c_text (field_option "subsequent_fix" c_text
      (field_option "arrival_runway" c_text (field_option "fix" c_text (field "exit_sector" c_text (field "entry_sector" c_text
      (field_option "climb_level" u32 (field_option "descent_level" u32 (field "description" c_text
      (field_default "coord_timing" None (c_option c_timing) fnil)))))))))))).

(** ** Maps *)

(** mod.rs:55-76 [HorizontalAlignment], [VerticalAlignment], [Alignment] *)
Definition c_horizontal : codec halign :=
  iso (fun x => match x with inl _ => HLeft | inr (inl _) => HCenter | inr (inr (inl _)) => HRight | inr (inr (inr e)) => match e : Empty_set with end end)
    (fun x => match x with HLeft => inl tt | HCenter => inr (inl tt) | HRight => inr (inr (inl tt)) end)
    (c_enum (variant0 "Left" (variant0 "Center" (variant0 "Right" enil)))).
Definition c_vertical : codec valign :=
  iso (fun x => match x with inl _ => VTop | inr (inl _) => VCenter | inr (inr (inl _)) => VBottom | inr (inr (inr e)) => match e : Empty_set with end end)
    (fun x => match x with VTop => inl tt | VCenter => inr (inl tt) | VBottom => inr (inr (inl tt)) end)
    (c_enum (variant0 "Top" (variant0 "Center" (variant0 "Bottom" enil)))).
Definition c_alignment : codec alignment :=
  iso (fun '(h, (v, _)) => (h, v)) (fun '(h, v) => (h, (v, tt))) (c_struct (field "horizontal" c_horizontal (field "vertical" c_vertical fnil))).
(** line_styles.rs:7-17 [Dash], [LineStyle] *)
Definition c_dash : codec dash :=
  iso (fun '(l, (g, _)) => mkDash l g) (fun x => (d_len x, (d_gap x, tt))) (c_struct (field "length" f32_ (field "gap" f32_ fnil))).
Definition c_line_style : codec line_style :=
  iso (fun '(w, (s, _)) => mkLineStyle w s) (fun x => (ls_width x, (ls_style x, tt))) (c_struct (field "width" i32 (field "style" c_text fnil))).
(** maps/active.rs:4-50 *)
Definition c_runway_id : codec Maps.runway_id :=
  iso (fun '(i, d) => Maps.mkRunwayId i d) (fun x => (Maps.ri_icao x, Maps.ri_des x)) c_runway_pair.
Definition c_active_ids : codec Maps.active_ids :=
  iso (fun '(a, (b, (c, (d, _)))) => Maps.mkActiveIds a b c d)
    (fun x => (Maps.ai_own x, (Maps.ai_own_ex x, (Maps.ai_online x, (Maps.ai_online_ex x, tt)))))
    (c_struct (field_option "own" (c_list c_text) (field_option "own_excludes" (c_list c_text) (field_option "online" (c_list c_text)
      (field_option "online_excludes" (c_list c_text) fnil))))).
Definition c_active_runways : codec Maps.active_runways :=
  iso (fun '(a, (b, (c, (d, _)))) => Maps.mkActiveRunways a b c d)
    (fun x => (Maps.ar_arr x, (Maps.ar_arr_ex x, (Maps.ar_dep x, (Maps.ar_dep_ex x, tt)))))
    (c_struct (field_option "arrival" (c_list c_runway_id) (field_option "arrival_excludes" (c_list c_runway_id)
      (field_option "departure" (c_list c_runway_id) (field_option "departure_excludes" (c_list c_runway_id) fnil))))).
Definition c_active_areas : codec Maps.active_areas :=
  iso (fun '(a, (b, _)) => Maps.mkActiveAreas a b) (fun x => (Maps.aa_areas x, (Maps.aa_ex x, tt)))
    (c_struct (field "areas" (c_list c_text) (field_option "area_excludes" (c_list c_text) fnil))).
(** [ActiveMapOperator]: whether it is [Same] *)
Definition c_operator : codec bool :=
  iso (fun x => match x with inl _ => true | inr (inl _) => false | inr (inr e) => match e : Empty_set with end end)
    (fun b => if b : bool then inl tt else inr (inl tt)) (c_enum (variant0 "Same" (variant0 "Opposite" enil))).
Definition c_active : codec Maps.active :=
  iso (fun x => match x with
                | inl _ => Maps.ATrue
                | inr (inl _) => Maps.ASchedule
                | inr (inr (inl l)) => Maps.AAup l
                | inr (inr (inr (inl (i, l)))) => Maps.ANotam i l
                | inr (inr (inr (inr (inl a)))) => Maps.AArea a
                | inr (inr (inr (inr (inr (inl a))))) => Maps.AId a
                | inr (inr (inr (inr (inr (inr (inl a)))))) => Maps.ACallsign a
                | inr (inr (inr (inr (inr (inr (inr (inl a))))))) => Maps.ARunway a
                | inr (inr (inr (inr (inr (inr (inr (inr (inl (s, (f, (n, _)))))))))))=> Maps.AMap s f n
                | inr (inr (inr (inr (inr (inr (inr (inr (inr e)))))))) => match e : Empty_set with end
                end)
    (fun x => match x with
              | Maps.ATrue => inl tt
              | Maps.ASchedule => inr (inl tt)
              | Maps.AAup l => inr (inr (inl l))
              | Maps.ANotam i l => inr (inr (inr (inl (i, l))))
              | Maps.AArea a => inr (inr (inr (inr (inl a))))
              | Maps.AId a => inr (inr (inr (inr (inr (inl a)))))
              | Maps.ACallsign a => inr (inr (inr (inr (inr (inr (inl a))))))
              | Maps.ARunway a => inr (inr (inr (inr (inr (inr (inr (inl a)))))))
              | Maps.AMap s f n => inr (inr (inr (inr (inr (inr (inr (inr (inl (s, (f, (n, tt)))))))))))
              end)
    (c_enum (variant0 "True" (variant0 "Schedule" (variant "Aup" (c_list c_text) (variant "Notam" (c_pair c_text (c_list c_text))
      (variant "Area" c_active_areas (variant "Id" c_active_ids (variant "Callsign" c_active_ids (variant "Runway" c_active_runways
      (variant "Map" (c_tuple (tcons c_operator (tcons c_text (tcons c_text tnil)))) enil)))))))))).
(** maps/mod.rs:170-184 [Label], [Symbol] *)
Definition c_label : codec Maps.label :=
  iso (fun '(p, (a, (t, _))) => Maps.mkLabel p a t) (fun x => (Maps.lb_coord x, (Maps.lb_align x, (Maps.lb_text x, tt))))
    (c_struct (field "coordinate" c_point (field "alignment" c_alignment (field "text" c_text fnil)))).
Definition c_symbol : codec Maps.dsymbol :=
  iso (fun '(n, (p, (l, (a, (o, _))))) => Maps.mkDSymbol n p l a o)
    (fun x => (Maps.ds_name x, (Maps.ds_coord x, (Maps.ds_label x, (Maps.ds_align x, (Maps.ds_offset x, tt))))))
    (c_struct (field "name" c_text (field "coordinate" c_point (field_option "label" c_text (field "label_alignment" c_alignment
      (field "label_offset" c_xy fnil)))))).
(** maps/mod.rs:75-88 [MapGroup] *)
Definition c_group : codec Maps.group :=
  iso (fun '(c, (f, (l, (a, (z, (ls, (lb, (s, (p, (st, _)))))))))) => Maps.mkGroup c f l a z ls lb s p st)
    (fun x => (Maps.g_colour x, (Maps.g_font x, (Maps.g_layer x, (Maps.g_asr x, (Maps.g_zoom x, (Maps.g_lines x, (Maps.g_labels x, (Maps.g_symbols x,
      (Maps.g_polygons x, (Maps.g_style x, tt)))))))))))
    (c_struct (field "colour" c_colour (field "font_size" f32_ (field "layer" f32_ (field_option "asr_data" (c_list c_text)
      (field_option "zoom" f32_ (field "lines" c_lines (field "labels" (c_list c_label) (field "symbols" (c_list c_symbol)
      (field "polygons" (c_list c_polygon) (field "line_style" c_line_style fnil))))))))))).
(** maps/mod.rs:27-41 [Folder], [Map] *)
Definition c_map_ : codec Maps.map_ :=
  iso (fun '(n, (f, (g, (h, (a, _))))) => Maps.mkMap n f g h a)
    (fun x => (Maps.m_name x, (Maps.m_folder x, (Maps.m_groups x, (Maps.m_hidden x, (Maps.m_active x, tt))))))
    (c_struct (field "name" c_text (field "folder" c_text (field "map_groups" (c_list c_group) (field "hidden" c_bool
      (field "active" (c_list (c_list c_active)) fnil)))))).
Definition c_folder : codec Maps.folder :=
  iso (fun '(n, (h, (m, _))) => Maps.mkFolder n h m) (fun x => (Maps.fo_name x, (Maps.fo_hidden x, (Maps.fo_maps x, tt))))
    (c_struct (field "name" c_text (field "hidden" c_bool (field "maps" (c_map c_map_) fnil)))).

(** ** Symbols, colours, settings *)

(** symbols.rs:10-20 [SymbolRule] *)
Definition c_arc : codec (point * (f64 * (Z * (Z * unit)))) := c_tuple (tcons c_xy (tcons f64_ (tcons i64 (tcons i64 tnil)))).
Definition c_elliptic : codec (point * (f64 * (f64 * (Z * (Z * unit))))) :=
  c_tuple (tcons c_xy (tcons f64_ (tcons f64_ (tcons i64 (tcons i64 tnil))))).
Definition c_rule : codec symbol_rule :=
  iso (fun x => match x with
                | inl p => SMove p
                | inr (inl p) => SLine p
                | inr (inr (inl p)) => SPixel p
                | inr (inr (inr (inl (p, (r, (a, (b, _))))))) => SArc p r a b
                | inr (inr (inr (inr (inl (p, (r, (q, (a, (b, _))))))))) => SEllipticArc p r q a b
                | inr (inr (inr (inr (inr (inl (p, (r, (a, (b, _))))))))) => SFilledArc p r a b
                | inr (inr (inr (inr (inr (inr (inl (p, (r, (q, (a, (b, _))))))))))) => SFilledEllipticArc p r q a b
                | inr (inr (inr (inr (inr (inr (inr (inl l))))))) => SPolygon l
                | inr (inr (inr (inr (inr (inr (inr (inr e))))))) => match e : Empty_set with end
                end)
    (fun x => match x with
              | SMove p => inl p
              | SLine p => inr (inl p)
              | SPixel p => inr (inr (inl p))
              | SArc p r a b => inr (inr (inr (inl (p, (r, (a, (b, tt)))))))
              | SEllipticArc p r q a b => inr (inr (inr (inr (inl (p, (r, (q, (a, (b, tt)))))))))
              | SFilledArc p r a b => inr (inr (inr (inr (inr (inl (p, (r, (a, (b, tt)))))))))
              | SFilledEllipticArc p r q a b => inr (inr (inr (inr (inr (inr (inl (p, (r, (q, (a, (b, tt)))))))))))
              | SPolygon l => inr (inr (inr (inr (inr (inr (inr (inl l)))))))
              end)
    (c_enum (variant "Move" c_xy (variant "Line" c_xy (variant "Pixel" c_xy (variant "Arc" c_arc (variant "EllipticArc" c_elliptic
      (variant "FilledArc" c_arc (variant "FilledEllipticArc" c_elliptic (variant "Polygon" (c_list c_xy) enil))))))))).
(** symbols.rs:23-36 [Symbols] *)
Definition c_symbols : codec symbols :=
  iso (fun '(a, (b, (c, (d, (e, (f, (g, (h, (i, (j, _)))))))))) => mkSymbols a b c d e f g h i j)
    (fun x => (sy_history x, (sy_fix x, (sy_ndb x, (sy_vor x, (sy_airport x, (sy_primary x, (sy_coasted x, (sy_uncontrolled x, (sy_controlled x,
      (sy_other x, tt)))))))))))
    (c_struct (field "history_dot" (c_list c_rule) (field "fix" (c_list c_rule) (field "ndb" (c_list c_rule) (field "vor" (c_list c_rule)
      (field "airport" (c_list c_rule) (field "primary" (c_list c_rule) (field "coasted" (c_list c_rule) (field "uncontrolled" (c_list c_rule)
      (field "controlled" (c_list c_rule) (field "other" (c_map (c_list c_rule)) fnil))))))))))).

(** colours.rs:112-140, 321-326, 358-370, 457-466: the fields of the groups of colours in their order; [listed] is the order in which the
    model keeps them (Colours.v) *)
Definition map_fields : list string :=
  ["fix_symbol"; "fix_name"; "airport_symbol"; "airport_name"; "ndb_symbol"; "ndb_name"; "ndb_frequency"; "vor_symbol"; "vor_name"; "vor_frequency";
   "low_airway_line"; "low_airway_name"; "high_airway_line"; "high_airway_name"; "sid"; "star"; "artcc_boundary"; "artcc_low_boundary";
   "artcc_high_boundary"; "geo"; "runway_centreline"; "runway_extended_centreline"; "runway_name"; "free_text"].
Definition sector_fields : list string := ["active_background"; "inactive_background"].
Definition track_fields : list string :=
  ["assumed"; "advanced"; "concerned"; "unconcerned"; "flight_leg"; "predicted_alert"; "current_alert"; "reaction"; "cleared"; "vfr"].
Definition ui_fields : list string :=
  ["foreground"; "background"; "armed"; "window_title_background_selected"; "text_input"; "warning"; "alert"].
Definition pick (ks : list string) (l : list (string * colour)) : list (string * colour) :=
  map (fun k => (k, match get k l with Some c => c | None => from_rgb 0 0 0 end)) ks.
Definition c_colour_group (fields listed : list string) : codec (list (string * colour)) :=
  iso (pick listed) (pick fields) (c_struct (same_fields fields c_colour)).
(** colours.rs:532-539 [Colours] *)
Definition c_colours : codec colours :=
  iso (fun '(t, (s, (m, (u, (o, _))))) => mkColours t s m u o)
    (fun x => (col_track x, (col_sector x, (col_map x, (col_ui x, (col_other x, tt))))))
    (c_struct (field "track" (c_colour_group track_fields (keys (track_colours [] false))) (field "sector" (c_colour_group sector_fields (keys (sector_colours [])))
      (field "map" (c_colour_group map_fields (keys (map_colours []))) (field "ui" (c_colour_group ui_fields (keys (ui_colours [] false)))
      (field "other" (c_map c_colour) fnil)))))).

(** settings/mod.rs:17-38 [LineSettings] *)
Definition c_line_settings : codec line_settings :=
  iso (fun '(a, (b, (c, (d, (e, (f, (g, (h, (i, _))))))))) => mkLineSettings a b c d e f g h i)
    (fun x => (li_runway x, (li_geo x, (li_sid x, (li_star x, (li_high x, (li_low x, (li_artcc_low x, (li_artcc x, (li_artcc_high x, tt))))))))))
    (c_struct (field "runway_centreline" c_line_style (field "geo" c_line_style (field "sid" c_line_style (field "star" c_line_style
      (field "high_airways" c_line_style (field "low_airways" c_line_style (field "artcc_low" c_line_style (field "artcc" c_line_style
      (field "artcc_high" c_line_style fnil)))))))))).
(** settings/mod.rs:225-237 [LabelSettings] *)
Definition c_label_settings : codec label_settings :=
  iso (fun '(a, (a', (b, (b', (c, (c', (d, (d', (e, (e', _)))))))))) => mkLabelSettings (a, a') (b, b') (c, c') (d, d') (e, e'))
    (fun x => (fst (la_vor x), (snd (la_vor x), (fst (la_ndb x), (snd (la_ndb x), (fst (la_fix x), (snd (la_fix x), (fst (la_airport x), (snd (la_airport x),
      (fst (la_runway x), (snd (la_runway x), tt)))))))))))
    (c_struct (field "vor_alignment" c_alignment (field "vor_font_size" f32_ (field "ndb_alignment" c_alignment (field "ndb_font_size" f32_
      (field "fix_alignment" c_alignment (field "fix_font_size" f32_ (field "airport_alignment" c_alignment (field "airport_font_size" f32_
      (field "runway_alignment" c_alignment (field "runway_font_size" f32_ fnil))))))))))).
(** settings/mod.rs:296-308 [MapsSettings] *)
Definition c_maps_settings : codec (option path * Maps.maps_settings * line_settings * label_settings) :=
  iso (fun '(f, (s, (a, (l, (o, (li, (la, _))))))) => (f, Maps.mkMapsSettings s a l o, li, la))
    (fun '(f, m, li, la) => (f, (Maps.st_font m, (Maps.st_auto m, (Maps.st_layer m, (Maps.st_offset m, (li, (la, tt))))))))
    (c_struct (field_option "font" c_path (field "font_size" f32_ (field "auto_folder" c_text (field "layer" f32_ (field "label_offset" c_xy
      (field "line_styles" c_line_settings (field "labels" c_label_settings fnil)))))))).
(** settings/track.rs:8-13, 41-46, 76-80 *)
Definition c_dots : codec (bool * N * list N) :=
  iso (fun '(e, (c, (o, _))) => (e, c, o)) (fun '(e, c, o) => (e, (c, (o, tt))))
    (c_struct (field "enabled" c_bool (field "count" u32 (field "options" (c_list u32) fnil)))).
Definition c_vector : codec (bool * f32 * list f32) :=
  iso (fun '(e, (l, (o, _))) => (e, l, o)) (fun '(e, l, o) => (e, (l, (o, tt))))
    (c_struct (field "enabled" c_bool (field "length" f32_ (field "options" (c_list f32_) fnil)))).
Definition c_track : codec (bool * f32 * list f32 * (bool * N * list N)) :=
  iso (fun '(v, (d, _)) => (v, d)) (fun '(v, d) => (v, (d, tt))) (c_struct (field "vector" c_vector (field "history_dots" c_dots fnil))).
(** settings/mod.rs:341-344 [SsrSettings] *)
Definition c_ssr : codec (list (text * text)) :=
  iso fst (fun c => (c, tt)) (c_struct (field "special_use_codes" (c_map c_text) fnil)).
(** settings/mod.rs:395-406 [CoordinationSettings] *)
Definition c_coordination : codec coordination :=
  iso (fun '(a, (b, (r, (l, (f, _))))) => mkCoordination a b r l f)
    (fun x => (co_act x, (co_abi x, (co_rev x, (co_lam x, (co_firs x, tt))))))
    (c_struct (field "act_time" f32_ (field "abi_time" f32_ (field "rev_time" f32_ (field "lam_timeout" f32_
      (field_default "fir_overrides" [] (c_map c_timing) fnil)))))).
(** settings/mod.rs:450-461 [Settings] *)
Definition c_settings : codec settings :=
  iso (fun '(m, (t, (c, (s, (a, (o, _)))))) =>
         let '(font, ms, li, la) := m in
         let '(v, vl, vo, (d, dc, d_o)) := t in
         mkSettings ms li la (v, vl) (d, dc) c s a o font vo d_o)
    (fun x => ((se_font x, se_maps x, se_lines x, se_labels x),
      ((fst (se_vector x), snd (se_vector x), se_vector_options x, (fst (se_dots x), snd (se_dots x), se_dots_options x)),
      (se_coopans x, (se_codes x, (se_asr x, (se_coordination x, tt)))))))
    (c_struct (field "maps" c_maps_settings (field "track" c_track (field "coopans" c_bool (field "ssr" c_ssr (field "asr_files" (c_list c_path)
      (field "coordination" c_coordination fnil))))))).

(** ** Aircraft and airlines *)

(** adaptation/icao.rs:7-16 [Wtc], 51-60 [AircraftType], 86-94 [EngineType] *)
Definition c_wtc : codec Icao.wtc :=
  iso (fun x => match x with inl _ => Icao.WtcLight | inr (inl _) => Icao.WtcMedium | inr (inr (inl _)) => Icao.WtcHeavy | inr (inr (inr (inl _))) => Icao.WtcSuper
                           | inr (inr (inr (inr (inl _)))) => Icao.WtcUnknown | inr (inr (inr (inr (inr e)))) => match e : Empty_set with end end)
    (fun x => match x with Icao.WtcLight => inl tt | Icao.WtcMedium => inr (inl tt) | Icao.WtcHeavy => inr (inr (inl tt))
                         | Icao.WtcSuper => inr (inr (inr (inl tt))) | Icao.WtcUnknown => inr (inr (inr (inr (inl tt)))) end)
    (c_enum (variant0 "LIGHT" (variant0 "MEDIUM" (variant0 "HEAVY" (variant0 "SUPER" (variant0 "UNKNOWN" enil)))))).
Definition c_aircraft_type : codec Icao.aircraft_type :=
  iso (fun x => match x with inl _ => Icao.Landplane | inr (inl _) => Icao.Seaplane | inr (inr (inl _)) => Icao.Amphibian
                           | inr (inr (inr (inl _))) => Icao.Gyrocopter | inr (inr (inr (inr (inl _)))) => Icao.Helicopter
                           | inr (inr (inr (inr (inr (inl _))))) => Icao.Tiltrotor | inr (inr (inr (inr (inr (inr (inl _)))))) => Icao.UnknownType
                           | inr (inr (inr (inr (inr (inr (inr e)))))) => match e : Empty_set with end end)
    (fun x => match x with Icao.Landplane => inl tt | Icao.Seaplane => inr (inl tt) | Icao.Amphibian => inr (inr (inl tt))
                         | Icao.Gyrocopter => inr (inr (inr (inl tt))) | Icao.Helicopter => inr (inr (inr (inr (inl tt))))
                         | Icao.Tiltrotor => inr (inr (inr (inr (inr (inl tt))))) | Icao.UnknownType => inr (inr (inr (inr (inr (inr (inl tt)))))) end)
    (c_enum (variant0 "LANDPLANE" (variant0 "SEAPLANE" (variant0 "AMPHIBIAN" (variant0 "GYROCOPTER" (variant0 "HELICOPTER" (variant0 "TILTROTOR"
      (variant0 "UNKNOWN" enil)))))))).
Definition c_engine_type : codec Icao.engine_type :=
  iso (fun x => match x with inl _ => Icao.Jet | inr (inl _) => Icao.Turboprop | inr (inr (inl _)) => Icao.Piston | inr (inr (inr (inl _))) => Icao.Electric
                           | inr (inr (inr (inr (inl _)))) => Icao.Rocket | inr (inr (inr (inr (inr (inl _))))) => Icao.UnknownEngine
                           | inr (inr (inr (inr (inr (inr e))))) => match e : Empty_set with end end)
    (fun x => match x with Icao.Jet => inl tt | Icao.Turboprop => inr (inl tt) | Icao.Piston => inr (inr (inl tt)) | Icao.Electric => inr (inr (inr (inl tt)))
                         | Icao.Rocket => inr (inr (inr (inr (inl tt)))) | Icao.UnknownEngine => inr (inr (inr (inr (inr (inl tt))))) end)
    (c_enum (variant0 "JET" (variant0 "TURBOPROP" (variant0 "PISTON" (variant0 "ELECTRIC" (variant0 "ROCKET" (variant0 "UNKNOWN" enil))))))).
(** adaptation/icao.rs:119-139 [AircraftMap] (a newtype), [Aircraft] *)
Definition c_aircraft : codec Icao.aircraft :=
  iso (fun '(d, (w, (t, (n, (e, (m, (s, _))))))) => Icao.mkAircraft d w t n e m s)
    (fun x => (Icao.ac_designator x, (Icao.ac_wtc x, (Icao.ac_type x, (Icao.ac_engines x, (Icao.ac_engine x, (Icao.ac_manufacturer x, (Icao.ac_name x, tt))))))))
    (c_struct (field "designator" c_text (field "wtc" c_wtc (field "aircrafttype" c_aircraft_type (field "num_engines" (c_uint nm u8_max)
      (field "enginetype" c_engine_type (field "manufacturer" c_text (field "name" c_text fnil)))))))).
(** icao_airlines.rs:31-42 [Airline] *)
Definition c_airline : codec Icao.airline :=
  iso (fun '(d, (n, (c, (o, _)))) => Icao.mkAirline d n c o)
    (fun x => (Icao.al_designator x, (Icao.al_name x, (Icao.al_callsign x, (Icao.al_country x, tt)))))
    (c_struct (field "designator" c_text (field "name" c_text (field "callsign" c_text (field "country" c_text fnil))))).

(** ** Items of the .sct file (sct_items.rs, sct.rs) *)

(** sct_items.rs:16-20 [ColouredLines] *)
Definition c_coloured : codec SctItems.coloured_lines :=
  iso (fun '(c, (l, _)) => SctItems.mkColouredLines c l) (fun x => (SctItems.cl_colour x, (SctItems.cl_lines x, tt)))
    (c_struct (field "colour" c_colour (field "lines" c_lines fnil))).
(** lib.rs:139-144 [Location] *)
Definition c_location : codec Locations.location :=
  iso (fun x => match x with inl d => Locations.LFix d | inr (inl p) => Locations.LCoord p | inr (inr e) => match e : Empty_set with end end)
    (fun x => match x with Locations.LFix d => inl d | Locations.LCoord p => inr (inl p) end)
    (c_enum (variant "Fix" c_text (variant "Coordinate" c_point enil))).
(** sct.rs:52-65 [Region], [Label] *)
Definition c_region : codec SctData.region :=
  iso (fun '(n, (c, (p, _))) => SctData.mkRegion n c p) (fun x => (SctData.rg_name x, (SctData.rg_colour x, (SctData.rg_polygon x, tt))))
    (c_struct (field "name" c_text (field "colour_name" c_text (field "polygon" (c_list c_point) fnil)))).
Definition c_sct_label : codec SctData.sct_label :=
  iso (fun '(n, (l, (c, _))) => SctData.mkSctLabel n l c) (fun x => (SctData.sb_name x, (SctData.sb_coord x, (SctData.sb_colour x, tt))))
    (c_struct (field "name" c_text (field "coordinate" c_location (field "colour_name" c_text fnil)))).
(** sct_items.rs:153-166 [SctItems] *)
Definition c_sct_items : codec SctItems.sct_items :=
  iso (fun '(a, (b, (c, (d, (e, (f, (g, (h, (i, (j, _)))))))))) => SctItems.mkSctItems a b c d e f g h i j)
    (fun x => (SctItems.si_sids x, (SctItems.si_stars x, (SctItems.si_high_airways x, (SctItems.si_low_airways x, (SctItems.si_artccs_high x,
      (SctItems.si_artccs x, (SctItems.si_artccs_low x, (SctItems.si_geo x, (SctItems.si_regions x, (SctItems.si_labels x, tt)))))))))))
    (c_struct (field "sids" (c_multi c_coloured) (field "stars" (c_multi c_coloured) (field "high_airways" (c_multi c_lines)
      (field "low_airways" (c_multi c_lines) (field "artccs_high" (c_multi c_coloured) (field "artccs" (c_multi c_coloured)
      (field "artccs_low" (c_multi c_coloured) (field "geo" (c_multi c_coloured) (field "regions" (c_multi c_region)
      (field "labels" (c_multi c_sct_label) fnil))))))))))).

(** ** mod.rs:177-211 [Adaptation]: the index is skipped, and empty when read *)
Definition c_adaptation : codec adaptation :=
  iso (fun '(n, (l, (p, (v, (s, (d, (e, (m, (y, (c, (t, (o, (a, (i, (x, _))))))))))))))) => mkAdaptation n l p v s d e m y c t o a i x None)
    (fun x => (ad_name x, (ad_locations x, (ad_positions x, (ad_volumes x, (ad_sectors x, (ad_departure x, (ad_destination x, (ad_maps x, (ad_symbols x,
      (ad_colours x, (ad_line_styles x, (ad_settings x, (ad_aircraft x, (ad_airlines x, (ad_sct_items x, tt))))))))))))))))
    (c_struct (field "name" c_text (field "locations" c_locations (field "positions" (c_map c_position) (field "volumes" (c_map c_volume)
      (field "sectors" (c_map c_sector) (field "departure_constraints" (c_map c_constraint) (field "destination_constraints" (c_map c_constraint)
      (field "maps" (c_map c_folder) (field "symbols" c_symbols (field "colours" c_colours
      (field "line_styles" (c_map (c_option (c_list c_dash))) (field "settings" c_settings (field "aircraft" (c_map c_aircraft)
      (field "airlines" (c_map c_airline) (field "sct_items" c_sct_items fnil)))))))))))))))).

(** [serde_json::to_string] and [from_str], as values *)
Definition to_value (a : adaptation) : json := enc c_adaptation a.
Definition of_value (j : json) : option adaptation := dec c_adaptation j.
(** The libraries with [serde_json::to_string] and [serde_json::from_str] for the modelled values; [print] and [parse] between JSON values
    and text stay parameters *)
Definition with_serde (print : json -> text) (parse : text -> option json) (b : libs) : libs :=
  mkLibs (fun a => Some (print (to_value a))) (fun t => bind (parse t) of_value) (evaluate b) (quote b) (toml b) (canonicalize b).
End Numerals.
