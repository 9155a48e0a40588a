(** Model of src/adaptation/mod.rs: from the files of a profile to an adaptation, overlays, and adaptation.toml.

    What lies outside of the repository is collected in [env]: the file system, the working directory, hash map iteration
    orders and a few library functions.  Warnings are not modelled. *)
From Verif Require Import Base Num Float Paths Colours Settings Trees Decode.
From Verif Require Dms Prf SctData SctParse EseParse AirwayTxt Airways SymbologyParse TopskyParse Icao Sectors SectorIndex Constraints Locations Maps SctItems.
Local Open Scope string_scope.
Local Open Scope list_scope.

(** The hash maps whose iteration order matters: the settings of the profile, the sectors of the .ese file, the end points of the border of one
    of them, the groups of sectors, the sectors of the index, colours of .sct and TopSky, the two lists of airports, TopSky line styles. *)
Inductive site := SPrf | SEseSectors | SRing (id : text) | SGroups | SIndex | SSctColours | STopskyColours | SNavdata | SIcao | SStyles.

Record env := mkEnv {
  cwd : path;                                        (* [current_dir] *)
  read : path -> option (list N);                    (* [fs_err::read]: the bytes, or an error *)
  upper : text -> text;                              (* [str::to_uppercase] *)
  json : list N -> option (list squawk);             (* [serde_json::from_slice] to [SquawksJson] *)
  dest : point -> f64 -> f64 -> point;               (* geo's [Geodesic.destination], see Locations.v *)
  ccw : list point -> list point;                    (* geo's orientation of a polygon, see Sectors.v *)
  load : list SectorIndex.entry -> SectorIndex.rtree; (* rstar's [bulk_load], see SectorIndex.v *)
  order : site -> forall A : Type, list A -> list A  (* hash map iteration *)
}.

(** mod.rs:69-77 [Position] *)
Record position := mkPosition { ps_id : text; ps_name : text; ps_frequency : text; ps_prefix : text; ps_suffix : text; ps_points : list point }.
(** mod.rs:78-101 [Position::from_ese_positions]; the keys stay, so the iteration order is irrelevant *)
Definition from_ese_positions (l : list (text * EseParse.position)) : list (text * position) :=
  map (fun '(id, p) => (id, mkPosition (EseParse.po_ident p) (EseParse.po_name p) (EseParse.po_freq p) (EseParse.po_prefix p)
                              (EseParse.po_suffix p) (EseParse.po_points p))) l.

(** settings/mod.rs:450-461 [Settings] with settings/mod.rs:297-308 [MapsSettings] and settings/track.rs [TrackSettings] *)
Record settings := mkSettings {
  se_maps : Maps.maps_settings; se_lines : line_settings; se_labels : label_settings; se_vector : bool * f32; se_dots : bool * N;
  se_coopans : bool; se_codes : list (text * text); se_asr : list path; se_coordination : coordination;
  se_font : option path; se_vector_options : list f32; se_dots_options : list N }.
(** settings/mod.rs:438-448 [CoordinationSettings::default], in seconds *)
Definition default_coordination : coordination := mkCoordination (lit 900) (lit 1800) (lit 300) (lit 5) [].
(** settings/track.rs:33-37 and 65-70: the lengths and numbers to choose from *)
Definition vector_options : list f32 :=
  SpecFloat.S754_finite false 8388608 (-24) :: map lit [1; 2; 3; 4; 5; 6; 7; 8; 9; 10; 15; 20]%Z.
Definition dots_options : list N := [0; 1; 2; 3; 4; 5; 6; 7; 8]%N.

(** locations/mod.rs:156-165 [Locations] *)
Record all_locations := mkAllLocations { al_points : Locations.locations; al_airways : Airways.graph }.

(** mod.rs:178-211 [Adaptation]; [ad_index] is the tree in the [OnceLock] *)
Record adaptation := mkAdaptation {
  ad_name : text; ad_locations : all_locations; ad_positions : list (text * position); ad_volumes : list (text * Sectors.volume);
  ad_sectors : list (text * Sectors.sector); ad_departure : list (text * Constraints.constraint); ad_destination : list (text * Constraints.constraint);
  ad_maps : list (text * Maps.folder); ad_symbols : symbols; ad_colours : colours; ad_line_styles : list (text * option (list dash));
  ad_settings : settings; ad_aircraft : list (text * Icao.aircraft); ad_airlines : list (text * Icao.airline); ad_sct_items : SctItems.sct_items;
  ad_index : option SectorIndex.rtree }.

(** ** Conversions between the data of the files *)

(** The symbology's items as the settings and the colours see them *)
Definition items_of (y : SymbologyParse.symbology) : items :=
  map (fun '(k, i) => (k, mkItem (SymbologyParse.si_size i) (SymbologyParse.si_style i) (SymbologyParse.si_weight i) (SymbologyParse.si_align i)))
    (SymbologyParse.sg_items y).
Definition item_colours (y : SymbologyParse.symbology) : list ((text * text) * colour) :=
  map (fun '(k, i) => (k, SymbologyParse.si_colour i)) (SymbologyParse.sg_items y).

(** SIDs and STARs of the .ese file (ese.rs:358-372) *)
Definition proc_of (p : EseParse.proc) : Locations.ese_proc :=
  Locations.mkEseProc (EseParse.pr_name p) (EseParse.pr_airport p) (EseParse.pr_runway p) (EseParse.pr_route p).
Definition sid_star_of (x : EseParse.sid_star) : Locations.sid_star :=
  match x with EseParse.Sid p => Locations.Sid (proc_of p) | EseParse.Star p => Locations.Star (proc_of p) end.

(** The arguments of [Locations::from_euroscope] *)
Definition loc_input_of (v : env) (s : SctData.sct) (e : EseParse.ese) (icao : list (text * Icao.icao_airport))
    (navdata : list (text * Icao.navdata_airport)) : Locations.loc_input :=
  Locations.mkLocInput (SctData.sc_fixes s) (SctData.sc_vors s) (SctData.sc_ndbs s)
    (map (fun a => Locations.mkSctAirport (SctData.sap_des a) (SctData.sap_pos a)) (SctData.sc_airports s)) (SctData.sc_runways s)
    (order v SNavdata _ (map (fun '(d, n) => (d, Locations.mkNavdata (Icao.nd_name n) (Icao.nd_location n))) navdata))
    (order v SIcao _ (map (fun '(d, i) => (d, Locations.mkIcao (Icao.ia_name i) (Icao.ia_country i))) icao))
    (map sid_star_of (EseParse.e_procs e)).

(** [Locations::convert_location] where it returns *)
Definition place (v : env) (L : Locations.locations) (l : Locations.location) : option point :=
  match Locations.convert_location (dest v) L l with Ret o => o | _ => None end.
(** a panic if the conversion of one of the locations panics.  All of them are converted before anything else can be observed, so that
    their order is irrelevant. *)
Definition all_return (v : env) (L : Locations.locations) (ls : list Locations.location) : outcome unit :=
  if forallb (fun l => match Locations.convert_location (dest v) L l with Ret _ => true | _ => false end) ls then Ret tt else Panic.

(** the locations converted by [SctItems::from_sct] (sct_items.rs:34-71, 101-113, 171-335) *)
Definition sct_locations (s : SctData.sct) : list Locations.location :=
  flat_map (fun d => flat_map (fun g => List.concat (SctData.lg_lines g)) (SctData.dr_groups d))
    (SctData.sc_sids s ++ SctData.sc_stars s ++ SctData.sc_artccs_high s ++ SctData.sc_artccs s ++ SctData.sc_artccs_low s ++ SctData.sc_geo s)
  ++ map SctData.aw_start (SctData.sc_high_airways s ++ SctData.sc_low_airways s).
(** the locations converted by [maps::from_topsky] for one map (maps/mod.rs:210-300) *)
Fixpoint drawn_locations (buf : list Locations.location) (rules : list Maps.rule) : list Locations.location :=
  match rules with
  | [] => []
  | r :: rules =>
    match r with
    | Maps.RSymbol s => Maps.ms_loc s :: drawn_locations buf rules
    | Maps.RLine l => List.concat l ++ drawn_locations buf rules
    | Maps.RText t => Maps.mt_loc t :: drawn_locations buf rules
    | Maps.RCoordPoly _ | Maps.RCoordLine => buf ++ drawn_locations [] rules
    | Maps.RCoord l => drawn_locations (buf ++ [l]) rules
    | _ => drawn_locations buf rules
    end
  end.
Definition map_locations (c : Maps.ctx) (maps : list Maps.map_def) : list Locations.location :=
  flat_map (fun d => match Maps.first_colour c (Maps.md_rules d) with Some _ => drawn_locations [] (Maps.md_rules d) | None => [] end) maps.

(** [{:.6}] for f64: finite numbers, NaN and infinities *)
Definition fmt6 (x : f64) : text :=
  match Dms.fmt_fixed 0 6 x with
  | Some t => t
  | None => match x with
            | SpecFloat.S754_infinity s => if s then s2t "-inf" else s2t "inf"
            | _ => s2t "NaN"
            end
  end.

(** ** Reading *)

(** [fs_err::read(path)?] and the parser with its [?] *)
Definition read_parse {A} (v : env) (p : outcome path) (parse : text -> outcome A) : outcome A :=
  do p <- p;
  match read v p with Some b => parse (read_to_string b) | None => Err end.

(** mod.rs:228-231 *)
Definition load_squawks (v : env) (r : Prf.prf) : outcome (option (list squawk)) :=
  do o <- Prf.squawks_path (cwd v) r (order v SPrf _ (Prf.settings r));
  Ret (and_then (and_then o (read v)) (json v)).
(** mod.rs:232-240; topsky/mod.rs:230-236: the three files *)
Definition load_topsky (v : env) (r : Prf.prf) : outcome (option TopskyParse.topsky) :=
  do o <- Prf.topsky_path (cwd v) r (order v SPrf _ (Prf.settings r));
  match o with
  | None => Ret None
  | Some d =>
    match TopskyParse.parse_topsky (upper v) (read v (join d (pth "TopSkySettings.txt"))) (read v (join d (pth "TopSkySymbols.txt")))
            (read v (join d (pth "TopSkyMaps.txt"))) with
    | Ret t => Ret (Some t)
    | Err => Ret None
    | Panic => Panic
    end
  end.

(** settings/mod.rs:464-486 [Settings::from_euroscope], 312-326 [MapsSettings::from_euroscope] *)
Definition settings_from (v : env) (r : Prf.prf) (y : SymbologyParse.symbology) (t : option TopskyParse.topsky) (q : option (list squawk))
  : outcome settings :=
  let ts := option_map TopskyParse.tk_settings t in
  do _ <- omap (Prf.recent_path (cwd v) r) [1; 2; 3; 4; 5; 6; 7; 8; 9]%N;
  Ret (mkSettings (Maps.mkMapsSettings (maps_font_size ts) (s2t "AUTO") (lit 1) (f64_of_Z 3, f64_of_Z 3))
    (line_settings_from (items_of y)) (label_settings_from (items_of y)) (vector_settings ts) (history_dots ts) (coopans_setting ts)
    (match q with Some l => special_use_codes l | None => [] end)
    (asr_files (fun i => match Prf.recent_path (cwd v) r i with Ret o => o | _ => None end)) default_coordination
    None vector_options dots_options).

(** colours.rs:551-578 with the data of the files *)
Definition colours_of (v : env) (y : SymbologyParse.symbology) (s : SctData.sct) (t : option TopskyParse.topsky) (coopans : bool) : colours :=
  colours_from_euroscope (item_colours y) (order v SSctColours _ (SctData.sc_colours s))
    (option_map (fun t => order v STopskyColours _ (map (fun '(k, c) => (k, snd c)) (TopskyParse.tk_colours t))) t) coopans.
(** the colour [colours.map.sid] *)
Definition sid_colour (c : colours) : colour := match get "sid" (col_map c) with Some x => x | None => from_rgb 0 0 0 end.

(** sector_index.rs:69-73 [rebuild] *)
Definition tree_of (v : env) (secs : list (text * Sectors.sector)) (vols : list (text * Sectors.volume)) : SectorIndex.rtree :=
  SectorIndex.build_tree (load v) (order v SIndex _ secs, vols).

(** mod.rs:215-269 [Adaptation::from_prf], in the order of the source: an error or a panic ends it.  The failures of [sectors_from_ese],
    [from_sct] and [from_topsky] are a lack of fuel or a panic of the model; none occurs. *)
Definition from_prf (v : env) (r : Prf.prf) : outcome adaptation :=
  do s <- read_parse v (Prf.sct_path (cwd v) r) SctParse.parse_sct;
  do e <- read_parse v (Prf.ese_path (cwd v) r) EseParse.parse_ese;
  do airways <- read_parse v (Prf.airways_path (cwd v) r) AirwayTxt.parse_airway_txt;
  do (volumes, sectors) <- unwrap (Sectors.sectors_from_ese (order v SEseSectors _ (EseParse.e_sectors e)) (fun id => order v (SRing id) _) (ccw v)
                                     (order v SGroups _));
  let '(departure, destination) := Constraints.extract_constraints (EseParse.e_constraints e) in
  let positions := from_ese_positions (EseParse.e_positions e) in
  do y <- read_parse v (Prf.symbology_path (cwd v) r) SymbologyParse.parse_symbology;
  do q <- load_squawks v r;
  do t <- load_topsky v r;
  do st <- settings_from v r y t q;
  let cs := colours_of v y s t (se_coopans st) in
  let lookup n := colours_get cs n (se_coopans st) in
  do icao <- read_parse v (Prf.airports_path (cwd v) r) Icao.parse_airports;
  do navdata <- read_parse v (Prf.navdata_airports_path (cwd v) r) Icao.parse_navdata_airports;
  do L <- Locations.from_euroscope (dest v) (loc_input_of v s e icao navdata);
  do _ <- all_return v L (sct_locations s);
  do si <- unwrap (SctItems.from_sct fmt6 (SctItems.mkSctCtx lookup (place v L) (sid_colour cs)) s);
  do aircraft <- read_parse v (Prf.aircraft_path (cwd v) r) Icao.parse_aircraft;
  do airlines <- read_parse v (Prf.airlines_path (cwd v) r) Icao.parse_airlines;
  do maps <- match t with
             | Some t =>
               let c := Maps.mkCtx lookup (place v L) (se_maps st) in
               do _ <- all_return v L (map_locations c (TopskyParse.tk_maps t));
               unwrap (Maps.from_topsky c (TopskyParse.tk_overrides t) (TopskyParse.tk_maps t))
             | None => Ret []
             end;
  Ret (mkAdaptation (SctData.in_name (SctData.sc_info s)) (mkAllLocations L airways) positions volumes sectors departure destination maps
    (symbols_from (option_map (fun t => map (fun '(k, x) => (k, snd x)) (TopskyParse.tk_symbols t)) t) (SymbologyParse.sg_symbols y)) cs
    (line_styles_from_topsky (upper v)
       (option_map (fun t => order v SStyles _ (map (fun '(k, l) => (k, TopskyParse.ld_dashes l)) (TopskyParse.tk_styles t))) t))
    st aircraft airlines si (Some (tree_of v sectors volumes))).

(** ** Queries *)

(** mod.rs:326-345: the queries of an adaptation; an index that was never built is built from its sectors and volumes *)
Definition index_of (v : env) (a : adaptation) : SectorIndex.rtree :=
  match ad_index a with Some t => t | None => tree_of v (ad_sectors a) (ad_volumes a) end.
Definition find_sector (v : env) contains (a : adaptation) (p : point) (level : spec_float) : option text :=
  SectorIndex.find_sector contains (index_of v a) p level.
Definition volumes_at (v : env) contains (a : adaptation) (p : point) : list (text * Sectors.volume) :=
  SectorIndex.volumes_at contains (index_of v a) p.
(** mod.rs:320-322 [rebuild_sector_index] *)
Definition rebuild_sector_index (v : env) (a : adaptation) : adaptation :=
  mkAdaptation (ad_name a) (ad_locations a) (ad_positions a) (ad_volumes a) (ad_sectors a) (ad_departure a) (ad_destination a) (ad_maps a)
    (ad_symbols a) (ad_colours a) (ad_line_styles a) (ad_settings a) (ad_aircraft a) (ad_airlines a) (ad_sct_items a)
    (Some (tree_of v (ad_sectors a) (ad_volumes a))).

(** ** Overlays *)

(** The libraries: serialisation to JSON and back, evaluation of Jsonnet to JSON, the string literal of jrsonnet's [escape_string_json],
    and toml to (prf, overlays) *)
Record libs := mkLibs {
  to_json : adaptation -> option text; of_json : text -> option adaptation; evaluate : text -> option text; quote : text -> text;
  toml : list N -> option (text * list text); canonicalize : path -> option path }.
(** [Path::display] *)
Definition display (p : path) : text :=
  (if rooted p then [SLASH] else []) ++
  match comps p with [] => [] | c :: l => c ++ flat_map (fun c => SLASH :: c) l end.
Definition from_option {A} (o : option A) : outcome A := match o with Some a => Ret a | None => Err end.
(** mod.rs:272-314 [apply_jsonnet_overlays]; [current_dir] is assumed to succeed.  [index] is [serde(skip)], so that [of_json] yields
    an adaptation without one. *)
Definition overlay_import (b : libs) (p : path) : text := [10]%N ++ s2t " + (import " ++ quote b (display p) ++ s2t ")".
Definition apply_jsonnet_overlays (v : env) (b : libs) (a : adaptation) (overlays : list path) : outcome adaptation :=
  match overlays with
  | [] => Ret a
  | _ =>
    do j <- from_option (to_json b a);
    do m <- from_option (evaluate b (j ++ flat_map (overlay_import b) overlays));
    do r <- from_option (of_json b m);
    Ret (rebuild_sector_index v r)
  end.
(** mod.rs:347-353 [from_prf_with_overlays] *)
Definition from_prf_with_overlays (v : env) (b : libs) (r : Prf.prf) (overlays : list path) : outcome adaptation :=
  do a <- from_prf v r; apply_jsonnet_overlays v b a overlays.
(** mod.rs:142-144 [normalise_path] *)
Definition normalise_path (b : libs) (base to_normalise : path) : outcome path := from_option (canonicalize b (join base to_normalise)).
(** mod.rs:151-166 [AdaptationSetup::parse] *)
Definition setup_parse (v : env) (b : libs) (adaptation_toml : path) : outcome (path * list path) :=
  do bytes <- from_option (read v adaptation_toml);
  do (prf, overlays) <- from_option (toml b bytes);
  do adaptation_toml_parent <- unwrap (parent adaptation_toml);
  do prf <- normalise_path b adaptation_toml_parent (to_path prf);
  do overlays <- omap (fun o => normalise_path b adaptation_toml_parent (to_path o)) overlays;
  Ret (prf, overlays).
(** mod.rs:355-363 [from_adaptation_toml] *)
Definition from_adaptation_toml (v : env) (b : libs) (adaptation_toml : path) : outcome adaptation :=
  do (prf, overlays) <- setup_parse v b adaptation_toml;
  do bytes <- from_option (read v prf);
  do r <- Prf.prf_parse (canonicalize b prf) (read_to_string bytes);
  from_prf_with_overlays v b r overlays.
