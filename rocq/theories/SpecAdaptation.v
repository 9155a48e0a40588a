(** Specification of loading a profile (C60-C66): the files, what is taken from which of them, and the assumptions on libraries. *)
From Coq Require Import Reals.
From Flocq Require Import Core BinarySingleNaN.
From Verif Require Import Base Float Paths Colours Settings Trees Decode SpecSectors SpecSectorIndex.
From Verif Require SpecPrf SpecColours Constraints SctItems Prf SctData SctParse EseParse AirwayTxt Airways SymbologyParse TopskyParse Icao Sectors SectorIndex Locations SpecLocations Maps.
From Verif Require Import Adaptation.
Local Open Scope string_scope.
Local Open Scope list_scope.

(** The file at the path [p] exists and its text is read as [x]. *)
Definition file_read {A} (v : env) (p : outcome path) (parse : text -> outcome A) (x : A) : Prop :=
  exists q b, p = Ret q /\ read v q = Some b /\ parse (read_to_string b) = Ret x.
(** The file at the path [p] does not exist, or its text is an error. *)
Definition file_bad {A} (v : env) (p : outcome path) (parse : text -> outcome A) : Prop :=
  exists q, p = Ret q /\ (read v q = None \/ exists b, read v q = Some b /\ parse (read_to_string b) = Err).

(** The eight files of a profile *)
Record files := mkFiles {
  f_sct : SctData.sct; f_ese : EseParse.ese; f_airways : Airways.graph; f_symbology : SymbologyParse.symbology;
  f_airports : list (text * Icao.icao_airport); f_navdata : list (text * Icao.navdata_airport);
  f_aircraft : list (text * Icao.aircraft); f_airlines : list (text * Icao.airline) }.
Record files_read (v : env) (r : Prf.prf) (F : files) : Prop := {
  fr_sct : file_read v (Prf.sct_path (cwd v) r) SctParse.parse_sct (f_sct F);
  fr_ese : file_read v (Prf.ese_path (cwd v) r) EseParse.parse_ese (f_ese F);
  fr_airways : file_read v (Prf.airways_path (cwd v) r) AirwayTxt.parse_airway_txt (f_airways F);
  fr_symbology : file_read v (Prf.symbology_path (cwd v) r) SymbologyParse.parse_symbology (f_symbology F);
  fr_airports : file_read v (Prf.airports_path (cwd v) r) Icao.parse_airports (f_airports F);
  fr_navdata : file_read v (Prf.navdata_airports_path (cwd v) r) Icao.parse_navdata_airports (f_navdata F);
  fr_aircraft : file_read v (Prf.aircraft_path (cwd v) r) Icao.parse_aircraft (f_aircraft F);
  fr_airlines : file_read v (Prf.airlines_path (cwd v) r) Icao.parse_airlines (f_airlines F) }.
Definition some_file_bad (v : env) (r : Prf.prf) : Prop :=
  file_bad v (Prf.sct_path (cwd v) r) SctParse.parse_sct \/
  file_bad v (Prf.ese_path (cwd v) r) EseParse.parse_ese \/
  file_bad v (Prf.airways_path (cwd v) r) AirwayTxt.parse_airway_txt \/
  file_bad v (Prf.symbology_path (cwd v) r) SymbologyParse.parse_symbology \/
  file_bad v (Prf.airports_path (cwd v) r) Icao.parse_airports \/
  file_bad v (Prf.navdata_airports_path (cwd v) r) Icao.parse_navdata_airports \/
  file_bad v (Prf.aircraft_path (cwd v) r) Icao.parse_aircraft \/
  file_bad v (Prf.airlines_path (cwd v) r) Icao.parse_airlines.

(** Hash maps are iterated in some order. *)
Definition orders_ok (v : env) : Prop := forall s A (l : list A), Permutation (order v s A l) l.

(** ** Plugins *)

(** where the plugins are, as the profile says *)
Definition topsky_dir (v : env) (r : Prf.prf) : outcome (option path) := Prf.topsky_path (cwd v) r (order v SPrf _ (Prf.settings r)).
Definition squawks_file (v : env) (r : Prf.prf) : outcome (option path) := Prf.squawks_path (cwd v) r (order v SPrf _ (Prf.settings r)).
(** the result of reading the TopSky files in the directory [d] *)
Definition topsky_files (v : env) (d : path) : outcome TopskyParse.topsky :=
  let f n := read v (mkPath (rooted d) (comps d ++ [s2t n])) in
  TopskyParse.parse_topsky (upper v) (f "TopSkySettings.txt") (f "TopSkySymbols.txt") (f "TopSkyMaps.txt").
(** [o] is the TopSky data of the profile *)
Definition topsky_data (v : env) (r : Prf.prf) (o : option TopskyParse.topsky) : Prop :=
  match o with
  | Some t => exists d, topsky_dir v r = Ret (Some d) /\ topsky_files v d = Ret t
  | None => topsky_dir v r = Ret None \/ exists d, topsky_dir v r = Ret (Some d) /\ topsky_files v d = Err
  end.
(** [o] is the content of squawks.json *)
Definition squawks_data (v : env) (r : Prf.prf) (o : option (list squawk)) : Prop :=
  match o with
  | Some l => exists p b, squawks_file v r = Ret (Some p) /\ read v p = Some b /\ json v b = Some l
  | None => squawks_file v r = Ret None \/
            exists p, squawks_file v r = Ret (Some p) /\ (read v p = None \/ exists b, read v p = Some b /\ json v b = None)
  end.

(** ** Designators that are safe to convert: all their digits are ASCII (see C23) *)
Definition plain (l : Locations.location) : Prop :=
  match l with Locations.LCoord _ => True | Locations.LFix d => SpecLocations.plain_digits d end.
Definition plain_ese (e : EseParse.ese) : Prop :=
  forall x, In x (EseParse.e_procs e) ->
    Forall SpecLocations.plain_digits (EseParse.pr_route (match x with EseParse.Sid p => p | EseParse.Star p => p end)).
Definition plain_sct (s : SctData.sct) : Prop :=
  (forall d g l, In d (SctData.sc_sids s ++ SctData.sc_stars s ++ SctData.sc_artccs_high s ++ SctData.sc_artccs s ++ SctData.sc_artccs_low s ++
                       SctData.sc_geo s) -> In g (SctData.dr_groups d) -> In l (SctData.lg_lines g) -> Forall plain l) /\
  (forall a, In a (SctData.sc_high_airways s ++ SctData.sc_low_airways s) -> plain (SctData.aw_start a)).
Definition rule_locations (r : Maps.rule) : list Locations.location :=
  match r with
  | Maps.RSymbol s => [Maps.ms_loc s] | Maps.RLine l => List.concat l | Maps.RText t => [Maps.mt_loc t] | Maps.RCoord l => [l] | _ => []
  end.
Definition plain_topsky (t : TopskyParse.topsky) : Prop :=
  forall d x, In d (TopskyParse.tk_maps t) -> In x (Maps.md_rules d) -> Forall plain (rule_locations x).

(** ** Two loads that differ in files only *)
Definition with_files (v : env) (rd : path -> option (list N)) : env :=
  mkEnv (cwd v) rd (upper v) (json v) (dest v) (ccw v) (load v) (order v).
(** another file system has the same file where [p] says *)
Definition same_file (v : env) (rd : path -> option (list N)) (p : outcome path) : Prop := forall q, p = Ret q -> rd q = read v q.
Definition same_topsky (v : env) (rd : path -> option (list N)) (r : Prf.prf) : Prop :=
  forall d n, topsky_dir v r = Ret (Some d) -> In n ["TopSkySettings.txt"; "TopSkySymbols.txt"; "TopSkyMaps.txt"] ->
    rd (mkPath (rooted d) (comps d ++ [s2t n])) = read v (mkPath (rooted d) (comps d ++ [s2t n])).
Definition same_squawks (v : env) (rd : path -> option (list N)) (r : Prf.prf) : Prop :=
  forall p, squawks_file v r = Ret (Some p) -> rd p = read v p.

(** ** Sectors *)

(** What is assumed of geo's orientation of a polygon: it makes up no points. *)
Definition ccw_ok (v : env) : Prop := forall l p, In p (ccw v l) -> In p l.
(** The sector definition [s] of the .ese file, called [vid], is in force for the point and the level: it has owners and its border closes, its polygon
    contains the point, and the level is at or above its lower and below its upper limit (as real numbers). *)
Definition covers contains (e : EseParse.ese) (a : adaptation) (p : point) (level : spec_float) (vid : text) (s : Sectors.ese_sector) : Prop :=
  valid_entry (EseParse.e_sectors e) vid s /\ Sectors.es_owner s <> [] /\
  (exists vol, get vid (ad_volumes a) = Some vol /\ contains (Sectors.v_border vol) p = true) /\
  (IZR (Z.of_N (Sectors.es_bottom s)) <= SF2R radix2 level < IZR (Z.of_N (Sectors.es_top s)))%R.
(** The definition [vid] belongs to the sector [id] of the adaptation. *)
Definition in_sector (a : adaptation) (id vid : text) : Prop := exists sc, In (id, sc) (ad_sectors a) /\ In vid (Sectors.sc_volumes sc).
(** Levels that are exact numbers of type f32 *)
Definition levels_ok (e : EseParse.ese) : Prop :=
  forall vid s, In (vid, s) (EseParse.e_sectors e) -> (Sectors.es_bottom s < 16777216)%N /\ (Sectors.es_top s < 16777216)%N.

(** ** What an adaptation consists of *)

(** The input of the location tables: all of it from the files *)
Record input_matches (F : files) (i : Locations.loc_input) : Prop := {
  im_fixes : Locations.i_fixes i = SctData.sc_fixes (f_sct F);
  im_vors : Locations.i_vors i = SctData.sc_vors (f_sct F);
  im_ndbs : Locations.i_ndbs i = SctData.sc_ndbs (f_sct F);
  im_airports : Forall2 (fun x y => Locations.sa_des x = SctData.sap_des y /\ Locations.sa_pos x = SctData.sap_pos y)
    (Locations.i_airports i) (SctData.sc_airports (f_sct F));
  im_runways : Locations.i_runways i = SctData.sc_runways (f_sct F);
  im_navdata : forall d, get d (Locations.i_navdata i) =
    match get d (f_navdata F) with Some n => Some (Locations.mkNavdata (Icao.nd_name n) (Icao.nd_location n)) | None => None end;
  im_icao : forall d, get d (Locations.i_icao i) =
    match get d (f_airports F) with Some n => Some (Locations.mkIcao (Icao.ia_name n) (Icao.ia_country n)) | None => None end;
  im_procs : Forall2 (fun x y => match x, y with
      | Locations.Sid p, EseParse.Sid q | Locations.Star p, EseParse.Star q =>
        Locations.ep_name p = EseParse.pr_name q /\ Locations.ep_airport p = EseParse.pr_airport q /\
        Locations.ep_runway p = EseParse.pr_runway q /\ Locations.ep_wpts p = EseParse.pr_route q
      | _, _ => False
      end) (Locations.i_procs i) (EseParse.e_procs (f_ese F)) }.

(** [lookup] and [pl] are how the adaptation finds colours and places. *)
Definition finds (v : env) (a : adaptation) (lookup : text -> option colour) (pl : Locations.location -> option point) : Prop :=
  (forall n, lookup n = colours_get (ad_colours a) n (se_coopans (ad_settings a))) /\
  (forall l o, Locations.convert_location (dest v) (al_points (ad_locations a)) l = Ret o -> pl l = o).

(** The settings of TopSky, if there are any *)
Definition topsky_settings (t : option TopskyParse.topsky) : option (list (text * text)) :=
  match t with Some x => Some (TopskyParse.tk_settings x) | None => None end.
(** the item of the symbology file *)
Definition item_is (y : SymbologyParse.symbology) (its : items) : Prop :=
  forall k, get k its = match get k (SymbologyParse.sg_items y) with
    | Some i => Some (mkItem (SymbologyParse.si_size i) (SymbologyParse.si_style i) (SymbologyParse.si_weight i) (SymbologyParse.si_align i))
    | None => None
    end.
Definition colour_is (y : SymbologyParse.symbology) (its : list ((text * text) * colour)) : Prop :=
  forall k, get k its = match get k (SymbologyParse.sg_items y) with Some i => Some (SymbologyParse.si_colour i) | None => None end.

Record settings_match (v : env) (r : Prf.prf) (F : files) (t : option TopskyParse.topsky) (q : option (list squawk)) (st : settings) : Prop := {
  sm_font : Maps.st_font (se_maps st) = maps_font_size (topsky_settings t);
  sm_maps : Maps.st_auto (se_maps st) = s2t "AUTO" /\ Maps.st_layer (se_maps st) = f32_of_Z 1 /\ Maps.st_offset (se_maps st) = (f64_of_Z 3, f64_of_Z 3);
  sm_coordination : co_act (se_coordination st) = f32_of_Z (15 * 60) /\ co_abi (se_coordination st) = f32_of_Z (30 * 60) /\
    co_rev (se_coordination st) = f32_of_Z (5 * 60) /\ co_lam (se_coordination st) = f32_of_Z 5 /\ co_firs (se_coordination st) = [];
  sm_options : se_font st = None /\ se_dots_options st = [0; 1; 2; 3; 4; 5; 6; 7; 8]%N /\
    se_vector_options st = SpecFloat.SFdiv 24 128 (f32_of_Z 1) (f32_of_Z 2) :: map f32_of_Z [1; 2; 3; 4; 5; 6; 7; 8; 9; 10; 15; 20]%Z;
  sm_lines : exists its, item_is (f_symbology F) its /\ se_lines st = line_settings_from its;
  sm_labels : exists its, item_is (f_symbology F) its /\ se_labels st = label_settings_from its;
  sm_vector : se_vector st = vector_settings (topsky_settings t);
  sm_dots : se_dots st = history_dots (topsky_settings t);
  sm_coopans : se_coopans st = coopans_setting (topsky_settings t);
  sm_codes : forall k, get k (se_codes st) = match q with Some l => get k (special_use_codes l) | None => None end;
  sm_asr : exists recent, (forall n, (1 <= n <= 9)%N -> Prf.recent_path (cwd v) r n = Ret (recent n)) /\ se_asr st = asr_files recent }.

Record contents (v : env) (r : Prf.prf) (F : files) (t : option TopskyParse.topsky) (q : option (list squawk)) (a : adaptation) : Prop := {
  ct_name : ad_name a = SctData.in_name (SctData.sc_info (f_sct F));
  ct_points : exists i, input_matches F i /\ SpecLocations.input_ok i /\
    Locations.from_euroscope (dest v) i = Ret (al_points (ad_locations a));
  ct_airways : al_airways (ad_locations a) = f_airways F;
  ct_positions : forall id, match get id (EseParse.e_positions (f_ese F)) with
    | Some p => exists x, get id (ad_positions a) = Some x /\ ps_id x = EseParse.po_ident p /\ ps_name x = EseParse.po_name p /\
        ps_frequency x = EseParse.po_freq p /\ ps_prefix x = EseParse.po_prefix p /\ ps_suffix x = EseParse.po_suffix p /\
        ps_points x = EseParse.po_points p
    | None => get id (ad_positions a) = None
    end;
  ct_sectors : sectors_ok (EseParse.e_sectors (f_ese F)) (ccw v) (ad_volumes a) (ad_sectors a);
  ct_constraints : Constraints.extract_constraints (EseParse.e_constraints (f_ese F)) = (ad_departure a, ad_destination a);
  ct_maps : match t with
    | None => ad_maps a = []
    | Some x => exists c, finds v a (Maps.lookup c) (Maps.conv_loc c) /\ Maps.sets_ c = se_maps (ad_settings a) /\
        Maps.from_topsky c (TopskyParse.tk_overrides x) (TopskyParse.tk_maps x) = Some (ad_maps a)
    end;
  ct_symbols : exists l, ad_symbols a = symbols_from l (SymbologyParse.sg_symbols (f_symbology F)) /\
    match t with
    | None => l = None
    | Some x => exists m, l = Some m /\ forall n, get n m = match get n (TopskyParse.tk_symbols x) with Some s => Some (snd s) | None => None end
    end;
  ct_colours : exists its so ts, colour_is (f_symbology F) its /\ Permutation so (SctData.sc_colours (f_sct F)) /\
    ad_colours a = colours_from_euroscope its so ts (coopans_setting (topsky_settings t)) /\
    match t with
    | None => ts = None
    | Some x => exists m, ts = Some m /\ NoDup (keys m) /\
        forall n, get n m = match get n (TopskyParse.tk_colours x) with Some c => Some (snd c) | None => None end
    end;
  ct_lookup : forall n, exists d, SpecColours.builtin_default (coopans_setting (topsky_settings t)) n d /\
    colours_get (ad_colours a) n (coopans_setting (topsky_settings t)) =
    SpecColours.first_some [match t with
                            | Some x => match get n (TopskyParse.tk_colours x) with Some c => Some (snd c) | None => None end
                            | None => None
                            end; get n (SctData.sc_colours (f_sct F)); d];
  ct_styles : exists l, ad_line_styles a = line_styles_from_topsky (upper v) l /\
    match t with
    | None => l = None
    | Some x => exists m, l = Some m /\ Permutation m (map (fun y => (fst y, TopskyParse.ld_dashes (snd y))) (TopskyParse.tk_styles x))
    end;
  ct_settings : settings_match v r F t q (ad_settings a);
  ct_aircraft : ad_aircraft a = f_aircraft F;
  ct_airlines : ad_airlines a = f_airlines F;
  ct_items : exists c, finds v a (SctItems.lookup_ c) (SctItems.loc_ c) /\
    get "sid" (col_map (ad_colours a)) = Some (SctItems.sid_ c) /\
    SctItems.from_sct fmt6 c (f_sct F) = Some (ad_sct_items a) }.

(** ** Two loads that differ in hash map iteration and the arrangement of the index only *)
Definition with_orders (v : env) (ld : list SectorIndex.entry -> SectorIndex.rtree) (o : site -> forall A : Type, list A -> list A) : env :=
  mkEnv (cwd v) (read v) (upper v) (json v) (dest v) (ccw v) ld o.
(** the two definitions are in one sector of the adaptation *)
Definition together (a : adaptation) (x y : text) : Prop := exists id, in_sector a id x /\ in_sector a id y.

(** ** Two loads that differ in the working directory only *)
Definition with_cwd (v : env) (c : path) : env := mkEnv c (read v) (upper v) (json v) (dest v) (ccw v) (load v) (order v).
(** all paths of the profile start with a separator: they are relative to the profile *)
Definition self_contained (r : Prf.prf) : Prop := forall k x, In (k, x) (Prf.settings r) -> exists y, x = 92%N :: y \/ x = 47%N :: y.

(** ** Overlays *)

(** the same adaptation, up to the index *)
Definition same_data (a a' : adaptation) : Prop :=
  ad_name a = ad_name a' /\ ad_locations a = ad_locations a' /\ ad_positions a = ad_positions a' /\ ad_volumes a = ad_volumes a' /\
  ad_sectors a = ad_sectors a' /\ ad_departure a = ad_departure a' /\ ad_destination a = ad_destination a' /\ ad_maps a = ad_maps a' /\
  ad_symbols a = ad_symbols a' /\ ad_colours a = ad_colours a' /\ ad_line_styles a = ad_line_styles a' /\ ad_settings a = ad_settings a' /\
  ad_aircraft a = ad_aircraft a' /\ ad_airlines a = ad_airlines a' /\ ad_sct_items a = ad_sct_items a'.
(** the Jsonnet program: the adaptation, plus each overlay in turn *)
Inductive program (b : libs) (j : text) : list path -> text -> Prop :=
| program_none : program b j [] j
| program_more l p x : program b j l x -> program b j (l ++ [p]) (x ++ 10%N :: s2t " + (import " ++ quote b (display p) ++ s2t ")").
(** [a'] is the adaptation [a] with the overlays on top *)
Definition overlaid (b : libs) (a : adaptation) (overlays : list path) (a' : adaptation) : Prop :=
  exists j x m a0, to_json b a = Some j /\ program b j overlays x /\ evaluate b x = Some m /\ of_json b m = Some a0 /\ same_data a' a0.

(** ** adaptation.toml *)

(** [p] is the file that the path [t], written in a file in the directory [d], means *)
Definition target (b : libs) (d : path) (t : text) (p : path) : Prop :=
  exists q l, SpecPrf.names t l /\ canonicalize b q = Some p /\ SpecPrf.below (match t with 47%N :: _ => mkPath true [] | _ => d end) l q.
