(** Model of src/asr.rs, after [read_to_string] (Decode.v). *)
From Verif Require Import Base Num Float FloatParse Peg Grammars Trees.
Local Open Scope string_scope.
Local Open Scope list_scope.

(** asr.rs:25-43 *)
Inductive leader := Miles (n : N) | Minutes (n : N).
Inductive simulation := SimRadar | SimGround.
Inductive display_kind := DtRadar | DtGroundRadar.
(** asr.rs:84-111 *)
Inductive fix_kind := FixName | FixSymbol.
Inductive navaid_kind := NavName | NavSymbol | NavFrequency.
Inductive runway_kind := RwyName | RwyCentreline.
Inductive airway_kind := AwyName | AwyLine.
Inductive ground_kind := GnExit | GnTaxiway | GnTerminalTaxiway.

(** asr.rs:45-82 [AsrData] *)
Inductive asr_data :=
| DAbove (v : option N)
| DBelow (v : option N)
| DDisablePanning (v : bool)
| DDisableZooming (v : bool)
| DDisplayRotation (v : f64)
| DDisplayType (v : display_kind)
| DDisplayTypeGeoReferenced (v : bool)
| DDisplayTypeNeedRadarContent (v : bool)
| DHistoryDots (v : N)
| DLeader (v : leader)
| DSectorFile (v : text)
| DSectorTitle (v : text)
| DShowLeader (v : bool)
| DShowC (v : bool)
| DShowStandby (v : bool)
| DSimulationMode (v : simulation)
| DTagFamily (v : text)
| DTurnLeader (v : bool)
| DWindowArea (v : point * point)
| DPluginSetting (plugin key value : text)
| DRunway (v : text * text * text * runway_kind)
| DAirport (v : text * fix_kind)
| DVor (v : text * navaid_kind)
| DNdb (v : text * navaid_kind)
| DFix (v : text * fix_kind)
| DLowAirway (v : text * airway_kind)
| DHighAirway (v : text * airway_kind)
| DSid (v : text)
| DStar (v : text)
| DFreeText (v : text * text)
| DGeo (v : text)
| DGroundNetwork (v : text * ground_kind)
| DRegion (v : text)
| DArtccBoundary (v : text)
| DArtccLowBoundary (v : text)
| DArtccHighBoundary (v : text).

(** asr.rs:113-131 [AsrMap] *)
Record asr_map := mkAsrMap {
  am_runways : list (text * text * text * runway_kind);
  am_airports : list (text * fix_kind);
  am_vors : list (text * navaid_kind);
  am_ndbs : list (text * navaid_kind);
  am_fixes : list (text * fix_kind);
  am_low_airways : list (text * airway_kind);
  am_high_airways : list (text * airway_kind);
  am_sids : list text;
  am_stars : list text;
  am_free_text : list (text * text);
  am_geo : list text;
  am_ground_network : list (text * ground_kind);
  am_regions : list text;
  am_artcc_boundary : list text;
  am_artcc_low_boundary : list text;
  am_artcc_high_boundary : list text }.
Definition asr_map_default : asr_map := mkAsrMap [] [] [] [] [] [] [] [] [] [] [] [] [] [] [] [].
(** asr.rs:132-157 [From<Vec<AsrData>> for AsrMap] *)
Definition asr_map_push (acc : asr_map) (data : asr_data) : asr_map :=
  let '(mkAsrMap l0 l1 l2 l3 l4 l5 l6 l7 l8 l9 l10 l11 l12 l13 l14 l15) := acc in
  match data with
  | DRunway v => mkAsrMap (l0 ++ [v]) l1 l2 l3 l4 l5 l6 l7 l8 l9 l10 l11 l12 l13 l14 l15
  | DAirport v => mkAsrMap l0 (l1 ++ [v]) l2 l3 l4 l5 l6 l7 l8 l9 l10 l11 l12 l13 l14 l15
  | DVor v => mkAsrMap l0 l1 (l2 ++ [v]) l3 l4 l5 l6 l7 l8 l9 l10 l11 l12 l13 l14 l15
  | DNdb v => mkAsrMap l0 l1 l2 (l3 ++ [v]) l4 l5 l6 l7 l8 l9 l10 l11 l12 l13 l14 l15
  | DFix v => mkAsrMap l0 l1 l2 l3 (l4 ++ [v]) l5 l6 l7 l8 l9 l10 l11 l12 l13 l14 l15
  | DLowAirway v => mkAsrMap l0 l1 l2 l3 l4 (l5 ++ [v]) l6 l7 l8 l9 l10 l11 l12 l13 l14 l15
  | DHighAirway v => mkAsrMap l0 l1 l2 l3 l4 l5 (l6 ++ [v]) l7 l8 l9 l10 l11 l12 l13 l14 l15
  | DSid v => mkAsrMap l0 l1 l2 l3 l4 l5 l6 (l7 ++ [v]) l8 l9 l10 l11 l12 l13 l14 l15
  | DStar v => mkAsrMap l0 l1 l2 l3 l4 l5 l6 l7 (l8 ++ [v]) l9 l10 l11 l12 l13 l14 l15
  | DFreeText v => mkAsrMap l0 l1 l2 l3 l4 l5 l6 l7 l8 (l9 ++ [v]) l10 l11 l12 l13 l14 l15
  | DGeo v => mkAsrMap l0 l1 l2 l3 l4 l5 l6 l7 l8 l9 (l10 ++ [v]) l11 l12 l13 l14 l15
  | DGroundNetwork v => mkAsrMap l0 l1 l2 l3 l4 l5 l6 l7 l8 l9 l10 (l11 ++ [v]) l12 l13 l14 l15
  | DRegion v => mkAsrMap l0 l1 l2 l3 l4 l5 l6 l7 l8 l9 l10 l11 (l12 ++ [v]) l13 l14 l15
  | DArtccBoundary v => mkAsrMap l0 l1 l2 l3 l4 l5 l6 l7 l8 l9 l10 l11 l12 (l13 ++ [v]) l14 l15
  | DArtccLowBoundary v => mkAsrMap l0 l1 l2 l3 l4 l5 l6 l7 l8 l9 l10 l11 l12 l13 (l14 ++ [v]) l15
  | DArtccHighBoundary v => mkAsrMap l0 l1 l2 l3 l4 l5 l6 l7 l8 l9 l10 l11 l12 l13 l14 (l15 ++ [v])
  | _ => acc
  end.
Definition asr_map_from (data : list asr_data) : asr_map := fold_left asr_map_push data asr_map_default.

(** asr.rs:161-204 [Asr] *)
Record asr := mkAsr {
  asr_above : option N;
  asr_below : option N;
  asr_disable_panning : bool;
  asr_disable_zooming : bool;
  asr_display_rotation : f64;
  asr_display_type : display_kind;
  asr_geo_referenced : bool;
  asr_need_radar_content : bool;
  asr_history_dots : N;
  asr_leader : leader;
  asr_sector_file : text;
  asr_sector_title : text;
  asr_show_leader : bool;
  asr_show_c : bool;
  asr_show_standby : bool;
  asr_simulation_mode : simulation;
  asr_tag_family : text;
  asr_turn_leader : bool;
  asr_window_area : point * point;
  asr_plugin_settings : list ((text * text) * text);
  asr_map_of : asr_map }.

(** asr.rs:209-215 [to_bool] *)
Definition to_bool (s : text) : option bool :=
  if eqb s (s2t "0") then Some false else if eqb s (s2t "1") then Some true else None.
Definition value1 (inner : list tree) : outcome (text * list tree) := do (p, inner) <- next inner; Ret (text_of p, inner).
Definition bool_setting (f : bool -> asr_data) (inner : list tree) : outcome (option asr_data) :=
  do (s, _) <- value1 inner; Ret (option_map f (to_bool s)).
Definition text_setting (f : text -> asr_data) (inner : list tree) : outcome (option asr_data) :=
  do (s, _) <- value1 inner; Ret (Some (f s)).
(** asr.rs:245-260: 0 is no filter *)
Definition filter_setting (f : option N -> asr_data) (inner : list tree) : outcome (option asr_data) :=
  do (s, _) <- value1 inner;
  do n <- unwrap (parse_u32 s);
  Ret (Some (if (n =? 0)%N then f None else f (Some n))).
(** asr.rs:338-369 and 373-388, 411-427: a name, and the rule of the pair after it *)
Definition kind_setting {K} (f : text * K -> asr_data) (kinds : list (string * K)) (inner : list tree) : outcome (option asr_data) :=
  do (name, inner) <- value1 inner;
  do (val, _) <- next inner;
  match get (rule_of val) kinds with Some k => Ret (Some (f (name, k))) | None => Panic end.
Definition fix_kinds := [("symbol", FixSymbol); ("name", FixName)].
Definition navaid_kinds := [("symbol", NavSymbol); ("name", NavName); ("frequency", NavFrequency)].
Definition airway_kinds := [("line", AwyLine); ("name", AwyName)].
Definition ground_kinds := [("exit", GnExit); ("taxiway", GnTaxiway); ("terminal_taxiway", GnTerminalTaxiway)].

(** asr.rs:217-426 [parse_setting]; [unreachable!] is a panic *)
Definition asr_setting (pair : tree) : outcome (option asr_data) :=
  let is := is_rule pair in
  let inner := kids_of pair in
  if is "display_type" then
    do (s, _) <- value1 inner;
    Ret (Some (DDisplayType (if eqb s (s2t "Ground Radar display") then DtGroundRadar else DtRadar)))
  else if is "display_type_need_radar_content" then bool_setting DDisplayTypeNeedRadarContent inner
  else if is "display_type_geo_referenced" then bool_setting DDisplayTypeGeoReferenced inner
  else if is "sector_file" then text_setting DSectorFile inner
  else if is "sector_title" then text_setting DSectorTitle inner
  else if is "show_c" then bool_setting DShowC inner
  else if is "show_standby" then bool_setting DShowStandby inner
  else if is "above" then filter_setting DAbove inner
  else if is "below" then filter_setting DBelow inner
  else if is "leader" then
    do (s, _) <- value1 inner;
    do leader <- unwrap (parse_i8 s);
    Ret (Some (DLeader (if (0 <? leader)%Z then Miles (Z.to_N leader) else Minutes (Z.abs_N leader))))
  else if is "show_leader" then bool_setting DShowLeader inner
  else if is "turn_leader" then bool_setting DTurnLeader inner
  else if is "history_dots" then
    do (s, _) <- value1 inner;
    do n <- unwrap (parse_u8 s);
    Ret (Some (DHistoryDots n))
  else if is "simulation_mode" then
    do (s, _) <- value1 inner;
    Ret (Some (DSimulationMode (if eqb s (s2t "1") then SimRadar else if eqb s (s2t "4") then SimGround else SimRadar)))
  else if is "disable_panning" then bool_setting DDisablePanning inner
  else if is "disable_zooming" then bool_setting DDisableZooming inner
  else if is "display_rotation" then
    do (s, _) <- value1 inner;
    do x <- unwrap (parse_f64 s);
    Ret (Some (DDisplayRotation x))
  else if is "tag_family" then text_setting DTagFamily inner
  else if is "window_area" then
    do (s, inner) <- value1 inner; do lat1 <- unwrap (parse_f64 s);
    do (s, inner) <- value1 inner; do lng1 <- unwrap (parse_f64 s);
    do (s, inner) <- value1 inner; do lat2 <- unwrap (parse_f64 s);
    do (s, inner) <- value1 inner; do lng2 <- unwrap (parse_f64 s);
    Ret (Some (DWindowArea ((lng1, lat1), (lng2, lat2))))
  else if is "plugin" then
    do (plugin, inner) <- value1 inner;
    do (key, inner) <- value1 inner;
    do (value, _) <- value1 inner;
    Ret (Some (DPluginSetting plugin key value))
  else if is "runways" then
    do (airport, inner) <- value1 inner;
    do (desig_a, inner) <- value1 inner;
    do (desig_b, inner) <- value1 inner;
    do (val, _) <- next inner;
    if is_rule val "centerline" then Ret (Some (DRunway (airport, desig_a, desig_b, RwyCentreline)))
    else if is_rule val "name" then Ret (Some (DRunway (airport, desig_a, desig_b, RwyName)))
    else if is_rule val "ext_centerline" then Ret None
    else Panic
  else if is "airports" then kind_setting DAirport fix_kinds inner
  else if is "fixes" then kind_setting DFix fix_kinds inner
  else if is "ndbs" then kind_setting DNdb navaid_kinds inner
  else if is "vors" then kind_setting DVor navaid_kinds inner
  else if is "sids" then text_setting DSid inner
  else if is "stars" then text_setting DStar inner
  else if is "low_airways" then kind_setting DLowAirway airway_kinds inner
  else if is "high_airways" then kind_setting DHighAirway airway_kinds inner
  else if is "free_text" then
    do (a, inner) <- value1 inner;
    do (b, _) <- value1 inner;
    Ret (Some (DFreeText (a, b)))
  else if is "artcc_boundary" then text_setting DArtccBoundary inner
  else if is "artcc_high_boundary" then text_setting DArtccHighBoundary inner
  else if is "artcc_low_boundary" then text_setting DArtccLowBoundary inner
  else if is "geo" then text_setting DGeo inner
  else if is "ground_network" then kind_setting DGroundNetwork ground_kinds inner
  else if is "regions" then text_setting DRegion inner
  else if is "EOI" then Ret None
  else Panic.

(** [Iterator::filter_map] and [collect] *)
Fixpoint filter_omap {A B} (f : A -> outcome (option B)) (l : list A) : outcome (list B) :=
  match l with
  | [] => Ret []
  | x :: l => do o <- f x; do ys <- filter_omap f l; Ret match o with Some y => y :: ys | None => ys end
  end.
(** [Iterator::find_map] *)
Fixpoint find_map {A B} (f : A -> option B) (l : list A) : option B :=
  match l with
  | [] => None
  | x :: l => match f x with Some y => Some y | None => find_map f l end
  end.
Definition unwrap_or {A} (o : option A) (d : A) : A := match o with Some x => x | None => d end.
(** asr.rs:638-649: the plugin settings, collected into a hash map *)
Definition plugin_settings (sections : list asr_data) : list ((text * text) * text) :=
  fold_left (fun m data => match data with DPluginSetting plugin key value => put (plugin, key) value m | _ => m end) sections [].
(** asr.rs:439-675: each scalar is that of its first setting *)
Definition asr_of (sections : list asr_data) : asr :=
  mkAsr
    (unwrap_or (find_map (fun d => match d with DAbove v => Some v | _ => None end) sections) None)
    (unwrap_or (find_map (fun d => match d with DBelow v => Some v | _ => None end) sections) None)
    (unwrap_or (find_map (fun d => match d with DDisablePanning v => Some v | _ => None end) sections) false)
    (unwrap_or (find_map (fun d => match d with DDisableZooming v => Some v | _ => None end) sections) false)
    (unwrap_or (find_map (fun d => match d with DDisplayRotation v => Some v | _ => None end) sections) (S754_zero false))
    (unwrap_or (find_map (fun d => match d with DDisplayType v => Some v | _ => None end) sections) DtRadar)
    (unwrap_or (find_map (fun d => match d with DDisplayTypeGeoReferenced v => Some v | _ => None end) sections) true)
    (unwrap_or (find_map (fun d => match d with DDisplayTypeNeedRadarContent v => Some v | _ => None end) sections) true)
    (unwrap_or (find_map (fun d => match d with DHistoryDots v => Some v | _ => None end) sections) 5%N)
    (unwrap_or (find_map (fun d => match d with DLeader v => Some v | _ => None end) sections) (Minutes 3))
    (unwrap_or (find_map (fun d => match d with DSectorFile v => Some v | _ => None end) sections) [])
    (unwrap_or (find_map (fun d => match d with DSectorTitle v => Some v | _ => None end) sections) [])
    (unwrap_or (find_map (fun d => match d with DShowLeader v => Some v | _ => None end) sections) false)
    (unwrap_or (find_map (fun d => match d with DShowC v => Some v | _ => None end) sections) true)
    (unwrap_or (find_map (fun d => match d with DShowStandby v => Some v | _ => None end) sections) false)
    (unwrap_or (find_map (fun d => match d with DSimulationMode v => Some v | _ => None end) sections) SimRadar)
    (unwrap_or (find_map (fun d => match d with DTagFamily v => Some v | _ => None end) sections) (s2t "Matias (built in)"))
    (unwrap_or (find_map (fun d => match d with DTurnLeader v => Some v | _ => None end) sections) false)
    (unwrap_or (find_map (fun d => match d with DWindowArea v => Some v | _ => None end) sections) ((f64_of_dec false 6678287 6, f64_of_dec false 46529122 6), (f64_of_dec false 16599900 6, f64_of_dec false 50105536 6)))
    (plugin_settings sections)
    (asr_map_from sections).
(** asr.rs:429-676 [Asr::parse] *)
Definition asr_parse (t : text) : outcome asr :=
  do kids <- top asr_grammar "asr" t;
  do sections <- filter_omap asr_setting kids;
  Ret (asr_of sections).

(** in the style of fixtures/EDDM_APP.asr and the repository's test (asr.rs:693-760) *)
Definition asr_test : text := flat_map (fun s => s2t s ++ [13; 10]%N) [
  "DisplayTypeName:Standard ES radar screen"; "DisplayTypeNeedRadarContent:1"; "DisplayTypeGeoReferenced:1";
  "Runways:EDDM 08L-26R:centerline"; "Runways:EDDM 08R-26L:extended centerline 1"; "Sids:AMPEG - A Lange:"; "VORs:LAM:name"; "Free Text:EDDM\A 1:freetext";
  "SHOWC:1"; "SHOWSB:0"; "BELOW:0"; "ABOVE:0"; "LEADER:3"; "SHOWLEADER:0"; "TURNLEADER:0"; "HISTORY_DOTS:0"; "SIMULATION_MODE:1";
  "DISABLEPANNING:0"; "DISABLEZOOMING:0"; "DisplayRotation:0.00000"; "TAGFAMILY:iCAS2-APP";
  "WINDOWAREA:47.687116:9.936633:49.020449:13.635539"; "PLUGIN:TopSky plugin:HideMapData:TWR"; "ABOVE:100"].
Example asr_test_ok :
  match asr_parse asr_test with
  | Ret a => asr_leader a = Miles 3 /\ asr_above a = None /\ asr_tag_family a = s2t "iCAS2-APP"
    /\ asr_window_area a = ((f64_of_dec false 9936633 6, f64_of_dec false 47687116 6), (f64_of_dec false 13635539 6, f64_of_dec false 49020449 6))
    /\ am_runways (asr_map_of a) = [(s2t "EDDM", s2t "08L", s2t "26R", RwyCentreline)] /\ am_vors (asr_map_of a) = [(s2t "LAM", NavName)]
    /\ am_free_text (asr_map_of a) = [(s2t "EDDM", s2t "A 1")] /\ asr_plugin_settings a = [((s2t "TopSky plugin", s2t "HideMapData"), s2t "TWR")]
    /\ asr_history_dots a = 0%N /\ am_sids (asr_map_of a) = [s2t "AMPEG - A Lange"]
  | _ => False
  end.
Proof. vm_compute. repeat split; reflexivity. Qed.
