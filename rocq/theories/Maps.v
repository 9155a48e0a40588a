(** Model of src/adaptation/maps/mod.rs. *)
From Verif Require Import Base Num Float FloatParse Colours Settings Locations.

(** * TopSky map rules *)

(** adaptation/maps/active.rs:4-50 *)
Record runway_id := mkRunwayId { ri_icao : text; ri_des : text }.
Record active_ids := mkActiveIds {
  ai_own : option (list text); ai_own_ex : option (list text);
  ai_online : option (list text); ai_online_ex : option (list text) }.
Record active_runways := mkActiveRunways {
  ar_arr : option (list runway_id); ar_arr_ex : option (list runway_id);
  ar_dep : option (list runway_id); ar_dep_ex : option (list runway_id) }.
Record active_areas := mkActiveAreas { aa_areas : list text; aa_ex : option (list text) }.
Inductive active :=
| ATrue | ASchedule | AAup (l : list text) | ANotam (icao : text) (l : list text) | AArea (a : active_areas)
| AId (a : active_ids) | ACallsign (a : active_ids) | ARunway (a : active_runways)
| AMap (same : bool) (folder name : text).

(** topsky/map/mod.rs:76-95 [Label], [MapSymbol] *)
Record map_symbol := mkMapSymbol {
  ms_name : text; ms_loc : location; ms_label : option (text * point); ms_align : option alignment }.
(** topsky/map/mod.rs:119-124 [Text] *)
Record map_text := mkMapText { mt_loc : location; mt_content : text; mt_align : option alignment }.
(** topsky/map/mod.rs:147-154 [FontSize] *)
Inductive font_size := FExact (x : f32) | FAdd (x : f32) | FSub (x : f32) | FMul (x : f32) | FDefault.
(** topsky/map/mod.rs:225-245 [MapRule]; a [MapLine] is its list of locations. *)
Inductive rule :=
| RFolder (s : text) | RColour (s : text) | RAsrData (o : option (list text)) | RActive (a : active) | RAndActive (a : active)
| RGlobal | RScreenSpecific | RHidden | RLayer (x : f32) | RSymbol (s : map_symbol) | RZoom (x : f32) | RFontSize (f : font_size)
| RLineStyle (l : line_style) | RLine (l : list (list location)) | RText (t : map_text) | RCoordPoly (hatch : text) | RCoordLine
| RCoord (l : location).
(** topsky/map/mod.rs:337-341 [MapDef] *)
Record map_def := mkMapDef { md_name : text; md_rules : list rule }.
(** topsky/map/mod.rs:317-321 [OverrideSct] *)
Definition override_sct := (text * option text)%type.

(** * Adaptation maps *)

(** maps/mod.rs:168-183 [Label], [Symbol] *)
Record label := mkLabel { lb_coord : point; lb_align : alignment; lb_text : text }.
Record dsymbol := mkDSymbol {
  ds_name : text; ds_coord : point; ds_label : option text; ds_align : alignment; ds_offset : point }.
(** maps/mod.rs:76-88 [MapGroup] *)
Record group := mkGroup {
  g_colour : colour; g_font : f32; g_layer : f32; g_asr : option (list text); g_zoom : option f32;
  g_lines : list (list point); g_labels : list label; g_symbols : list dsymbol; g_polygons : list (list point);
  g_style : line_style }.
(** maps/mod.rs:35-42 [Map] *)
Record map_ := mkMap { m_name : text; m_folder : text; m_groups : list group; m_hidden : bool; m_active : list (list active) }.
(** maps/mod.rs:28-33 [Folder] *)
Record folder := mkFolder { fo_name : text; fo_hidden : bool; fo_maps : list (text * map_) }.

(** settings/mod.rs:297-326: the parts of [MapsSettings] used here *)
Record maps_settings := mkMapsSettings { st_font : f32; st_auto : text; st_layer : f32; st_offset : point }.

(** Conversion context: [lookup] is [Colours::get] with the settings applied (C05) and [conv] is
    [Locations::convert_location] on locations for which it returns (it may panic, see C23). *)
Record ctx := mkCtx { lookup : text -> option colour; conv_loc : location -> option point; sets_ : maps_settings }.

(** maps/mod.rs:91-104 [MapGroup::default_from_settings] *)
Definition default_group (s : maps_settings) (c : colour) : group :=
  mkGroup c (st_font s) (st_layer s) None None [] [] [] [] (mkLineStyle 1 (s2t "SOLID")).

Definition is_nil {A} (l : list A) : bool := match l with [] => true | _ => false end.

(** [Vec::last_mut] used to replace the last element *)
Definition set_last {A} (l : list A) (x : A) : list A := removelast l ++ [x].

Definition set_groups (m : map_) (g : list group) : map_ := mkMap (m_name m) (m_folder m) g (m_hidden m) (m_active m).

(** maps/mod.rs:45-73 [Map::config_change] *)
Definition config_change (s : maps_settings) (c : colour) (m : map_) (change : group -> group) : map_ :=
  match rev (m_groups m) with
  | g :: _ =>
    if is_nil (g_lines g) && is_nil (g_symbols g) && is_nil (g_labels g)
    then set_groups m (set_last (m_groups m) (change g))
    else set_groups m (m_groups m ++
           [change (mkGroup (g_colour g) (g_font g) (g_layer g) (g_asr g) (g_zoom g) [] [] [] [] (g_style g))])
  | [] => set_groups m (m_groups m ++ [change (default_group s c)])
  end.

Definition set_colour (x : colour) (g : group) := mkGroup x (g_font g) (g_layer g) (g_asr g) (g_zoom g) (g_lines g) (g_labels g) (g_symbols g) (g_polygons g) (g_style g).
Definition set_font (x : f32) (g : group) := mkGroup (g_colour g) x (g_layer g) (g_asr g) (g_zoom g) (g_lines g) (g_labels g) (g_symbols g) (g_polygons g) (g_style g).
Definition set_layer (x : f32) (g : group) := mkGroup (g_colour g) (g_font g) x (g_asr g) (g_zoom g) (g_lines g) (g_labels g) (g_symbols g) (g_polygons g) (g_style g).
Definition set_asr (x : option (list text)) (g : group) := mkGroup (g_colour g) (g_font g) (g_layer g) x (g_zoom g) (g_lines g) (g_labels g) (g_symbols g) (g_polygons g) (g_style g).
Definition set_zoom (x : option f32) (g : group) := mkGroup (g_colour g) (g_font g) (g_layer g) (g_asr g) x (g_lines g) (g_labels g) (g_symbols g) (g_polygons g) (g_style g).
Definition set_style (x : line_style) (g : group) := mkGroup (g_colour g) (g_font g) (g_layer g) (g_asr g) (g_zoom g) (g_lines g) (g_labels g) (g_symbols g) (g_polygons g) x.
Definition add_lines (l : list (list point)) (g : group) := mkGroup (g_colour g) (g_font g) (g_layer g) (g_asr g) (g_zoom g) (g_lines g ++ l) (g_labels g) (g_symbols g) (g_polygons g) (g_style g).
Definition add_label (x : label) (g : group) := mkGroup (g_colour g) (g_font g) (g_layer g) (g_asr g) (g_zoom g) (g_lines g) (g_labels g ++ [x]) (g_symbols g) (g_polygons g) (g_style g).
Definition add_symbol (x : dsymbol) (g : group) := mkGroup (g_colour g) (g_font g) (g_layer g) (g_asr g) (g_zoom g) (g_lines g) (g_labels g) (g_symbols g ++ [x]) (g_polygons g) (g_style g).
Definition add_polygon (x : list point) (g : group) := mkGroup (g_colour g) (g_font g) (g_layer g) (g_asr g) (g_zoom g) (g_lines g) (g_labels g) (g_symbols g) (g_polygons g ++ [x]) (g_style g).

(** [Iterator::filter_map] *)
Fixpoint filter_map {A B} (f : A -> option B) (l : list A) : list B :=
  match l with [] => [] | a :: l => match f a with Some b => b :: filter_map f l | None => filter_map f l end end.

(** f64 and [Coord] equality *)
Definition feqb : f64 -> f64 -> bool := SFeqb.
Definition point_eqb (p p' : point) : bool := feqb (px p) (px p') && feqb (py p) (py p').
(** geo's [Polygon::new], which closes the exterior ring: the first point is appended unless it equals the last. *)
Definition close_ring (l : list point) : list point :=
  match l, rev l with
  | p :: _, p' :: _ => if point_eqb p p' then l else l ++ [p]
  | _, _ => l
  end.

Definition unwrap_align (o : option alignment) : alignment := match o with Some a => a | None => default_alignment end.

(** maps/mod.rs:106-127 [add_topsky_symbol] *)
Definition add_topsky_symbol (c : ctx) (s : map_symbol) (g : group) : group :=
  match conv_loc c (ms_loc s) with
  | Some p => add_symbol (mkDSymbol (ms_name s) p (option_map fst (ms_label s)) (unwrap_align (ms_align s))
                (match ms_label s with Some l => snd l | None => st_offset (sets_ c) end)) g
  | None => g
  end.
(** maps/mod.rs:128-140 [add_topsky_lines] *)
Definition add_topsky_lines (c : ctx) (l : list (list location)) (g : group) : group :=
  add_lines (map (fun pts => filter_map (conv_loc c) pts) l) g.
(** maps/mod.rs:141-155 [add_topsky_polygon] *)
Definition add_topsky_polygon (c : ctx) (l : list location) (g : group) : group :=
  add_polygon (close_ring (filter_map (conv_loc c) l)) g.
(** maps/mod.rs:156-167 [add_topsky_text] *)
Definition add_topsky_text (c : ctx) (t : map_text) (g : group) : group :=
  match conv_loc c (mt_loc t) with
  | Some p => add_label (mkLabel p (unwrap_align (mt_align t)) (mt_content t)) g
  | None => g
  end.

(** [map.map_groups.last_mut().unwrap()]: [None] is the panic, excluded by [build_total]. *)
Definition on_last (m : map_) (f : group -> group) : option map_ :=
  match rev (m_groups m) with
  | g :: _ => Some (set_groups m (set_last (m_groups m) (f g)))
  | [] => None
  end.

Definition set_active (m : map_) (a : list (list active)) : map_ := mkMap (m_name m) (m_folder m) (m_groups m) (m_hidden m) a.
Definition fadd32 := SFadd 24 128.
Definition fsub32 := SFsub 24 128.

(** maps/mod.rs:244-253: the font size after a FONTSIZE rule *)
Definition new_font (s : maps_settings) (f : font_size) (cur : f32) : f32 :=
  match f with
  | FExact x => x | FAdd x => fadd32 cur x | FSub x => fsub32 cur x | FMul x => mul32 cur x | FDefault => st_font s
  end.

(** maps/mod.rs:210-300: one rule; the state is the map and the coordinate buffer. *)
Definition step (c : ctx) (col : colour) (st : option (map_ * list location)) (r : rule) : option (map_ * list location) :=
  match st with
  | None => None
  | Some (m, buf) =>
    let change f := Some (config_change (sets_ c) col m f, buf) in
    let draw f := match on_last m f with Some m => Some (m, buf) | None => None end in
    match r with
    | RFolder s => Some (mkMap (m_name m) s (m_groups m) (m_hidden m) (m_active m), buf)
    | RHidden => Some (mkMap (m_name m) (m_folder m) (m_groups m) true (m_active m), buf)
    | RColour s => match lookup c s with Some x => change (set_colour x) | None => Some (m, buf) end
    | RAsrData o => change (set_asr o)
    | RActive a => Some (set_active m (m_active m ++ [[a]]), buf)
    | RAndActive a =>
      match rev (m_active m) with
      | l :: _ => Some (set_active m (set_last (m_active m) (l ++ [a])), buf)
      | [] => Some (m, buf)
      end
    | RLayer x => change (set_layer x)
    | RZoom x => change (set_zoom (Some x))
    | RFontSize f => change (fun g => set_font (new_font (sets_ c) f (g_font g)) g)
    | RLineStyle l => change (set_style l)
    | RSymbol s => draw (add_topsky_symbol c s)
    | RLine l => draw (add_topsky_lines c l)
    | RText t => draw (add_topsky_text c t)
    | RCoordPoly _ => match on_last m (add_topsky_polygon c buf) with Some m => Some (m, []) | None => None end
    | RCoordLine => match on_last m (add_topsky_lines c [buf]) with Some m => Some (m, []) | None => None end
    | RCoord l => Some (m, buf ++ [l])
    | RGlobal | RScreenSpecific => Some (m, buf)
    end
  end.

(** maps/mod.rs:197-200: the colour of the first resolvable COLOR rule *)
Definition first_colour (c : ctx) (rules : list rule) : option colour :=
  find_map (fun r => match r with RColour s => lookup c s | _ => None end) rules.

(** maps/mod.rs:201-301: one map *)
Definition build (c : ctx) (col : colour) (d : map_def) : option map_ :=
  option_map fst (fold_left (step c col) (md_rules d)
    (Some (mkMap (md_name d) (st_auto (sets_ c)) [default_group (sets_ c) col] false [], []))).

(** maps/mod.rs:306-310: the first free suffix; [fuel] bounds the number of attempts, [None] is excluded by [free_index_total]. *)
Definition suffixed (name : text) (i : N) : text := name ++ 95%N :: fmt_uint 10 i.
Fixpoint free_index {V} (fuel : nat) (name : text) (maps : list (text * V)) (i : N) : option N :=
  if has (suffixed name i) maps
  then match fuel with O => None | S f => free_index f name maps (i + 1)%N end
  else Some i.

Definition rename (m : map_) (n : text) : map_ := mkMap n (m_folder m) (m_groups m) (m_hidden m) (m_active m).

(** maps/mod.rs:302-324: filing a map *)
Definition file_map (auto : text) (overrides : list override_sct) (folders : list (text * folder)) (m : map_)
  : option (list (text * folder)) :=
  match get (m_folder m) folders with
  | Some f =>
    let insert n := Some (put (m_folder m) (mkFolder (fo_name f) (fo_hidden f) (put n (rename m n) (fo_maps f))) folders) in
    if has (m_name m) (fo_maps f)
    then match free_index (List.length (fo_maps f)) (m_name m) (fo_maps f) 2 with
         | Some i => insert (suffixed (m_name m) i)
         | None => None
         end
    else insert (m_name m)
  | None =>
    Some (put (m_folder m) (mkFolder (m_folder m)
      (eqb (m_folder m) auto || existsb (fun o => eqb o (m_folder m, None)) overrides)
      [(m_name m, m)]) folders)
  end.

(** maps/mod.rs:187-330 [from_topsky]; [None] stands for a panic or a lack of fuel, excluded by [C28_total]. *)
Definition from_topsky (c : ctx) (overrides : list override_sct) (maps : list map_def) : option (list (text * folder)) :=
  fold_left (fun acc d =>
    match acc, first_colour c (md_rules d) with
    | Some folders, Some col =>
      match build c col d with
      | Some m => file_map (st_auto (sets_ c)) overrides folders m
      | None => None
      end
    | _, None => acc
    | None, _ => None
    end) maps (Some []).
