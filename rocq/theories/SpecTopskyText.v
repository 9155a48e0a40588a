(** Specification of the text of TopSky map and symbol files (C82, C83): how maps, symbols, colours, line styles and overrides are written. *)
From Verif Require Import Base Num Float FloatParse Dms Colours Settings Locations Maps Lines SpecText SpecFields SpecEseText SpecSymbol SpecDrawn TopskyParse.
Local Open Scope string_scope.
Local Open Scope list_scope.

(** ** Fields *)
(** any text without colons; what starts with ; or / might be a remark *)
Definition word (w : text) : Prop := field 58 w /\ unremarked w.
(** names with commas between them *)
Definition names_text (l : list text) : text := match l with [] => [] | w :: l => w ++ List.concat (map (fun v => s2t "," ++ v) l) end.
Definition names (l : list text) : Prop := l <> [] /\ Forall (fun w => word w /\ Forall (fun c => c <> 44%N) w) l.
(** either all (an asterisk) or names *)
Definition choice_text (o : option (list text)) : text := match o with Some l => names_text l | None => s2t "*" end.
Definition choice (o : option (list text)) : Prop := forall l, o = Some l -> names l /\ forall v, names_text l <> s2t "*" ++ v.
(** N048.21.13.000:E011.47.09.000, 48.35:11.78, or the name of a fix, which may not look like a coordinate *)
Inductive place := Degrees (y x : dms) | Decimals (y x : text) | Fix (w : text).
Definition spot_text (p : place) : text :=
  match p with Degrees y x => dms_text y ++ s2t ":" ++ dms_text x | Decimals y x => y ++ s2t ":" ++ x | Fix w => w end.
Definition hemispheres : text := s2t "NSWEnswe".
Definition unplaced (w : text) : Prop := forall c v, w = c :: v ->
  is_digit c = false /\ ~ In c (s2t "+-.") /\ (In c hemispheres -> forall d u, v = d :: u -> is_digit d = false).
Definition reads_spot (p : place) (l : location) : Prop :=
  match p, l with
  | Degrees y x, LCoord c => reads_place (y, x) c
  | Decimals y x, LCoord (lng, lat) => numeral y /\ numeral x /\ parse_f64 y = Some lat /\ parse_f64 x = Some lng
  | Fix w, LFix d => word w /\ unplaced w /\ d = w
  | _, _ => False
  end.
(** both ends of a line are coordinates, or both are fixes *)
Definition fixed (p : place) : bool := match p with Fix _ => true | _ => false end.
(** a text ends where a remark begins *)
Definition content (w : text) : Prop :=
  w <> [] /\ in_line w /\ trimmed w /\ Forall (fun c => c <> 59%N) w /\ forall a b, w <> a ++ s2t "//" ++ b.

(** ** Conditions *)
Inductive condition :=
| Always | Ids (own own_ex online online_ex : option (list text)) | Callsigns (own own_ex online online_ex : option (list text))
| Area (l : list text) (ex : option (list text)) | Aup (l : list text) | Notam (icao : text) (l : list text)
| OfMap (same : bool) (folder name : text).
Definition four (k : string) (a b c d : option (list text)) : text :=
  s2t k ++ choice_text a ++ s2t ":" ++ choice_text b ++ s2t ":" ++ choice_text c ++ s2t ":" ++ choice_text d.
Definition condition_text (c : condition) : text :=
  match c with
  | Always => s2t "1"
  | Ids a b c d => four "ID:" a b c d
  | Callsigns a b c d => four "CALLSIGN:" a b c d
  | Area l None => s2t "AREA:" ++ names_text l
  | Area l (Some ex) => s2t "AREA:" ++ names_text l ++ s2t ":" ++ names_text ex
  | Aup l => s2t "AUP:" ++ names_text l
  | Notam icao l => s2t "NOTAM:" ++ icao ++ s2t ":" ++ names_text l
  | OfMap same folder name => s2t "MAP:" ++ s2t (if same then "=" else "!") ++ s2t ":" ++ folder ++ s2t "\" ++ name
  end.
(** The names in a use plan or a NOTAM are not separated (C58_active_refuted). *)
Definition reads_condition (c : condition) (a : active) : Prop :=
  match c, a with
  | Always, ATrue => True
  | Ids o oe n ne, AId a => Forall choice [o; oe; n; ne] /\ a = mkActiveIds o oe n ne
  | Callsigns o oe n ne, ACallsign a => Forall choice [o; oe; n; ne] /\ a = mkActiveIds o oe n ne
  | Area l ex, AArea a => names l /\ (forall x, ex = Some x -> names x) /\ a = mkActiveAreas l ex
  | Aup l, AAup x => names l /\ x = [names_text l]
  | Notam icao l, ANotam i x => List.length icao = 4 /\ Forall (fun c => is_upper c = true) icao /\ names l /\ i = icao /\ x = [names_text l]
  | OfMap same folder name, AMap s f n => field 92 folder /\ unremarked folder /\ word name /\ s = same /\ f = folder /\ n = name
  | _, _ => False
  end.

(** ** Settings of maps *)
Inductive setting :=
| Folder (w : text) | Colour (w : text) (fill : list text) | AsrData (o : option (list text)) | Active (c : condition) | AndActive (c : condition)
| Layer (n : text) | Symbol (name : text) (p : place) (label : option (text * text * text)) | FontSize (o : option (text * text)) | Zoom (n : text)
| Style (w : text) (width : option text) | Segments (p q : place) (l : list (place * place)) | Caption (p : place) (w : text)
| Global | ScreenSpecific | Hidden | CoordLine | CoordPoly (n : text) | Coord (p : place).
Definition segment_text (s : place * place) : text := s2t "LINE:" ++ spot_text (fst s) ++ s2t ":" ++ spot_text (snd s).
Definition setting_text (s : setting) : text :=
  match s with
  | Folder w => s2t "FOLDER:" ++ w
  | Colour w fill => s2t "COLOR:" ++ w ++ listed fill
  | AsrData o => s2t "ASRDATA:" ++ choice_text o
  | Active c => s2t "ACTIVE:" ++ condition_text c
  | AndActive c => s2t "AND_ACTIVE:" ++ condition_text c
  | Layer n => s2t "LAYER:" ++ n
  | Symbol name p label => s2t "SYMBOL:" ++ name ++ s2t ":" ++ spot_text p ++ match label with Some (w, x, y) => listed [w; x; y] | None => [] end
  | FontSize (Some (sign, n)) => s2t "FONTSIZE:" ++ sign ++ s2t ":" ++ n
  | FontSize None => s2t "FONTSIZE:0"
  | Zoom n => s2t "ZOOM:" ++ n
  | Style w width => s2t "STYLE:" ++ w ++ match width with Some n => s2t ":" ++ n | None => [] end
  | Segments p q _ => segment_text (p, q)
  | Caption p w => s2t "TEXT:" ++ spot_text p ++ s2t ":" ++ w
  | Global => s2t "GLOBAL"
  | ScreenSpecific => s2t "SCREEN-SPECIFIC"
  | Hidden => s2t "HIDDEN"
  | CoordLine => s2t "COORDLINE"
  | CoordPoly n => s2t "COORDPOLY:" ++ n
  | Coord p => s2t "COORD:" ++ spot_text p
  end.
(** lines that follow *)
Definition more_lines (s : setting) : list text := match s with Segments _ _ l => map segment_text l | _ => [] end.
Definition reads_segment (s : place * place) (v : location * location) : Prop :=
  fixed (fst s) = fixed (snd s) /\ reads_spot (fst s) (fst v) /\ reads_spot (snd s) (snd v).
Section upper.
  Variable upper : text -> text.
  Definition reads_map_setting (s : setting) (r : Maps.rule) : Prop :=
    match s, r with
    | Folder w, RFolder v => word w /\ v = w
    | Colour w fill, RColour v => word w /\ Forall word fill /\ (List.length fill <= 2)%nat /\ v = w
    | AsrData o, RAsrData v => choice o /\ v = o
    | Active c, RActive a => reads_condition c a
    | AndActive c, RAndActive a => reads_condition c a
    | Layer n, RLayer x => whole n /\ parse_f32 n = Some x
    | Symbol name p label, RSymbol v => word name /\ ms_name v = name /\ reads_spot p (ms_loc v) /\ ms_align v = None /\
        match label, ms_label v with
        | Some (w, x, y), Some (c, (vx, vy)) => word w /\ c = w /\ numeral x /\ numeral y /\ parse_f64 x = Some vx /\ parse_f64 y = Some vy
        | None, None => True
        | _, _ => False
        end
    | FontSize None, RFontSize f => f = FDefault
    | FontSize (Some (sign, n)), RFontSize f => numeral n /\ exists x, parse_f32 n = Some x /\
        In (sign, f) [(s2t "=", FExact x); (s2t "+", FAdd x); (s2t "-", FSub x); (s2t "*", FMul x)]
    | Zoom n, RZoom x => numeral n /\ parse_f32 n = Some x
    | Style w width, RLineStyle l => word w /\ ls_style l = upper w /\
        match width with Some n => whole n /\ parse_i32 n = Some (ls_width l) | None => ls_width l = 1%Z end
    | Segments p q l, RLine v => exists ss, Forall2 reads_segment ((p, q) :: l) ss /\ v = merge_lines ss
    | Caption p w, RText v => reads_spot p (mt_loc v) /\ content w /\ mt_content v = w /\ mt_align v = None
    | Global, RGlobal | ScreenSpecific, RScreenSpecific | Hidden, RHidden | CoordLine, RCoordLine => True
    | CoordPoly n, RCoordPoly v => whole n /\ v = n
    | Coord p, RCoord l => reads_spot p l
    | _, _ => False
    end.
End upper.
(** Lines that follow each other are one setting; [merge_lines] joins those that meet (C07). *)
Definition is_segments (s : setting) : Prop := match s with Segments _ _ _ => True | _ => False end.
Definition unjoined (l : list setting) : Prop := forall a s s' b, l = a ++ s :: s' :: b -> ~ (is_segments s /\ is_segments s').

(** ** Entries *)
Inductive entry :=
| Map (name : text) (l : list setting) | ColourDef (name r g b : text) | StyleDef (name brush hatch : text) (dashes : list text)
| Override (folder : text) (name : option text) | FilePath (w : text) | SymbolDef (name : text) (l : list drawn).
(** A line, and whether it may be indented *)
Definition setting_lines (s : setting) : list (bool * text) := (true, setting_text s) :: map (pair false) (more_lines s).
(** a symbol: a line with its name, and its rules on lines of their own (C80 says how they are written) *)
Definition drawing_lines (key : string) (name : text) (l : list drawn) : list (bool * text) := (false, s2t key ++ name) :: map (fun d => (false, drawn_text d)) l.
Definition reads_drawing (name : text) (l : list drawn) (s : symbol_def) : Prop := word name /\ fst s = name /\ l <> [] /\ Forall2 reads_drawn l (snd s).
Definition entry_lines (e : entry) : list (bool * text) :=
  match e with
  | Map name l => (false, s2t "MAP:" ++ name) :: flat_map setting_lines l
  | ColourDef name r g b => [(false, s2t "COLORDEF:" ++ name ++ listed [r; g; b])]
  | StyleDef name brush hatch dashes =>
      [(false, s2t "LINESTYLEDEF:" ++ name ++ listed [brush; hatch] ++ match dashes with [] => [] | _ => s2t ":" ++ names_text dashes end)]
  | Override folder name => [(false, s2t "OVERRIDE_SCT_MAP:" ++ folder ++ match name with Some w => s2t "\" ++ w | None => [] end)]
  | FilePath w => [(false, s2t "SCTFILEPATH:" ++ w)]
  | SymbolDef name l => drawing_lines "SYMBOLDEF:" name l
  end.
(** what is read of it *)
Inductive defined_as := AMapDef (m : map_def) | AColour (name : text) (c : colour) | AStyle (l : line_style_def) | AnOverride (o : text * option text) | ASymbol (s : symbol_def) | Ignored.
Definition reads_entry (upper : text -> text) (e : entry) (d : defined_as) : Prop :=
  match e, d with
  | Map name l, AMapDef m => word name /\ l <> [] /\ unjoined l /\ md_name m = name /\ Forall2 (reads_map_setting upper) l (md_rules m)
  | ColourDef name r g b, AColour n c => word name /\ n = name /\ Forall whole [r; g; b] /\ parse_u8 r = Some (cr c) /\ parse_u8 g = Some (cg c) /\ parse_u8 b = Some (cb c) /\ ca c = 255%N
  | StyleDef name brush hatch dashes, AStyle l => Forall word [name; brush; hatch] /\ ld_name l = name /\ ld_brush l = brush /\ ld_hatch l = hatch /\
      Forall2 (fun s x => whole s /\ parse_f32 s = Some x) dashes (ld_dashes l)
  | Override folder name, AnOverride o => field 92 folder /\ unremarked folder /\ (forall w, name = Some w -> word w) /\ o = (folder, name)
  | FilePath w, Ignored => word w
  | SymbolDef name l, ASymbol s => reads_drawing name l s
  | _, _ => False
  end.
(** An override below a map would be one of its settings (C58_override_refuted). *)
Definition ordered (es : list entry) : Prop := forall a n l f m b, es <> a ++ Map n l :: Override f m :: b.

(** ** Files *)
Definition blank_lines : text -> Prop := idles is_blank [s2t ";"; s2t "//"].
Inductive rows : list (bool * text) -> text -> Prop :=
| rows_nil : rows [] []
| rows_cons i l ls b b' nl k t : blanks b -> (b = [] \/ i = true) -> blanks b' -> eol nl -> blank_lines k -> rows ls t ->
    rows ((i, l) :: ls) (b ++ l ++ b' ++ nl ++ k ++ t).
Definition maps_layout (es : list entry) (t : text) : Prop := exists k t', t = k ++ t' /\ blank_lines k /\ rows (flat_map entry_lines es) t'.
Definition maps_of (ds : list defined_as) : list map_def := flat_map (fun d => match d with AMapDef m => [m] | _ => [] end) ds.
Definition overrides_of (ds : list defined_as) : list (text * option text) := flat_map (fun d => match d with AnOverride o => [o] | _ => [] end) ds.
Definition colours_of (ds : list defined_as) : list (text * (text * colour)) := flat_map (fun d => match d with AColour n c => [(n, (n, c))] | _ => [] end) ds.
Definition styles_of (ds : list defined_as) : list (text * line_style_def) := flat_map (fun d => match d with AStyle l => [(ld_name l, l)] | _ => [] end) ds.
Definition symbols_of (ds : list defined_as) : list (text * symbol_def) := flat_map (fun d => match d with ASymbol s => [(fst s, s)] | _ => [] end) ds.

(** ** Files of symbols *)
Definition symbols_layout (l : list (text * list drawn)) (t : text) : Prop :=
  exists k t', t = k ++ t' /\ blank_lines k /\ rows (flat_map (fun '(name, ds) => drawing_lines "SYMBOL:" name ds) l) t'.
