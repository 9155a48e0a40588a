(** Model of src/adaptation/settings, src/adaptation/line_styles.rs and src/adaptation/symbols.rs. *)
From Verif Require Import Base Num Float FloatParse Constraints.

Definition f32 := spec_float.
(** An f32 literal with [k] decimals *)
Definition f32_lit (n k : N) : f32 := dec_float 24 128 false n (- Z.of_N k).

(** * Coordination timing *)

(** settings/mod.rs:389-394 [ResolvedCoordinationTiming] *)
Record resolved := mkResolved { rt_act : f32; rt_abi : f32; rt_rev : f32 }.
(** settings/mod.rs:396-406 [CoordinationSettings] *)
Record coordination := mkCoordination {
  co_act : f32; co_abi : f32; co_rev : f32; co_lam : f32; co_firs : list (text * timing) }.

Definition and_then {A B} (o : option A) (f : A -> option B) : option B :=
  match o with Some a => f a | None => None end.
Definition or_else {A} (a b : option A) : option A := match a with Some x => Some x | None => b end.
Definition unwrap_or {A} (o : option A) (d : A) : A := match o with Some x => x | None => d end.

(** settings/mod.rs:414-436 [CoordinationSettings::resolve] *)
Definition resolve (s : coordination) (fir : option text) (ct : option timing) : resolved :=
  let fir_override := and_then fir (fun f => get f (co_firs s)) in
  let pick (select : timing -> option f32) (default : f32) :=
    unwrap_or (or_else (and_then ct select) (and_then fir_override select)) default in
  mkResolved (pick t_act (co_act s)) (pick t_abi (co_abi s)) (pick t_rev (co_rev s)).

(** * Squawks *)

(** squawks.rs:16-28 [Range], [SquawkDef] (without the colour) *)
Record squawk := mkSquawk { sq_code : option text; sq_range : option (text * text); sq_msg : text }.

(** The numbers [a, a+1, ...], [n] of them *)
Fixpoint count_from (a : N) (n : nat) : list N :=
  match n with O => [] | S n => a :: count_from (a + 1)%N n end.
(** [a..=b] *)
Definition range_incl (a b : N) : list N :=
  if (a <=? b)%N then count_from a (N.to_nat (b - a + 1)) else [].
(** [{:04o}] *)
Definition octal4 (n : N) : text := pad_left 48%N 4 (fmt_uint 8 n).
Definition parse_u16_octal := parse_uint 8 u16_max.

(** settings/mod.rs:347-375 [SsrSettings::from_squawks_json] *)
Definition squawk_codes (q : squawk) : list (text * text) :=
  match sq_code q, sq_range q with
  | None, None | Some _, Some _ => []
  | Some code, None =>
    match parse_u16_octal code with Some n => [(octal4 n, sq_msg q)] | None => [] end
  | None, Some (a, b) =>
    match parse_u16_octal a, parse_u16_octal b with
    | Some a, Some b => map (fun i => (octal4 i, sq_msg q)) (range_incl a b)
    | _, _ => []
    end
  end.
Definition special_use_codes (l : list squawk) : list (text * text) := of_list (flat_map squawk_codes l).

(** * Line styles *)

(** line_styles.rs:8-12 [Dash] *)
Record dash := mkDash { d_len : f32; d_gap : f32 }.

(** [chunks_exact(2)] *)
Fixpoint chunks2 (l : list f32) : list dash :=
  match l with a :: b :: l => mkDash a b :: chunks2 l | _ => [] end.

Definition lit (n : Z) : f32 := f32_of_Z n.
(** line_styles.rs:66-119: the styles chained behind the TopSky ones *)
Definition builtin_styles : list (text * option (list dash)) :=
  [(s2t "SOLID", None);
   (s2t "DOT", Some [mkDash (lit 1) (lit 1)]);
   (s2t "ALTERNATE", Some [mkDash (lit 1) (lit 1)]);
   (s2t "DASH", Some [mkDash (lit 3) (lit 3)]);
   (s2t "DASHDOT", Some [mkDash (lit 3) (lit 3); mkDash (lit 1) (lit 3)]);
   (s2t "DASHDOTDOT", Some [mkDash (lit 3) (lit 3); mkDash (lit 1) (lit 3); mkDash (lit 1) (lit 3)])].

(** line_styles.rs:38-121 [line_styles_from_topsky]; [upper] is [str::to_uppercase] and [styles] the
    TopSky styles (name, dash lengths) in the iteration order of the hash map. *)
Definition line_styles_from_topsky (upper : text -> text) (styles : option (list (text * list f32)))
  : list (text * option (list dash)) :=
  let custom := match styles with
                | Some l => map (fun x => (upper (fst x),
                              if Nat.ltb 1 (List.length (snd x)) then Some (chunks2 (snd x)) else None)) l
                | None => []
                end in
  of_list (custom ++ builtin_styles).

(** * Line and label settings from the symbology *)

(** adaptation/mod.rs:56-77 *)
Inductive halign := HLeft | HCenter | HRight.
Inductive valign := VTop | VCenter | VBottom.
Definition alignment := (halign * valign)%type.
Definition default_alignment : alignment := (HCenter, VCenter).

(** symbology.rs:34-43 [Item] without the colour *)
Record item := mkItem { it_size : f32; it_style : text; it_weight : Z; it_align : alignment }.
Definition items := list ((text * text) * item).
Definition item_of (its : items) (folder name : string) : option item := get (s2t folder, s2t name) its.

(** line_styles.rs:14-36 [LineStyle] *)
Record line_style := mkLineStyle { ls_width : Z; ls_style : text }.
Definition solid1 : line_style := mkLineStyle 1 (s2t "SOLID").

(** settings/mod.rs:18-38 [LineSettings] *)
Record line_settings := mkLineSettings {
  li_runway : line_style; li_geo : line_style; li_sid : line_style; li_star : line_style;
  li_high : line_style; li_low : line_style; li_artcc_low : line_style; li_artcc : line_style;
  li_artcc_high : line_style }.

Definition style_of (o : option item) : line_style :=
  match o with Some i => mkLineStyle (it_weight i) (it_style i) | None => solid1 end.
(** settings/mod.rs:59-161 [LineSettings::from_euroscope]; all nine defaults are (1, SOLID). *)
Definition line_settings_from (its : items) : line_settings :=
  mkLineSettings (style_of (item_of its "Runways" "centerline")) (style_of (item_of its "Geo" "line"))
    (style_of (item_of its "Sids" "line")) (style_of (item_of its "Stars" "line"))
    (style_of (item_of its "High airways" "line")) (style_of (item_of its "Low airways" "line"))
    (style_of (item_of its "ARTCC low boundary" "line")) (style_of (item_of its "ARTCC boundary" "line"))
    (style_of (item_of its "ARTCC high boundary" "line")).

(** settings/mod.rs:226-238 [LabelSettings] *)
Record label_settings := mkLabelSettings {
  la_vor : alignment * f32; la_ndb : alignment * f32; la_fix : alignment * f32;
  la_airport : alignment * f32; la_runway : alignment * f32 }.
Definition mul32 : f32 -> f32 -> f32 := SFmul 24 128.
Definition font_factor : f32 := f32_lit 35 1.
Definition label_of (o : option item) : alignment * f32 :=
  (match o with Some i => it_align i | None => default_alignment end,
   mul32 (match o with Some i => it_size i | None => f32_lit 30 1 end) font_factor).
(** settings/mod.rs:242-277 [LabelSettings::from_euroscope] *)
Definition label_settings_from (its : items) : label_settings :=
  mkLabelSettings (label_of (item_of its "VORs" "name")) (label_of (item_of its "NDBs" "name"))
    (label_of (item_of its "Fixes" "name")) (label_of (item_of its "Airports" "name"))
    (label_of (item_of its "Runways" "name")).

(** * Settings from TopSky *)

(** topsky/settings.rs:25-38 [Settings::parse_with_default] *)
Definition parse_with_default {T} (parse : text -> option T) (m : list (text * text)) (key : string) (d : T) : T :=
  unwrap_or (and_then (get (s2t key) m) parse) d.

(** settings/mod.rs:297-326 [MapsSettings], without the constant [font], [auto_folder], [layer], [label_offset] *)
Definition maps_font_size (topsky : option (list (text * text))) : f32 :=
  match topsky with
  | Some m => parse_with_default parse_f32 m "Maps_FontSize" (lit 12)
  | None => lit 12
  end.

(** settings/track.rs:9-40 [HistoryDotsSettings]: (enabled, count) *)
Definition history_dots (topsky : option (list (text * text))) : bool * N :=
  match topsky with
  | Some m => let n := parse_with_default parse_u32 m "Track_HistoryDots" 6%N in
              (negb (n =? 0)%N, if negb (n =? 0)%N then n else 6%N)
  | None => (false, 6%N)
  end.

(** f32 equality with zero *)
Definition is_zero (x : f32) : bool := match x with S754_zero _ => true | _ => false end.
(** settings/track.rs:42-75 [VectorSettings]: (enabled, length) *)
Definition vector_settings (topsky : option (list (text * text))) : bool * f32 :=
  match topsky with
  | Some m => let x := parse_with_default parse_f32 m "Track_PredictionLine" (lit 1) in
              (negb (is_zero x), if is_zero x then lit 1 else x)
  | None => (false, lit 1)
  end.

(** settings/mod.rs:474-476: [coopans] *)
Definition coopans_setting (topsky : option (list (text * text))) : bool :=
  unwrap_or (and_then topsky (fun m => option_map (fun v => negb (eqb v (s2t "0"))) (get (s2t "Setup_COOPANS") m))) true.

(** settings/mod.rs:481: [asr_files]; [recent i] is [Prf::recent_path(i)]. *)
Definition asr_files {P} (recent : N -> option P) : list P :=
  flat_map (fun i => match recent i with Some p => [p] | None => [] end) [1; 2; 3; 4; 5; 6; 7; 8; 9]%N.

(** * Symbols *)

(** symbols.rs:11-21 [SymbolRule] *)
Inductive symbol_rule :=
| SMove (p : f64 * f64) | SLine (p : f64 * f64) | SPixel (p : f64 * f64)
| SArc (p : f64 * f64) (r : f64) (a b : Z)
| SEllipticArc (p : f64 * f64) (rx ry : f64) (a b : Z)
| SFilledArc (p : f64 * f64) (r : f64) (a b : Z)
| SFilledEllipticArc (p : f64 * f64) (rx ry : f64) (a b : Z)
| SPolygon (l : list (f64 * f64)).
Definition symbol := list symbol_rule.

(** symbology.rs:79-105 [SymbolType] *)
Inductive symbol_type :=
| StAirport | StNDB | StVOR | StFix | StStandby | StPrimaryOnly | StCorrACSecondaryOnly
| StCorrSSecondaryOnly | StCorrAC | StCorrS | StCorrACIdent | StCorrSIdent | StFlightPlanTrack
| StCoasting | StHistoryDot | StGroundAircraft | StUncorrACSecondaryOnly | StUncorrSSecondaryOnly
| StUncorrAC | StUncorrS | StUncorrACIdent | StUncorrSIdent | StGroundVehicle | StGroundRotorcraft.
#[global] Instance symbol_type_eq : EqDec symbol_type.
Proof. intros x y. decide equality. Defined.

Definition ip (x y : Z) : f64 * f64 := (f64_of_Z x, f64_of_Z y).
Definition mv (x y : Z) := SMove (ip x y).
Definition ln (x y : Z) := SLine (ip x y).
Definition ring0 (r : Z) := SArc (S754_zero false, S754_zero true) (f64_of_Z r) 0 360.

(** symbols.rs:40-152: the default symbols *)
Definition default_history_dot : symbol := [SPolygon [ip (-1) (-1); ip 1 (-1); ip 1 1; ip (-1) 1]].
Definition default_fix : symbol := [mv (-5) 5; ln 0 (-5); ln 5 5; ln (-5) 5].
Definition default_ndb : symbol := [SPixel (ip 0 0); ring0 1; ring0 3; ring0 5].
Definition default_vor : symbol :=
  [mv (-6) 0; ln (-2) (-5); ln 2 (-5); ln 6 0; ln 2 5; ln (-2) 5; ln (-6) 0;
   mv (-6) (-5); ln (-6) 5; ln 6 5; ln 6 (-5); ln (-6) (-5)].
Definition default_airport : symbol :=
  [mv (-3) (-3); ln 3 (-3); ln 3 3; ln (-3) 3; ln (-3) (-3); mv 5 0; ln (-6) 0; mv 0 5; ln 0 (-6)].
Definition default_primary : symbol := [mv (-3) (-3); ln 4 4; mv (-3) 3; ln 4 (-4)].
Definition default_controlled : symbol := [mv (-5) 0; ln 0 (-5); ln 5 0; ln 0 5; ln (-5) 0].
Definition default_uncontrolled : symbol := [mv (-4) 3; ln 0 (-4); ln 3 3; ln (-4) 3].
Definition default_coasted : symbol := [mv (-4) (-4); ln (-4) 4; ln 4 4; ln 4 (-4)].

(** symbols.rs:24-36 [Symbols] *)
Record symbols := mkSymbols {
  sy_history : symbol; sy_fix : symbol; sy_ndb : symbol; sy_vor : symbol; sy_airport : symbol;
  sy_primary : symbol; sy_coasted : symbol; sy_uncontrolled : symbol; sy_controlled : symbol;
  sy_other : list (text * symbol) }.

Definition pick_symbol (topsky : option (list (text * symbol))) (symb : list (symbol_type * symbol))
    (name : string) (t : symbol_type) (d : symbol) : symbol :=
  unwrap_or (or_else (and_then topsky (get (s2t name))) (get t symb)) d.

(** symbols.rs:155-157 [Symbols::get] *)
Definition symbols_get (s : symbols) (name : text) : option symbol := get name (sy_other s).

(** symbols.rs:159-246 [Symbols::from_euroscope]; the VOR default is [default_ndb] (line 193). *)
Definition symbols_from (topsky : option (list (text * symbol))) (symb : list (symbol_type * symbol)) : symbols :=
  mkSymbols (pick_symbol topsky symb "HISTORY" StHistoryDot default_history_dot)
    (pick_symbol topsky symb "FIX" StFix default_fix)
    (pick_symbol topsky symb "NDB" StNDB default_ndb)
    (pick_symbol topsky symb "VOR" StVOR default_ndb)
    (pick_symbol topsky symb "AIRPORT" StAirport default_airport)
    (pick_symbol topsky symb "PRIMARY" StPrimaryOnly default_primary)
    (pick_symbol topsky symb "COASTED" StCoasting default_coasted)
    (pick_symbol topsky symb "UNCONTROLLED" StUncorrAC default_uncontrolled)
    (pick_symbol topsky symb "DAPS" StCorrS default_controlled)
    (match topsky with Some l => l | None => [] end).
(** symbols.rs:249-264 [Symbols::default] *)
Definition symbols_default : symbols :=
  mkSymbols default_history_dot default_fix default_ndb default_vor default_airport default_primary
    default_coasted default_uncontrolled default_controlled [].
