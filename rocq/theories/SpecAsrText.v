(** Specification of the text of .asr files (C81): how the lines of display settings are written. *)
From Verif Require Import Base Num Peg Trees SpecText SpecFields.
Local Open Scope string_scope.
Local Open Scope list_scope.

(** A line is made of fixed texts and of fields, which have a name. *)
Inductive piece := Lit (s : string) | Tok (n : string) (w : text).
Definition piece_text (p : piece) : text := match p with Lit s => s2t s | Tok _ w => w end.
(** the rule of the setting, and its line *)
Definition asr_line := (string * list piece)%type.
Definition line_text (l : asr_line) : text := List.concat (map piece_text (snd l)).
(** its pair: the fields are the pairs inside. A corner of the window is a decimal number, which is a pair of its own. *)
Definition tok_pair (n : string) (w : text) : tree := T n w (if string_dec n "coord_part" then [T "DECIMAL" w []] else []).
Definition toks (ps : list piece) : list tree := flat_map (fun p => match p with Lit _ => [] | Tok n w => [tok_pair n w] end) ps.
Definition pair_of (l : asr_line) : tree := T (fst l) (line_text l) (toks (snd l)).

(** what may be written in a field; what starts with ; would be a remark *)
Definition no_remark (w : text) : Prop := forall v, w <> 59%N :: v.
Definition minus_opt (s u : text) : Prop := s = u \/ s = s2t "-" ++ u.
Definition whole_number (s : text) : Prop := exists u, minus_opt s u /\ digits u.
Definition decimal_number (s : text) : Prop := exists u, minus_opt s u /\ (digits u \/ exists a b, u = a ++ s2t "." ++ b /\ digits a /\ digits b).
Definition rest_of_line (s : text) : Prop := in_line s /\ no_remark s.
Definition name (s : text) : Prop := Forall (fun c => c <> 58%N) s /\ rest_of_line s.
Definition before_backslash (s : text) : Prop := Forall (fun c => c <> 92%N) s /\ rest_of_line s.
(** two digits and a letter, or none *)
Definition designator (s : text) : Prop :=
  exists a b l, s = [a; b] ++ l /\ is_digit a = true /\ is_digit b = true /\ In l [[]; s2t "L"; s2t "R"; s2t "C"; s2t "W"; s2t "G"].
(** no digit after a space, which would be a runway *)
Definition airport_name (s : text) : Prop := rest_of_line s /\ forall u c v, s = u ++ 32%N :: c :: v -> is_digit c = false.

(** ** The settings *)
Definition whole_settings := [("above", "ABOVE:"); ("below", "BELOW:"); ("history_dots", "HISTORY_DOTS:"); ("leader", "LEADER:"); ("simulation_mode", "SIMULATION_MODE:")].
Definition flag_settings := [("disable_panning", "DISABLEPANNING:"); ("disable_zooming", "DISABLEZOOMING:"); ("display_type_geo_referenced", "DisplayTypeGeoReferenced:");
  ("display_type_need_radar_content", "DisplayTypeNeedRadarContent:"); ("show_leader", "SHOWLEADER:"); ("show_c", "SHOWC:"); ("show_standby", "SHOWSB:"); ("turn_leader", "TURNLEADER:")].
Definition value_settings := [("display_type", "DisplayTypeName:"); ("sector_file", "SECTORFILE:"); ("sector_title", "SECTORTITLE:"); ("tag_family", "TAGFAMILY:")].
(** items with a name only *)
Definition name_settings := [("sids", "Sids:"); ("stars", "Stars:"); ("geo", "Geo:"); ("artcc_boundary", "ARTCC boundary:"); ("artcc_low_boundary", "ARTCC low boundary:");
  ("artcc_high_boundary", "ARTCC high boundary:")].
(** items with a name and what is drawn of it *)
Definition fix_kinds := [("symbol", "symbol"); ("name", "name")].
Definition navaid_kinds := [("symbol", "symbol"); ("name", "name"); ("frequency", "frequency")].
Definition airway_kinds := [("line", "line"); ("name", "name")].
Definition ground_kinds := [("exit", "exit"); ("taxiway", "taxiway"); ("terminal_taxiway", "terminal taxiway")].
Definition kind_settings := [("airports", "Airports:", fix_kinds); ("ndbs", "NDBs:", navaid_kinds); ("vors", "VORs:", navaid_kinds); ("fixes", "Fixes:", fix_kinds);
  ("low_airways", "Low airways:", airway_kinds); ("high_airways", "High airways:", airway_kinds); ("ground_network", "Ground Network:", ground_kinds)].
Definition centre_lines := flat_map (fun n => n :: map (String.append n) [" left ticks"; " left vectoring"; " left base"; " right ticks"; " right vectoring"; " right base"])
  ["extended centerline 1"; "extended centerline 2"].
Definition runway_kinds := ("centerline", "centerline") :: ("name", "name") :: map (fun s => ("ext_centerline", s)) centre_lines.

Inductive written : asr_line -> Prop :=
| w_whole n kw s : In (n, kw) whole_settings -> whole_number s -> written (n, [Lit kw; Tok "INTEGER" s])
| w_flag n kw (b : bool) : In (n, kw) flag_settings -> written (n, [Lit kw; Tok "BOOL" (s2t (if b then "1" else "0"))])
| w_value n kw s : In (n, kw) value_settings -> rest_of_line s -> written (n, [Lit kw; Tok "value" s])
| w_rotation s : decimal_number s -> written ("display_rotation", [Lit "DisplayRotation:"; Tok "DECIMAL" s])
| w_window a b c d : decimal_number a -> decimal_number b -> decimal_number c -> decimal_number d ->
    written ("window_area", [Lit "WINDOWAREA:"; Tok "coord_part" a; Lit ":"; Tok "coord_part" b; Lit ":"; Tok "coord_part" c; Lit ":"; Tok "coord_part" d])
| w_plugin p k v : name p -> name k -> rest_of_line v ->
    written ("plugin", [Lit "PLUGIN:"; Tok "multivalue" p; Lit ":"; Tok "multivalue" k; Lit ":"; Tok "value" v])
| w_name n kw s : In (n, kw) name_settings -> name s -> written (n, [Lit kw; Tok "multivalue" s; Lit ":"])
| w_region s : name s -> written ("regions", [Lit "Regions:"; Tok "multivalue" s; Lit ":polygon"])
| w_free_text a b : before_backslash a -> name b -> written ("free_text", [Lit "Free Text:"; Tok "multivalue_backslash" a; Lit "\"; Tok "multivalue" b; Lit ":freetext"])
| w_kind n kw kinds s k w : In (n, kw, kinds) kind_settings -> name s -> In (k, w) kinds -> written (n, [Lit kw; Tok "multivalue" s; Lit ":"; Tok k (s2t w)])
| w_runway s a b k w : airport_name s -> designator a -> designator b -> In (k, w) runway_kinds ->
    written ("runways", [Lit "Runways:"; Tok "airport" s; Lit " "; Tok "runway_desig" a; Lit "-"; Tok "runway_desig" b; Lit ":"; Tok k (s2t w)]).

(** the numbers of a line are in range *)
Definition in_range (l : asr_line) : Prop :=
  forall s, In (Tok "INTEGER" s) (snd l) ->
    (fst l = "above" \/ fst l = "below" -> parse_u32 s <> None) /\ (fst l = "history_dots" -> parse_u8 s <> None) /\ (fst l = "leader" -> parse_i8 s <> None).

(** Lines are not indented; there are no blanks but those of the fields. Remarks start with ; *)
Definition asr_layout (ls : list asr_line) (t : text) : Prop := layout (fun _ => false) [s2t ";"] (map line_text ls) t.
