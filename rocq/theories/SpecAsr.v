(** Specification of .asr files (C39, C47): what a display setting is worth, in terms of the pairs of the text. *)
From Verif Require Import Base Num Float FloatParse Peg SpecPeg Trees SpecPairs Asr.
Local Open Scope string_scope.
Local Open Scope list_scope.

(** a scalar setting is that of its first line, or the default *)
Definition first_setting {V} (kids : list tree) (n : string) (reads : tree -> V -> Prop) (default v : V) : Prop :=
  match of_rule n kids with [] => v = default | p :: _ => reads p v end.
(** the items of a kind are those of its lines, in order *)
Definition drawn {V} (kids : list tree) (n : string) (reads : tree -> V -> Prop) (items : list V) : Prop :=
  Forall2 reads (of_rule n kids) items.

Definition reads_flag (p : tree) (b : bool) : Prop := field "BOOL" p (s2t (if b then "1" else "0")).
Definition reads_value (p : tree) (s : text) : Prop := field "value" p s.
(** a filter altitude, where 0 is none *)
Definition reads_filter (p : tree) (o : option N) : Prop :=
  exists s n, field "INTEGER" p s /\ parse_u32 s = Some n /\ (n = 0%N /\ o = None \/ n <> 0%N /\ o = Some n).
Definition reads_count (p : tree) (n : N) : Prop := exists s, field "INTEGER" p s /\ parse_u8 s = Some n.
(** positive leaders are miles, the others minutes *)
Definition reads_leader (p : tree) (l : leader) : Prop :=
  exists s z, field "INTEGER" p s /\ parse_i8 s = Some z /\
    match l with Miles n => (0 < z)%Z /\ z = Z.of_N n | Minutes n => (z <= 0)%Z /\ z = (- Z.of_N n)%Z end.
Definition reads_rotation (p : tree) (x : f64) : Prop := exists s, field "DECIMAL" p s /\ parse_f64 s = Some x.
Definition reads_display (p : tree) (k : display_kind) : Prop :=
  exists s, field "value" p s /\ (k = DtGroundRadar <-> s = s2t "Ground Radar display").
Definition reads_simulation (p : tree) (k : simulation) : Prop := exists s, field "INTEGER" p s /\ (k = SimGround <-> s = s2t "4").
(** latitude and longitude of one corner, then of the other *)
Definition reads_window (p : tree) (w : point * point) : Prop :=
  exists a b c d, texts "coord_part" p = [a; b; c; d] /\
    parse_f64 a = Some (snd (fst w)) /\ parse_f64 b = Some (fst (fst w)) /\ parse_f64 c = Some (snd (snd w)) /\ parse_f64 d = Some (fst (snd w)).
Definition reads_name (p : tree) (s : text) : Prop := field "multivalue" p s.
Definition reads_free_text (p : tree) (v : text * text) : Prop := field "multivalue_backslash" p (fst v) /\ field "multivalue" p (snd v).
(** a name and what is drawn of it *)
Definition reads_kind {K} (kinds : list (string * K)) (p : tree) (v : text * K) : Prop :=
  field "multivalue" p (fst v) /\ exists n, In (n, snd v) kinds /\ map rule_of (kids_of p) = ["multivalue"; n].
Definition fix_symbols := [("symbol", FixSymbol); ("name", FixName)].
Definition navaid_symbols := [("symbol", NavSymbol); ("name", NavName); ("frequency", NavFrequency)].
Definition airway_symbols := [("line", AwyLine); ("name", AwyName)].
Definition ground_symbols := [("exit", GnExit); ("taxiway", GnTaxiway); ("terminal_taxiway", GnTerminalTaxiway)].
Definition reads_runway (p : tree) (v : text * text * text * runway_kind) : Prop :=
  let '(airport, a, b, k) := v in
  field "airport" p airport /\ texts "runway_desig" p = [a; b] /\
  map rule_of (kids_of p) = ["airport"; "runway_desig"; "runway_desig"; match k with RwyCentreline => "centerline" | RwyName => "name" end].
(** lines of extended centre lines, which are left out *)
Definition extended (p : tree) : bool := if in_dec string_dec "ext_centerline" (map rule_of (kids_of p)) then true else false.

Definition asr_scalars (kids : list tree) (a : asr) : Prop :=
  first_setting kids "above" reads_filter None (asr_above a) /\
  first_setting kids "below" reads_filter None (asr_below a) /\
  first_setting kids "disable_panning" reads_flag false (asr_disable_panning a) /\
  first_setting kids "disable_zooming" reads_flag false (asr_disable_zooming a) /\
  first_setting kids "display_rotation" reads_rotation (S754_zero false) (asr_display_rotation a) /\
  first_setting kids "display_type" reads_display DtRadar (asr_display_type a) /\
  first_setting kids "display_type_geo_referenced" reads_flag true (asr_geo_referenced a) /\
  first_setting kids "display_type_need_radar_content" reads_flag true (asr_need_radar_content a) /\
  first_setting kids "history_dots" reads_count 5%N (asr_history_dots a) /\
  first_setting kids "leader" reads_leader (Minutes 3) (asr_leader a) /\
  first_setting kids "sector_file" reads_value [] (asr_sector_file a) /\
  first_setting kids "sector_title" reads_value [] (asr_sector_title a) /\
  first_setting kids "show_leader" reads_flag false (asr_show_leader a) /\
  first_setting kids "show_c" reads_flag true (asr_show_c a) /\
  first_setting kids "show_standby" reads_flag false (asr_show_standby a) /\
  first_setting kids "simulation_mode" reads_simulation SimRadar (asr_simulation_mode a) /\
  first_setting kids "tag_family" reads_value (s2t "Matias (built in)") (asr_tag_family a) /\
  first_setting kids "turn_leader" reads_flag false (asr_turn_leader a) /\
  first_setting kids "window_area" reads_window ((f64_of_dec false 6678287 6, f64_of_dec false 46529122 6), (f64_of_dec false 16599900 6, f64_of_dec false 50105536 6)) (asr_window_area a).

Definition asr_items (kids : list tree) (m : asr_map) : Prop :=
  Forall2 reads_runway (filter (fun p => negb (extended p)) (of_rule "runways" kids)) (am_runways m) /\
  drawn kids "airports" (reads_kind fix_symbols) (am_airports m) /\
  drawn kids "vors" (reads_kind navaid_symbols) (am_vors m) /\
  drawn kids "ndbs" (reads_kind navaid_symbols) (am_ndbs m) /\
  drawn kids "fixes" (reads_kind fix_symbols) (am_fixes m) /\
  drawn kids "low_airways" (reads_kind airway_symbols) (am_low_airways m) /\
  drawn kids "high_airways" (reads_kind airway_symbols) (am_high_airways m) /\
  drawn kids "sids" reads_name (am_sids m) /\
  drawn kids "stars" reads_name (am_stars m) /\
  drawn kids "free_text" reads_free_text (am_free_text m) /\
  drawn kids "geo" reads_name (am_geo m) /\
  drawn kids "ground_network" (reads_kind ground_symbols) (am_ground_network m) /\
  drawn kids "regions" reads_name (am_regions m) /\
  drawn kids "artcc_boundary" reads_name (am_artcc_boundary m) /\
  drawn kids "artcc_low_boundary" reads_name (am_artcc_low_boundary m) /\
  drawn kids "artcc_high_boundary" reads_name (am_artcc_high_boundary m).

(** the value of the last line of each plugin and key *)
Definition asr_plugins (kids : list tree) (m : list ((text * text) * text)) : Prop :=
  NoDup (keys m) /\
  (forall a b v, get (a, b) m = Some v <->
    exists l1 p l2, of_rule "plugin" kids = l1 ++ p :: l2 /\ texts "multivalue" p = [a; b] /\ field "value" p v /\
      forall q, In q l2 -> texts "multivalue" q <> [a; b]).

(** the lines whose numbers are in range, and whose window corners are decimal numbers *)
Definition readable (p : tree) : Prop :=
  (rule_of p = "above" \/ rule_of p = "below" -> exists s n, field "INTEGER" p s /\ parse_u32 s = Some n) /\
  (rule_of p = "leader" -> exists s z, field "INTEGER" p s /\ parse_i8 s = Some z) /\
  (rule_of p = "history_dots" -> exists s n, field "INTEGER" p s /\ parse_u8 s = Some n) /\
  (rule_of p = "window_area" -> forall q, In q (kids_of p) -> of_rule "sct_coord_part" (kids_of q) = []).
