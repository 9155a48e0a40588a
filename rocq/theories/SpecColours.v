(** Specification vocabulary for the colour properties (C03, C04, C05, C36).  Nothing
    here refers to the functions of the model. *)
From Verif Require Import Base Colours.

(** The number of an RGB triple in EuroScope files: 0xBBGGRR. *)
Definition rgb_number (r g b : N) : Z := (Z.of_N r + 256 * Z.of_N g + 65536 * Z.of_N b)%Z.

(** [c] is a hexadecimal digit (either case) with value [v]. *)
Definition hex_digit (c v : N) : Prop :=
  ((v <= 9 /\ c = 48 + v) \/ (10 <= v <= 15 /\ c = 97 + (v - 10)) \/ (10 <= v <= 15 /\ c = 65 + (v - 10)))%N.

(** The first present value of a list of layers. *)
Fixpoint first_some {A} (l : list (option A)) : option A :=
  match l with
  | [] => None
  | Some a :: _ => Some a
  | None :: l => first_some l
  end.

(** The map entries [m], visited in the order [o]. *)
Definition iteration_of {K V} (m o : list (K * V)) : Prop := Permutation m o.

(** The symbology item and default each field of the map colours stands for. *)
Definition own_map_key : list (string * (string * string)) :=
  [("fix_symbol", ("Fixes", "symbol")); ("fix_name", ("Fixes", "name"));
   ("airport_symbol", ("Airports", "symbol")); ("airport_name", ("Airports", "name"));
   ("ndb_symbol", ("NDBs", "symbol")); ("ndb_name", ("NDBs", "name"));
   ("ndb_frequency", ("NDBs", "frequency"));
   ("vor_symbol", ("VORs", "symbol")); ("vor_name", ("VORs", "name"));
   ("vor_frequency", ("VORs", "frequency"));
   ("low_airway_line", ("Low airways", "line")); ("low_airway_name", ("Low airways", "name"));
   ("high_airway_line", ("High airways", "line")); ("high_airway_name", ("High airways", "name"));
   ("sid", ("Sids", "line")); ("star", ("Stars", "line"));
   ("artcc_boundary", ("ARTCC boundary", "line"));
   ("artcc_low_boundary", ("ARTCC low boundary", "line"));
   ("artcc_high_boundary", ("ARTCC high boundary", "line"));
   ("geo", ("Geo", "line")); ("runway_centreline", ("Runways", "centerline"));
   ("runway_extended_centreline", ("Runways", "extended centerline"));
   ("runway_name", ("Runways", "name")); ("free_text", ("Other", "freetext"))]%string.
Definition black : colour := mkColour 0 0 0 255.

(** TopSky colour names and built-in constants of the track and user-interface colours. *)
Definition track_names : list (string * (string * (N * N * N))) :=
  [("assumed", ("Assumed", (0, 0, 0))); ("advanced", ("Concerned", (0, 0, 255)));
   ("concerned", ("Redundant", (0, 0, 255))); ("unconcerned", ("Unconcerned", (255, 255, 255)));
   ("vfr", ("VFR", (180, 150, 95))); ("flight_leg", ("Flight_Leg", (0, 0, 0)));
   ("predicted_alert", ("Warning", (255, 255, 0))); ("current_alert", ("Urgency", (255, 0, 0)));
   ("reaction", ("Proposition_In", (230, 185, 184))); ("cleared", ("Rwy_Locked", (34, 139, 34)))]%string%N.
Definition ui_names : list (string * (string * (N * N * N))) :=
  [("armed", ("Arm", (160, 160, 160))); ("background", ("Background", (192, 192, 192)));
   ("foreground", ("Foreground", (0, 0, 0)));
   ("window_title_background_selected", ("Background", (192, 192, 192)));
   ("warning", ("Warning", (255, 255, 0))); ("alert", ("Urgency", (255, 0, 0)));
   ("text_input", ("Field_Highlight", (170, 224, 224)))]%string%N.

(** The built-in TopSky default of a name in the variant selected by [coopans]: defined
    by membership in the transcribed table. *)
Definition builtin_default (coopans : bool) (name : text) (d : option colour) : Prop :=
  (exists n p q, In (n, (p, q)) default_colours /\ s2t n = name /\
     d = match (if coopans then q else p) with
         | Some (r, g, b) => Some (mkColour r g b 255) | None => None end)
  \/ ((forall n pq, In (n, pq) default_colours -> s2t n <> name) /\ d = None).
