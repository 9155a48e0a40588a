(** Model of the [Default] implementations behind [Adaptation::default()]. *)
From Verif Require Import Base Float Colours Settings Adaptation.
From Verif Require Locations Airways Maps SctItems.
Local Open Scope string_scope.
Local Open Scope list_scope.

(** colours.rs:140-163 and 291-320 [MapColours::default]; the fields in the order of [map_colours] *)
Definition map_colours_default : list (string * colour) :=
  ([("fix_symbol", from_rgb 0 0 0); ("fix_name", from_rgb 0 0 0); ("airport_symbol", from_rgb 0 0 0); ("airport_name", from_rgb 0 0 0);
    ("ndb_symbol", from_rgb 0 0 0); ("ndb_name", from_rgb 0 0 0); ("ndb_frequency", from_rgb 0 0 0); ("vor_symbol", from_rgb 0 0 0);
    ("vor_name", from_rgb 0 0 0); ("vor_frequency", from_rgb 0 0 0); ("low_airway_line", from_rgb 0 0 0); ("low_airway_name", from_rgb 0 0 0);
    ("high_airway_line", from_rgb 0 0 0); ("high_airway_name", from_rgb 0 0 0); ("sid", from_rgb 0 0 0); ("star", from_rgb 0 0 0);
    ("artcc_boundary", from_rgb 0 0 0); ("artcc_low_boundary", from_rgb 0 0 0); ("artcc_high_boundary", from_rgb 0 0 0); ("geo", from_rgb 0 0 0);
    ("runway_centreline", from_rgb 0 0 0); ("runway_extended_centreline", from_rgb 0 0 0); ("runway_name", from_rgb 0 0 0);
    ("free_text", from_rgb 0 0 0)])%N.
(** colours.rs:328-329 and 349-356 [SectorColours::default] *)
Definition sector_colours_default : list (string * colour) :=
  ([("active_background", from_rgb 200 200 200); ("inactive_background", from_rgb 200 200 200)])%N.
(** colours.rs:374-383 and 441-456 [TrackColours::default] *)
Definition track_colours_default : list (string * colour) :=
  ([("assumed", from_rgb 0 0 0); ("advanced", from_rgb 0 0 255); ("concerned", from_rgb 0 0 255); ("unconcerned", from_rgb 255 255 255);
    ("vfr", from_rgb 180 150 95); ("flight_leg", from_rgb 0 0 0); ("predicted_alert", from_rgb 255 255 0); ("current_alert", from_rgb 255 0 0);
    ("reaction", from_rgb 230 185 184); ("cleared", from_rgb 34 139 34)])%N.
(** colours.rs:470-476 and 519-531 [UIColours::default]; the fields in the order of [ui_colours] *)
Definition ui_colours_default : list (string * colour) :=
  ([("armed", from_rgb 160 160 160); ("background", from_rgb 192 192 192); ("foreground", from_rgb 0 0 0);
    ("window_title_background_selected", from_rgb 192 192 192); ("warning", from_rgb 255 255 0); ("alert", from_rgb 255 0 0);
    ("text_input", from_rgb 170 224 224)])%N.
(** colours.rs:533-540: derived *)
Definition colours_default : colours :=
  mkColours track_colours_default sector_colours_default map_colours_default ui_colours_default [].

(** line_styles.rs:29-36 [LineStyle::default] *)
Definition line_style_default : line_style := mkLineStyle 1 (s2t "SOLID").
(** settings/mod.rs:39-57 and 182-223 [LineSettings::default] *)
Definition line_settings_default : line_settings :=
  let one := mkLineStyle 1 (s2t "SOLID") in mkLineSettings one one one one one one one one one.
(** settings/mod.rs:240 and 280-295 [LabelSettings::default] *)
Definition label_settings_default : label_settings :=
  let l := (default_alignment, f32_lit 30 1) in mkLabelSettings l l l l l.
(** settings/mod.rs:310-313 and 328-340 [MapsSettings::default], without the line styles and labels *)
Definition maps_settings_default : Maps.maps_settings :=
  Maps.mkMapsSettings (lit 12) (s2t "AUTO") (lit 1) (f64_of_Z 3, f64_of_Z 3).
(** settings/mod.rs:451-461: derived, with settings/track.rs:32-40, 65-75 and 77-81; [SsrSettings::default] (342) has no codes *)
Definition settings_default : settings :=
  mkSettings maps_settings_default line_settings_default label_settings_default (false, lit 1) (false, 6%N) false [] [] default_coordination None
    vector_options dots_options.

(** adaptation/mod.rs:172-211: derived, with locations/mod.rs:156-165, airways.rs:65-77, sct_items.rs:154-168 and sector_index.rs:47-48;
    the symbols are symbols.rs:249-264. *)
Definition adaptation_default : adaptation :=
  mkAdaptation [] (mkAllLocations (Locations.mkLocations [] [] [] [] [] []) Airways.empty_graph) [] [] [] [] [] [] symbols_default colours_default []
    settings_default [] [] (SctItems.mkSctItems [] [] [] [] [] [] [] [] [] []) None.
