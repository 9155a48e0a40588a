(** Data types of src/sct.rs. *)
From Verif Require Import Base Float Colours Locations.

(** sct.rs:39-44 [Airport] *)
Record sct_ap := mkSctAp { sap_des : text; sap_pos : point; sap_ctr : text }.
(** sct.rs:46-51 [Airway] *)
Record sct_airway := mkSctAirway { aw_des : text; aw_start : location; aw_end : location }.
(** sct.rs:53-58 [Region] *)
Record region := mkRegion { rg_name : text; rg_colour : text; rg_polygon : list point }.
(** sct.rs:60-65 [Label] *)
Record sct_label := mkSctLabel { sb_name : text; sb_coord : location; sb_colour : text }.
(** sct.rs:67-71 [ColouredLines]; a [MapLine] is its list of locations. *)
Record line_group := mkLineGroup { lg_lines : list (list location); lg_colour : option text }.
(** sct.rs:73-95 [Geo], [Sid], [Star], [Artcc] *)
Record drawing := mkDrawing { dr_name : text; dr_groups : list line_group }.
(** sct.rs:119-129 [SctInfo] *)
Record sct_info := mkSctInfo {
  in_name : text; in_callsign : text; in_airport : text; in_centre : point;
  in_mi_lat : f64; in_mi_lng : f64; in_magvar : f64; in_scale : f64 }.
(** sct.rs:97-117 [Sct] *)
Record sct := mkSct {
  sc_info : sct_info; sc_colours : list (text * colour); sc_airports : list sct_ap; sc_fixes : list fix_;
  sc_ndbs : list nav; sc_vors : list nav; sc_runways : list runway; sc_sids : list drawing; sc_stars : list drawing;
  sc_artccs_high : list drawing; sc_artccs : list drawing; sc_artccs_low : list drawing;
  sc_high_airways : list sct_airway; sc_low_airways : list sct_airway; sc_regions : list region;
  sc_labels : list sct_label; sc_geo : list drawing }.
