(** Model of the writing half of src/sct.rs.  [None] stands for infinite and NaN coordinates, whose text is not
    modelled; [show] is [{}] of an f64. *)
From Verif Require Import Base Num Float Colours Locations SctData Dms Isec SctItems.
Local Open Scope string_scope.
Local Open Scope list_scope.

(** [{:<w}] *)
Definition pad_right (w : nat) (s : text) : text := s ++ repeat 32%N (w - List.length s).
(** [Itertools::join] *)
Definition join (sep : text) (l : list text) : text :=
  match l with
  | [] => []
  | x :: l => x ++ List.concat (map (fun y => sep ++ y) l)
  end.
(** [Itertools::sorted_by_key] with a text as key, and [sorted] of texts *)
Definition sorted_by {A} (key : A -> text) (l : list A) : list A := map snd (sort_by_key (map (fun x => (key x, x)) l)).
Definition sorted (l : list text) : list text := sorted_by (fun x => x) l.
Definition LF : text := [10]%N.

(** sct.rs:256-263 [Location] *)
Definition location_fmt (l : location) : option text :=
  match l with
  | LFix f => Some (f ++ s2t " " ++ f)
  | LCoord c => deg_min_sec_fmt c
  end.
(** [tuple_windows] of the points of a line *)
Fixpoint windows (l : list location) : list (location * location) :=
  match l with
  | p :: (q :: _) as r => (p, q) :: windows r
  | _ => []
  end.
(** sct.rs:266-277 *)
Definition line_fmt (colour : option text) (x : location * location) : option text :=
  match location_fmt (fst x), location_fmt (snd x) with
  | Some a, Some b => Some (a ++ s2t " " ++ b ++ match colour with Some c => s2t " " ++ c | None => [] end)
  | _, _ => None
  end.
(** sct.rs:264-284 [ColouredLines]: [{:<40} ] before all lines but the first *)
Definition coloured_lines_fmt (g : line_group) : option text :=
  match all_some (line_fmt (lg_colour g)) (flat_map windows (lg_lines g)) with
  | Some (x :: l) => Some (join LF (x :: map (fun y => pad_right 40 [] ++ s2t " " ++ y) l))
  | Some [] => Some []
  | None => None
  end.
(** sct.rs:296-315 [Geo], 401-420 [Sid], 432-451 [Star], 463-482 [Artcc] *)
Definition drawing_fmt (d : drawing) : option text :=
  match all_some coloured_lines_fmt (dr_groups d) with
  | Some gs => Some (pad_right 40 (dr_name d) ++ s2t " " ++ match gs with [] => [] | g :: _ => g end
                     ++ List.concat (map (fun g => LF ++ pad_right 40 [] ++ s2t " " ++ g) (tl gs)))
  | None => None
  end.
(** sct.rs:285-295, 390-400, 421-431, 452-462: the lists of them, without the heading of the section *)
Definition drawings_fmt (l : list drawing) : option text :=
  option_map (fun ls => join (LF ++ LF) ls ++ LF) (all_some drawing_fmt (sorted_by dr_name l)).

(** sct.rs:158-167 [VOR] and 179-188 [NDB] *)
Definition nav_fmt (x : nav) : option text :=
  option_map (fun c => pad_right 4 (n_des x) ++ s2t " " ++ n_freq x ++ s2t " " ++ c) (deg_min_sec_fmt (n_pos x)).
(** sct.rs:200-208 [Fix] *)
Definition fix_fmt (x : fix_) : option text :=
  option_map (fun c => pad_right 5 (f_des x) ++ s2t " " ++ c) (deg_min_sec_fmt (f_pos x)).
(** sct.rs:220-229 [Airport] *)
Definition airport_fmt (x : sct_ap) : option text :=
  option_map (fun c => sap_des x ++ s2t " 000.000 " ++ c ++ s2t " " ++ sap_ctr x) (deg_min_sec_fmt (sap_pos x)).
(** sct.rs:241-254 [Runway] *)
Definition runway_fmt (x : runway) : option text :=
  match deg_min_sec_fmt (fst (r_loc x)), deg_min_sec_fmt (snd (r_loc x)) with
  | Some a, Some b => Some (pad_right 3 (fst (r_des x)) ++ s2t " " ++ pad_right 3 (snd (r_des x)) ++ s2t " "
      ++ pad_left 48 3 (fmt_uint 10 (fst (r_hdg x))) ++ s2t " " ++ pad_left 48 3 (fmt_uint 10 (snd (r_hdg x))) ++ s2t " "
      ++ a ++ s2t " " ++ b ++ s2t " " ++ r_ad x)
  | _, _ => None
  end.
(** sct.rs:327-347 [Region] *)
Definition region_fmt (x : region) : option text :=
  match all_some deg_min_sec_fmt (rg_polygon x) with
  | Some ps => Some (s2t "REGIONNAME " ++ rg_name x ++ LF ++ pad_right 26 (rg_colour x) ++ s2t " "
      ++ match ps with [] => [] | p :: _ => p end
      ++ List.concat (map (fun p => LF ++ pad_right 26 [] ++ s2t " " ++ p) (tl ps)))
  | None => None
  end.
(** sct.rs:359-368 [Label] *)
Definition label_fmt (x : sct_label) : option text :=
  option_map (fun c => [34]%N ++ sb_name x ++ [34]%N ++ s2t " " ++ c ++ s2t " " ++ sb_colour x) (location_fmt (sb_coord x)).
(** sct.rs:380-389 [Airway] *)
Definition airway_fmt (x : sct_airway) : option text :=
  match location_fmt (aw_start x), location_fmt (aw_end x) with
  | Some a, Some b => Some (pad_right 10 (aw_des x) ++ s2t " " ++ a ++ s2t " " ++ b)
  | _, _ => None
  end.

(** sct.rs:147-157 [Vec<VOR>] and the like: the lines are sorted *)
Definition section_fmt {A} (head : string) (f : A -> option text) (l : list A) : option text :=
  option_map (fun ls => s2t head ++ LF ++ join LF (sorted ls) ++ LF) (all_some f l).
(** sct.rs:230-240 [Vec<Runway>], 316-326 [Vec<Region>], 348-358 [Vec<Label>], 369-379 [Vec<Airway>]: the items are sorted *)
Definition listing_fmt {A} (f : A -> option text) (key : A -> text) (l : list A) : option text :=
  option_map (fun ls => join LF ls ++ LF) (all_some f (sorted_by key l)).
(** a heading before it *)
Definition headed (head : string) (x : option text) : option text := option_map (fun t => s2t head ++ LF ++ t) x.

(** sct.rs:130-143 [Display for SctInfo] *)
Definition info_fmt (show : f64 -> text) (i : sct_info) : option text :=
  match lat_fmt (in_centre i), lng_fmt (in_centre i) with
  | Some lat, Some lng => Some (s2t "[INFO]" ++ LF ++ in_name i ++ LF ++ in_callsign i ++ LF ++ in_airport i ++ LF ++ lat ++ LF ++ lng ++ LF
      ++ show (in_mi_lat i) ++ LF ++ show (in_mi_lng i) ++ LF ++ show (in_magvar i) ++ LF ++ show (in_scale i) ++ LF)
  | _, _ => None
  end.
(** sct.rs:1170-1178: the colour definitions, in the iteration order of the map *)
Definition colour_fmt (x : text * colour) : text :=
  s2t "#define " ++ fst x ++ [9]%N ++ fmt_uint 10 (Z.to_N (to_euroscope (snd x))).
Definition colours_fmt (l : list (text * colour)) : text := join LF (sorted (map colour_fmt l)) ++ LF ++ LF.

(** [writeln!] of a text *)
Definition writeln (x : option text) : option text := option_map (fun t => t ++ LF) x.
(** sct.rs:1167-1195 [Display for Sct] *)
Definition sct_fmt (show : f64 -> text) (s : sct) : option text :=
  option_map (fun l => List.concat l) (all_some (fun x => x) [
    writeln (info_fmt show (sc_info s));
    Some (colours_fmt (sc_colours s));
    writeln (section_fmt "[VOR]" nav_fmt (sc_vors s));
    writeln (section_fmt "[NDB]" nav_fmt (sc_ndbs s));
    writeln (section_fmt "[FIXES]" fix_fmt (sc_fixes s));
    writeln (section_fmt "[AIRPORT]" airport_fmt (sc_airports s));
    writeln (headed "[RUNWAY]" (listing_fmt runway_fmt r_ad (sc_runways s)));
    writeln (headed "[SID]" (drawings_fmt (sc_sids s)));
    writeln (headed "[STAR]" (drawings_fmt (sc_stars s)));
    writeln (headed "[ARTCC HIGH]" (drawings_fmt (sc_artccs_high s)));
    writeln (headed "[ARTCC]" (drawings_fmt (sc_artccs s)));
    writeln (headed "[ARTCC LOW]" (drawings_fmt (sc_artccs_low s)));
    writeln (headed "[GEO]" (drawings_fmt (sc_geo s)));
    writeln (headed "[REGIONS]" (listing_fmt region_fmt rg_name (sc_regions s)));
    writeln (headed "[LABELS]" (listing_fmt label_fmt sb_name (sc_labels s)));
    writeln (headed "[HIGH AIRWAY]" (listing_fmt airway_fmt aw_des (sc_high_airways s)));
    headed "[LOW AIRWAY]" (listing_fmt airway_fmt aw_des (sc_low_airways s)) ]).
