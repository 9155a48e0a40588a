(** Model of src/adaptation/colours.rs and of the default table in src/topsky/mod.rs. *)
From Verif Require Import Base Num.

(** colours.rs:15-21 [struct Colour]; channels are u8, i.e. below 256 ([wf_colour]). *)
Record colour := mkColour { cr : N; cg : N; cb : N; ca : N }.
Definition wf_colour (c : colour) : Prop :=
  (cr c < 256 /\ cg c < 256 /\ cb c < 256 /\ ca c < 256)%N.

(** colours.rs:24-26 [Colour::from_rgb] *)
Definition from_rgb (r g b : N) : colour := mkColour r g b 255.

(** [u8::try_from(i32)] *)
Definition u8_try_from (z : Z) : option N :=
  if (0 <=? z)%Z && (z <=? 255)%Z then Some (Z.to_N z) else None.

(** colours.rs:28-34 [Colour::from_euroscope].  Rust's [/] and [%] on i32 truncate
    ([Z.quot], [Z.rem]); the three conversions are tried in order, each error returns. *)
Definition from_euroscope (n : Z) : option colour :=
  match u8_try_from (Z.rem n 256) with
  | None => None
  | Some r =>
    match u8_try_from (Z.rem (Z.quot n 256) 256) with
    | None => None
    | Some g =>
      match u8_try_from (Z.quot (Z.quot n 256) 256) with
      | None => None
      | Some b => Some (from_rgb r g b)
      end
    end
  end.

(** colours.rs:36-38 [Colour::to_euroscope] *)
Definition to_euroscope (c : colour) : Z :=
  (Z.of_N (cr c) + Z.of_N (cg c) * 256 + Z.of_N (cb c) * 256 * 256)%Z.

(** colours.rs:57-61 [hash_rgb_regex], and 71-88 [visit_str]: the regular expression
    ^#([0-9a-fA-F]{2})([0-9a-fA-F]{2})([0-9a-fA-F]{2})$ (ASCII classes, [$] only at the
    very end), then u8::from_str_radix(.., 16) of each capture. *)
Definition is_hex (c : N) : bool :=
  is_digit c || ((97 <=? c)%N && (c <=? 102)%N) || ((65 <=? c)%N && (c <=? 70)%N).
Definition visit_str (s : text) : option colour :=
  match s with
  | [h; r1; r2; g1; g2; b1; b2] =>
    if (h =? 35)%N && is_hex r1 && is_hex r2 && is_hex g1 && is_hex g2 && is_hex b1 && is_hex b2
    then match parse_uint 16 u8_max [r1; r2], parse_uint 16 u8_max [g1; g2],
               parse_uint 16 u8_max [b1; b2] with
         | Some r, Some g, Some b => Some (from_rgb r g b)
         | _, _, _ => None
         end
    else None
  | _ => None
  end.

(** colours.rs:101-110 [Serialize for Colour]: format!("#{:02x}{:02x}{:02x}"). *)
Definition serialize_colour (c : colour) : text :=
  [35%N] ++ pad_left 48 2 (fmt_uint 16 (cr c)) ++ pad_left 48 2 (fmt_uint 16 (cg c))
         ++ pad_left 48 2 (fmt_uint 16 (cb c)).

(** topsky/mod.rs:40-207 [DEFAULT_COLOURS], transcribed row by row. *)
Definition rgb_opt := option (N * N * N).
Definition default_colours : list (string * (rgb_opt * rgb_opt)) :=
  ([("ACF_Via_CFL"%string, (Some (82, 190, 115), Some (82, 190, 115)));
    ("Active_Map"%string, (Some (70, 90, 135), Some (198, 174, 58)));
    ("Active_Map_Type_1"%string, (Some (1, 1, 1), Some (87, 87, 164)));
    ("Active_Map_Type_2"%string, (Some (90, 90, 90), Some (80, 162, 74)));
    ("Active_Map_Type_3"%string, (Some (220, 205, 121), Some (179, 180, 180)));
    ("Active_Map_Type_4"%string, (Some (121, 66, 133), Some (200, 53, 18)));
    ("Active_Map_Type_5"%string, (Some (51, 102, 152), Some (198, 174, 58)));
    ("Active_Map_Type_6"%string, (Some (114, 69, 58), Some (114, 69, 58)));
    ("Active_Map_Type_7"%string, (Some (138, 20, 12), Some (138, 20, 12)));
    ("Active_Map_Type_8"%string, (Some (195, 186, 69), Some (195, 186, 69)));
    ("Active_Map_Type_9"%string, (Some (220, 125, 25), Some (220, 125, 25)));
    ("Active_Map_Type_10"%string, (Some (255, 255, 255), Some (255, 255, 255)));
    ("Active_Map_Type_11"%string, (Some (51, 134, 49), Some (51, 134, 49)));
    ("Active_Map_Type_12"%string, (Some (41, 102, 255), Some (41, 102, 255)));
    ("Active_Map_Type_13"%string, (Some (100, 160, 100), Some (100, 160, 100)));
    ("Active_Map_Type_14"%string, (Some (141, 184, 236), Some (141, 184, 236)));
    ("Active_Map_Type_15"%string, (Some (227, 213, 29), Some (227, 213, 29)));
    ("Active_Map_Type_16"%string, (Some (60, 60, 60), Some (60, 60, 60)));
    ("Active_Map_Type_17"%string, (Some (155, 155, 155), Some (155, 155, 155)));
    ("Active_Map_Type_18"%string, (Some (183, 26, 19), Some (183, 26, 19)));
    ("Active_Map_Type_19"%string, (Some (120, 91, 65), Some (120, 91, 65)));
    ("Active_Map_Type_20"%string, (Some (138, 69, 58), Some (138, 69, 58)));
    ("Active_RD_Infill_Map"%string, (Some (165, 160, 160), Some (90, 90, 90)));
    ("Active_RD_Map"%string, (Some (124, 20, 13), Some (150, 41, 43)));
    ("Active_Sector"%string, (Some (153, 154, 149), Some (52, 58, 62)));
    ("Active_Text_Map"%string, (Some (210, 211, 211), Some (190, 190, 190)));
    ("AIW_Intrusion"%string, (Some (255, 152, 0), Some (255, 152, 0)));
    ("Arm"%string, (Some (97, 97, 97), Some (97, 97, 97)));
    ("Assumed"%string, (Some (1, 0, 1), Some (220, 220, 220)));
    ("Background"%string, (Some (162, 163, 156), Some (74, 80, 85)));
    ("Border"%string, (Some (51, 51, 52), Some (51, 51, 52)));
    ("BottomShadow"%string, (Some (66, 66, 66), Some (70, 70, 70)));
    ("CARD_Mark_All"%string, (None, Some (255, 125, 125)));
    ("CARD_Mark_Own"%string, (None, Some (255, 124, 125)));
    ("CARD_Min_Sep"%string, (Some (209, 207, 211), Some (61, 61, 61)));
    ("CARD_Reminder"%string, (None, Some (170, 231, 198)));
    ("CARD_Symbol_Fg"%string, (Some (0, 1, 0), Some (9, 10, 11)));
    ("CARD_Time_Vector"%string, (Some (95, 95, 95), Some (171, 231, 197)));
    ("COL_Above_Threshold"%string, (None, Some (239, 225, 41)));
    ("COL_Under_Threshold"%string, (None, Some (220, 220, 221)));
    ("Concerned"%string, (Some (124, 1, 124), Some (111, 153, 110)));
    ("Conflict_Ack"%string, (Some (110, 98, 98), Some (135, 127, 118)));
    ("Conflict_Ack_FL"%string, (Some (110, 98, 98), Some (135, 127, 117)));
    ("Coordination"%string, (Some (0, 0, 185), Some (150, 215, 150)));
    ("CPDLC_Controller_Late"%string, (Some (235, 225, 108), Some (170, 78, 39)));
    ("CPDLC_Discarded"%string, (Some (141, 141, 141), Some (128, 128, 128)));
    ("CPDLC_DM_Request"%string, (Some (205, 252, 254), Some (30, 250, 250)));
    ("CPDLC_Failed"%string, (Some (169, 8, 9), Some (170, 78, 39)));
    ("CPDLC_Pilot_Late"%string, (Some (246, 164, 96), Some (170, 78, 40)));
    ("CPDLC_Standby"%string, (Some (170, 248, 87), Some (170, 78, 39)));
    ("CPDLC_UM_Clearance"%string, (Some (2, 2, 2), Some (30, 251, 250)));
    ("CPDLC_Unable"%string, (Some (247, 164, 96), Some (170, 77, 39)));
    ("CPDLC_Urgency"%string, (Some (237, 229, 108), Some (226, 25, 25)));
    ("Datalink_Logged_On"%string, (Some (120, 120, 120), Some (145, 145, 145)));
    ("Deselected"%string, (Some (127, 127, 127), Some (95, 95, 96)));
    ("East_NAT_Map"%string, (Some (180, 180, 1), Some (180, 180, 1)));
    ("Field_Highlight"%string, (Some (209, 207, 211), Some (72, 72, 73)));
    ("Flight_Highlight"%string, (Some (190, 190, 185), Some (36, 41, 45)));
    ("Flight_Leg"%string, (Some (205, 252, 255), Some (170, 231, 197)));
    ("Foreground"%string, (Some (0, 1, 0), Some (200, 200, 200)));
    ("FPLSEP_Tool_1"%string, (Some (255, 170, 46), None));
    ("FPLSEP_Tool_2"%string, (Some (204, 122, 0), None));
    ("FPLSEP_Tool_3"%string, (Some (255, 195, 75), None));
    ("FPLSEP_Tool_4"%string, (Some (223, 143, 1), None));
    ("FPLSEP_Tool_5"%string, (Some (170, 102, 0), None));
    ("Freq_Indicator"%string, (Some (209, 207, 211), Some (114, 136, 255)));
    ("Global_Menu_Highlight"%string, (Some (211, 211, 211), Some (1, 165, 219)));
    ("Heading_Vector"%string, (Some (200, 200, 200), Some (170, 232, 197)));
    ("Info_Coord"%string, (Some (244, 164, 96), Some (1, 255, 255)));
    ("Information"%string, (Some (169, 249, 86), Some (40, 210, 40)));
    ("Information_FL"%string, (Some (0, 200, 1), Some (41, 245, 41)));
    ("Informed"%string, (Some (25, 109, 25), Some (175, 125, 175)));
    ("Informed_2"%string, (Some (25, 109, 25), Some (104, 163, 195)));
    ("Informed_3"%string, (Some (25, 109, 25), Some (147, 124, 108)));
    ("LatLong_Info"%string, (None, Some (169, 231, 197)));
    ("Map_1"%string, (Some (121, 66, 133), Some (80, 95, 95)));
    ("Map_2"%string, (Some (115, 115, 112), Some (44, 44, 44)));
    ("Map_3"%string, (Some (213, 241, 155), Some (100, 108, 111)));
    ("Map_4"%string, (Some (164, 164, 157), Some (52, 58, 62)));
    ("Map_Auto_Label"%string, (Some (115, 115, 112), Some (159, 159, 160)));
    ("Map_Auto_Symbol"%string, (Some (115, 115, 112), Some (159, 159, 160)));
    ("Map_Border"%string, (Some (117, 117, 117), Some (134, 134, 135)));
    ("Map_Hotspot"%string, (Some (72, 72, 70), Some (87, 139, 200)));
    ("Map_Info"%string, (Some (217, 217, 216), Some (150, 150, 150)));
    ("Map_Land"%string, (Some (133, 133, 138), Some (140, 140, 0)));
    ("Map_Symbol"%string, (Some (55, 55, 55), Some (110, 130, 140)));
    ("MQDM"%string, (None, Some (155, 140, 115)));
    ("Negotiation_In"%string, (None, Some (220, 125, 175)));
    ("Negotiation_Out"%string, (None, Some (220, 125, 175)));
    ("Normal_Load"%string, (Some (1, 50, 1), Some (75, 75, 78)));
    ("Oceanic_Level_Highlight"%string, (Some (240, 225, 42), Some (240, 225, 41)));
    ("Overflown"%string, (Some (169, 249, 86), Some (82, 105, 146)));
    ("Overload"%string, (Some (255, 128, 1), Some (224, 26, 25)));
    ("Potential"%string, (Some (41, 40, 216), Some (41, 40, 216)));
    ("Potential_FL"%string, (Some (40, 41, 216), Some (40, 41, 216)));
    ("Preactive_Map"%string, (Some (116, 115, 112), Some (154, 138, 128)));
    ("Preactive_Text_Map"%string, (Some (210, 211, 212), Some (155, 147, 138)));
    ("Predisplay_Map"%string, (Some (190, 190, 190), Some (175, 130, 130)));
    ("Proposition_Accepted"%string, (Some (255, 255, 0), Some (255, 255, 0)));
    ("Proposition_In"%string, (Some (254, 255, 255), Some (220, 125, 175)));
    ("Proposition_Out"%string, (Some (254, 255, 255), Some (220, 125, 175)));
    ("QDM"%string, (Some (200, 200, 200), Some (215, 190, 163)));
    ("Radar_Win_Bg"%string, (Some (164, 164, 157), Some (67, 73, 76)));
    ("Raw_Video1"%string, (Some (55, 85, 115), Some (55, 85, 115)));
    ("Raw_Video2"%string, (Some (50, 80, 110), Some (50, 80, 110)));
    ("Raw_Video3"%string, (Some (45, 75, 105), Some (45, 75, 105)));
    ("Raw_Video4"%string, (Some (40, 70, 100), Some (40, 70, 100)));
    ("Raw_Video5"%string, (Some (35, 65, 95), Some (35, 65, 95)));
    ("Raw_Video6"%string, (Some (30, 60, 90), Some (30, 60, 90)));
    ("Raw_Video7"%string, (Some (25, 55, 85), Some (25, 55, 85)));
    ("Redundant"%string, (Some (156, 96, 59), Some (185, 140, 89)));
    ("Reminder"%string, (None, Some (165, 145, 225)));
    ("Runway"%string, (Some (200, 200, 160), Some (116, 200, 71)));
    ("Rwy_App_Line_Inuse"%string, (Some (220, 220, 220), Some (82, 190, 115)));
    ("Rwy_App_Line_Not_Inuse"%string, (Some (220, 205, 121), Some (135, 135, 70)));
    ("Rwy_Locked"%string, (Some (124, 1, 124), Some (41, 210, 41)));
    ("Select"%string, (Some (97, 97, 97), Some (151, 215, 150)));
    ("Selected"%string, (Some (210, 210, 210), Some (61, 121, 148)));
    ("Selected_Group"%string, (Some (226, 210, 210), None));
    ("Selected_Period"%string, (Some (220, 40, 70), Some (255, 255, 41)));
    ("SEP_Tool_1"%string, (Some (205, 252, 255), Some (153, 217, 234)));
    ("SEP_Tool_2"%string, (Some (25, 210, 230), Some (255, 153, 184)));
    ("SEP_Tool_3"%string, (Some (120, 245, 250), Some (255, 209, 143)));
    ("SEP_Tool_4"%string, (Some (185, 240, 244), Some (197, 64, 212)));
    ("SEP_Tool_5"%string, (Some (25, 180, 210), Some (140, 140, 255)));
    ("SEP_Tool_6"%string, (None, Some (95, 170, 140)));
    ("SEP_Tool_7"%string, (None, Some (185, 130, 85)));
    ("SEP_Vert"%string, (None, Some (160, 150, 135)));
    ("Sid_Star_Allocation"%string, (Some (124, 1, 124), Some (15, 185, 15)));
    ("SMW_Highlight"%string, (Some (255, 255, 255), Some (253, 255, 255)));
    ("SMW_Level_Band"%string, (Some (169, 249, 86), Some (24, 209, 114)));
    ("SMW_Overflight"%string, (Some (236, 228, 108), Some (254, 152, 1)));
    ("SMW_Overlap"%string, (Some (168, 7, 8), Some (224, 25, 25)));
    ("SMW_Overlap_Box"%string, (Some (0, 1, 0), Some (207, 207, 207)));
    ("SMW_Overshoot"%string, (Some (236, 228, 108), Some (239, 224, 40)));
    ("Standard_Line_RDF"%string, (Some (91, 134, 76), Some (91, 134, 76)));
    ("Standard_RDF"%string, (Some (11, 12, 19), Some (11, 12, 19)));
    ("Suite_Highlight"%string, (Some (236, 228, 108), Some (0, 220, 255)));
    ("System_Calculated_TOC"%string, (None, Some (170, 230, 197)));
    ("System_Calculated_TOD"%string, (None, Some (170, 231, 197)));
    ("Temp_Track_Highlight"%string, (Some (0, 164, 220), Some (0, 164, 220)));
    ("Text_Notes"%string, (Some (0, 0, 0), Some (255, 0, 0)));
    ("TopShadow"%string, (Some (130, 130, 130), Some (155, 158, 159)));
    ("Track_Default"%string, (Some (188, 188, 188), Some (210, 210, 210)));
    ("Track_Highlight"%string, (Some (255, 255, 255), Some (0, 165, 219)));
    ("Trough"%string, (Some (97, 97, 97), Some (97, 99, 97)));
    ("TSA_Active"%string, (Some (220, 205, 120), Some (93, 138, 195)));
    ("TSA_Border_Highlight"%string, (Some (255, 254, 255), Some (255, 254, 255)));
    ("TSA_Filter"%string, (Some (255, 253, 255), None));
    ("TSA_Preactive"%string, (Some (80, 80, 80), Some (132, 142, 139)));
    ("Unconcerned"%string, (Some (110, 98, 98), Some (135, 128, 118)));
    ("Unknown"%string, (Some (237, 228, 108), Some (239, 224, 42)));
    ("Urgency"%string, (Some (236, 32, 0), Some (225, 25, 26)));
    ("Urgency_FL"%string, (Some (166, 11, 1), Some (225, 25, 25)));
    ("VAW_Profile"%string, (Some (130, 204, 240), Some (152, 202, 172)));
    ("VAW_Sector_Limits"%string, (Some (190, 190, 185), Some (145, 95, 30)));
    ("VAW_Track_Position"%string, (Some (190, 190, 185), Some (219, 219, 219)));
    ("VFR"%string, (Some (110, 1, 10), Some (110, 1, 10)));
    ("Warning"%string, (Some (236, 228, 108), Some (240, 225, 41)));
    ("Warning_FL"%string, (Some (235, 228, 108), Some (240, 226, 41)));
    ("Weather_Map"%string, (Some (99, 99, 98), Some (0, 0, 86)));
    ("West_NAT_Map"%string, (Some (40, 140, 255), Some (40, 140, 255)));
    ("WM_Active_Fg"%string, (Some (230, 230, 231), Some (255, 254, 254)));
    ("WM_Bg"%string, (Some (147, 147, 145), Some (100, 100, 105)));
    ("WM_Border"%string, (Some (50, 50, 50), Some (88, 95, 99)));
    ("WM_Fg"%string, (Some (1, 1, 1), Some (180, 184, 181)));
    ("WM_Frame"%string, (Some (1, 1, 0), Some (88, 95, 99)))])%N.

(** colours.rs:48-53 [Colour::from_topsky_default] *)
Definition from_topsky_default (coopans : bool) (name : text) : option colour :=
  match get name (map (fun e => (s2t (fst e), snd e)) default_colours) with
  | Some (plain, coop) =>
    match (if coopans then coop else plain) with
    | Some (r, g, b) => Some (from_rgb r g b)
    | None => None
    end
  | None => None
  end.

(** colours.rs:40-46 [Colour::from_symbology].  The symbology items are simplified to
    the map from item key to the item's colour. *)
Definition from_symbology (items : list ((text * text) * colour)) (key : text * text)
    (default : colour) : colour :=
  match get key items with Some c => c | None => default end.

(** colours.rs:166-288 [MapColours::from_euroscope] (defaults: 140-163).  The struct is
    represented by the list of its fields (name, value), in source order. *)
Definition map_colours (items : list ((text * text) * colour)) : list (string * colour) :=
  ([("fix_symbol"%string, from_symbology items (s2t "Fixes", s2t "symbol") (from_rgb 0 0 0));
     ("fix_name"%string, from_symbology items (s2t "Fixes", s2t "name") (from_rgb 0 0 0));
     ("airport_symbol"%string, from_symbology items (s2t "Airports", s2t "symbol") (from_rgb 0 0 0));
     ("airport_name"%string, from_symbology items (s2t "Airports", s2t "name") (from_rgb 0 0 0));
     ("ndb_symbol"%string, from_symbology items (s2t "NDBs", s2t "symbol") (from_rgb 0 0 0));
     ("ndb_name"%string, from_symbology items (s2t "NDBs", s2t "name") (from_rgb 0 0 0));
     ("ndb_frequency"%string, from_symbology items (s2t "NDBs", s2t "frequency") (from_rgb 0 0 0));
     ("vor_symbol"%string, from_symbology items (s2t "VORs", s2t "symbol") (from_rgb 0 0 0));
     ("vor_name"%string, from_symbology items (s2t "VORs", s2t "name") (from_rgb 0 0 0));
     ("vor_frequency"%string, from_symbology items (s2t "VORs", s2t "frequency") (from_rgb 0 0 0));
     ("low_airway_line"%string, from_symbology items (s2t "Low airways", s2t "line") (from_rgb 0 0 0));
     ("low_airway_name"%string, from_symbology items (s2t "Low airways", s2t "name") (from_rgb 0 0 0));
     ("high_airway_line"%string, from_symbology items (s2t "High airways", s2t "line") (from_rgb 0 0 0));
     ("high_airway_name"%string, from_symbology items (s2t "High airways", s2t "line") (from_rgb 0 0 0));
     ("sid"%string, from_symbology items (s2t "Sids", s2t "line") (from_rgb 0 0 0));
     ("star"%string, from_symbology items (s2t "Stars", s2t "line") (from_rgb 0 0 0));
     ("artcc_boundary"%string, from_symbology items (s2t "ARTCC boundary", s2t "line") (from_rgb 0 0 0));
     ("artcc_low_boundary"%string, from_symbology items (s2t "ARTCC low boundary", s2t "line") (from_rgb 0 0 0));
     ("artcc_high_boundary"%string, from_symbology items (s2t "ARTCC high boundary", s2t "line") (from_rgb 0 0 0));
     ("geo"%string, from_symbology items (s2t "Geo", s2t "line") (from_rgb 0 0 0));
     ("runway_centreline"%string, from_symbology items (s2t "Runways", s2t "centerline") (from_rgb 0 0 0));
     ("runway_extended_centreline"%string, from_symbology items (s2t "Runways", s2t "extended centerline") (from_rgb 0 0 0));
     ("runway_name"%string, from_symbology items (s2t "Runways", s2t "name") (from_rgb 0 0 0));
     ("free_text"%string, from_symbology items (s2t "Other", s2t "freetext") (from_rgb 0 0 0))])%N.

(** colours.rs:331-347 [SectorColours::from_euroscope] *)
Definition sector_colours (items : list ((text * text) * colour)) : list (string * colour) :=
  ([("active_background"%string,
      from_symbology items (s2t "Sector", s2t "active sector background") (from_rgb 200 200 200));
    ("inactive_background"%string,
      from_symbology items (s2t "Sector", s2t "inactive sector background") (from_rgb 200 200 200))])%N.

(** The expression topsky_colours.get(k).copied().or(from_topsky_default(settings, k'))
    .unwrap_or(default) used throughout 385-516. *)
Definition topsky_or (tc : list (text * colour)) (coopans : bool) (k k' : text) (d : colour) : colour :=
  match get k tc with
  | Some c => c
  | None => match from_topsky_default coopans k' with Some c => c | None => d end
  end.

(** colours.rs:385-438 [TrackColours::from_euroscope], as the list of its fields *)
Definition track_colours (tc : list (text * colour)) (coopans : bool) : list (string * colour) :=
  ([("assumed"%string, topsky_or tc coopans (s2t "Assumed") (s2t "Assumed") (from_rgb 0 0 0));
     ("advanced"%string, topsky_or tc coopans (s2t "Concerned") (s2t "Concerned") (from_rgb 0 0 255));
     ("concerned"%string, topsky_or tc coopans (s2t "Redundant") (s2t "Redundant") (from_rgb 0 0 255));
     ("unconcerned"%string, topsky_or tc coopans (s2t "Unconcerned") (s2t "Unconcerned") (from_rgb 255 255 255));
     ("vfr"%string, topsky_or tc coopans (s2t "VFR") (s2t "VFR") (from_rgb 180 150 95));
     ("flight_leg"%string, topsky_or tc coopans (s2t "Flight_Leg") (s2t "Flight_Leg") (from_rgb 0 0 0));
     ("predicted_alert"%string, topsky_or tc coopans (s2t "Warning") (s2t "Warning") (from_rgb 255 255 0));
     ("current_alert"%string, topsky_or tc coopans (s2t "Urgency") (s2t "Urgency") (from_rgb 255 0 0));
     ("reaction"%string, topsky_or tc coopans (s2t "Proposition_In") (s2t "Proposition_In") (from_rgb 230 185 184));
     ("cleared"%string, topsky_or tc coopans (s2t "Rwy_Locked") (s2t "Rwy_Locked") (from_rgb 34 139 34))])%N.

(** colours.rs:478-516 [UIColours::from_euroscope], as the list of its fields *)
Definition ui_colours (tc : list (text * colour)) (coopans : bool) : list (string * colour) :=
  ([("armed"%string, topsky_or tc coopans (s2t "Arm") (s2t "Arm") (from_rgb 160 160 160));
     ("background"%string, topsky_or tc coopans (s2t "Background") (s2t "Background") (from_rgb 192 192 192));
     ("foreground"%string, topsky_or tc coopans (s2t "Foreground") (s2t "Foreground") (from_rgb 0 0 0));
     ("window_title_background_selected"%string, topsky_or tc coopans (s2t "Background") (s2t "Background") (from_rgb 192 192 192));
     ("warning"%string, topsky_or tc coopans (s2t "Warning") (s2t "Warning") (from_rgb 255 255 0));
     ("alert"%string, topsky_or tc coopans (s2t "Urgency") (s2t "Urgency") (from_rgb 255 0 0));
     ("text_input"%string, topsky_or tc coopans (s2t "Field_Highlight") (s2t "Field_Highlight") (from_rgb 170 224 224))])%N.

(** colours.rs:534-541 [struct Colours] *)
Record colours := mkColours {
  col_track : list (string * colour);
  col_sector : list (string * colour);
  col_map : list (string * colour);
  col_ui : list (string * colour);
  col_other : list (text * colour)
}.

(** colours.rs:544-549 [Colours::get]; of the settings only [coopans] is used. *)
Definition colours_get (c : colours) (name : text) (coopans : bool) : option colour :=
  match get name (col_other c) with
  | Some x => Some x
  | None => from_topsky_default coopans name
  end.

(** colours.rs:551-578 [Colours::from_euroscope].  [sct_order] and [topsky_order] are the
    entries of the two hash maps in iteration order ([topsky = None] when there is no
    TopSky data). *)
Definition colours_from_euroscope (items : list ((text * text) * colour))
    (sct_order : list (text * colour)) (topsky : option (list (text * colour)))
    (coopans : bool) : colours :=
  let tc := match topsky with Some t => of_list t | None => [] end in
  {| col_track := track_colours tc coopans;
     col_sector := sector_colours items;
     col_map := map_colours items;
     col_ui := ui_colours tc coopans;
     col_other := of_list (sct_order ++ tc) |}.
