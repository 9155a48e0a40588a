(** Specification of .sct files (C08, C47): what is read, in terms of the pairs of the text. *)
From Verif Require Import Base Num Float FloatParse Colours SpecColours Locations SctData Lines Dms Peg SpecPeg Trees SpecPairs.
Local Open Scope string_scope.
Local Open Scope list_scope.

(** ** Numbers that fit into their types *)
Definition fits (q : tree) : Prop :=
  (rule_of q = "deg" -> exists n, parse_u16 (text_of q) = Some n) /\
  (rule_of q = "min" -> exists n, parse_u8 (text_of q) = Some n) /\
  (rule_of q = "colour_definition" -> forall s, In s (texts "pos_integer" q) -> exists n, parse_i32 s = Some n) /\
  (rule_of q = "runway" -> forall s, In s (texts "pos_integer" q) -> exists n, parse_u32 s = Some n).
(** all numbers of the text fit *)
Definition all_fit (ts : list tree) : Prop := forall q, inside q ts -> fits q.

(** ** Coordinates *)
Definition hemispheres : list (text * hemi) :=
  [(s2t "N", Pos); (s2t "E", Pos); (s2t "n", Pos); (s2t "e", Pos); (s2t "S", Neg); (s2t "W", Neg); (s2t "s", Neg); (s2t "w", Neg)].
Definition reads_part (p : tree) (v : deg_min_sec) : Prop :=
  exists h d m s hm deg min sec, field "hemi" p h /\ field "deg" p d /\ field "min" p m /\ field "sec" p s /\
    In (h, hm) hemispheres /\ parse_u16 d = Some deg /\ parse_u8 m = Some min /\ parse_f64 s = Some sec /\ v = (hm, deg, min, sec).
(** latitude, then longitude *)
Definition reads_coord (q : tree) (c : point) : Prop :=
  exists a b y x, of_rule "sct_coord_part" (kids_of q) = [a; b] /\ reads_part a y /\ reads_part b x /\ c = (dms_value x, dms_value y).
(** the only coordinate of an entry *)
Definition reads_place (p : tree) (c : point) : Prop := exists q, of_rule "sct_coordinate" (kids_of p) = [q] /\ reads_coord q c.
(** a coordinate or the name of a fix, written twice *)
Definition reads_location (q : tree) (l : location) : Prop :=
  match l with
  | LCoord c => rule_of q = "sct_coordinate" /\ reads_coord q c
  | LFix d => rule_of q = "airway_fix" /\ field "designator" q d
  end.
Definition is_location (q : tree) : bool := String.eqb (rule_of q) "sct_coordinate" || String.eqb (rule_of q) "airway_fix".
Definition locations_of (p : tree) : list tree := filter is_location (kids_of p).

(** ** Entries *)
Definition reads_airport (p : tree) (x : sct_ap) : Prop :=
  field "designator" p (sap_des x) /\ reads_place p (sap_pos x) /\ field "ctr_airspace" p (sap_ctr x).
Definition reads_fix (p : tree) (x : fix_) : Prop := field "fix_designator" p (f_des x) /\ reads_place p (f_pos x).
Definition reads_nav (p : tree) (x : nav) : Prop :=
  field "designator" p (n_des x) /\ field "frequency" p (n_freq x) /\ reads_place p (n_pos x).
Definition reads_runway (p : tree) (x : runway) : Prop :=
  texts "runway_designator" p = [fst (r_des x); snd (r_des x)] /\
  (exists a b, texts "pos_integer" p = [a; b] /\ parse_u32 a = Some (fst (r_hdg x)) /\ parse_u32 b = Some (snd (r_hdg x))) /\
  (exists a b, of_rule "sct_coordinate" (kids_of p) = [a; b] /\ reads_coord a (fst (r_loc x)) /\ reads_coord b (snd (r_loc x))) /\
  field "designator" p (r_ad x).
Definition reads_airway (p : tree) (x : sct_airway) : Prop :=
  field "fix_designator" p (aw_des x) /\ exists a b, locations_of p = [a; b] /\ reads_location a (aw_start x) /\ reads_location b (aw_end x).
Definition reads_region (p : tree) (x : region) : Prop :=
  field "name" p (rg_name x) /\ field "colour_name" p (rg_colour x) /\ Forall2 reads_coord (of_rule "sct_coordinate" (kids_of p)) (rg_polygon x).
Definition reads_label (p : tree) (x : sct_label) : Prop :=
  field "quote_delimited_text" p (sb_name x) /\ (exists c, sb_coord x = LCoord c /\ reads_place p c) /\ field "colour_name" p (sb_colour x).
Definition reads_line (p : tree) (x : location * location * option text) : Prop :=
  (exists a b, locations_of p = [a; b] /\ reads_location a (fst (fst x)) /\ reads_location b (snd (fst x))) /\
  texts "colour_name" p = match snd x with Some c => [c] | None => [] end.
(** the lines of a drawing, merged: C06 says how *)
Definition reads_drawing (p : tree) (x : drawing) : Prop :=
  field "non_coordinate_or_double_fix_name" p (dr_name x) /\
  exists lines, Forall2 reads_line (of_rule "coloured_line" (kids_of p)) lines /\ dr_groups x = merge_groups lines.
Definition reads_info (p : tree) (x : sct_info) : Prop :=
  field "sector_name" p (in_name x) /\ field "sector_callsign" p (in_callsign x) /\ field "designator" p (in_airport x) /\
  reads_coord p (in_centre x) /\
  exists a b c d, parse_f64 a = Some (in_mi_lat x) /\ parse_f64 b = Some (in_mi_lng x) /\ parse_f64 c = Some (in_magvar x) /\
    (texts "decimal" p = [a; b; c; d] /\ parse_f64 d = Some (in_scale x) \/ texts "decimal" p = [a; b; c] /\ in_scale x = S754_zero false).
Definition empty_info (x : sct_info) : Prop :=
  x = mkSctInfo [] [] [] (S754_zero false, S754_zero false) (S754_zero false) (S754_zero false) (S754_zero false) (S754_zero false).

(** ** Sections *)
Fixpoint last_opt {A} (l : list A) : option A := match l with [] => None | [x] => Some x | _ :: l => last_opt l end.
(** the entries of the last section of a kind *)
Definition entries_of (sec entry : string) (kids : list tree) : list tree :=
  match last_opt (of_rule sec kids) with Some p => of_rule entry (kids_of p) | None => [] end.
(** the colour definitions of the whole file, in order *)
Definition colour_defs (kids : list tree) : list tree :=
  flat_map (fun p => if string_dec (rule_of p) "colour_definition" then [p] else of_rule "colour_definition" (kids_of p)) kids.
(** [p] defines the colour [c] as [n] *)
Definition defines (p : tree) (n : text) (c : colour) : Prop :=
  field "colour_name" p n /\ exists s r g b, field "pos_integer" p s /\ (r <= 255)%N /\ (g <= 255)%N /\ (b <= 255)%N /\
    parse_i32 s = Some (rgb_number r g b) /\ c = mkColour r g b 255.
(** the colour of a name: the last definition that is one *)
Definition last_definition (defs : list tree) (n : text) (c : colour) : Prop :=
  exists before p after, defs = before ++ p :: after /\ defines p n c /\ Forall (fun q => forall c', ~ defines q n c') after.
