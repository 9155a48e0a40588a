(** Specification of writing a .sct file (C48): what is written so that it can be read, and what reading may change. *)
From Coq Require Import Reals.
From Verif Require Import Base Unicode Float FloatParse Colours Locations SctData SpecText SpecDms SpecLines.
Local Open Scope string_scope.
Local Open Scope list_scope.

(** ** Words *)
Definition word (f : N -> bool) (s : text) : Prop := s <> [] /\ Forall (fun c => f c = true) s.
(** capitals and digits *)
Definition designator_char (c : N) : bool := is_upper c || is_digit c.
Definition designator : text -> Prop := word designator_char.
(** names of fixes, and of airways *)
Definition fix_char (c : N) : bool := is_letter c || is_digit c || existsb (N.eqb c) (s2t "!()/-_.[]").
Definition colour_word : text -> Prop := word (fun c => is_alnum c || existsb (N.eqb c) (s2t "-_")).
Definition callsign : text -> Prop := word (fun c => is_alnum c || (c =? 95)%N).
Definition runway_word (s : text) : Prop := exists a b e, is_digit a = true /\ is_digit b = true /\
  In e [[]; s2t "L"; s2t "C"; s2t "R"; s2t "G"] /\ s = [a; b] ++ e.

(** White space, with the byte order mark *)
Definition space (c : N) : bool := (c =? 32)%N || (c =? 9)%N || (c =? 65279)%N.
(** Text that is not skipped: it starts with neither white space nor a comment *)
Definition starts (s t : text) : Prop := exists r, t = s ++ r.
Definition solid (s : text) : Prop :=
  (forall c r, s = c :: r -> space c = false) /\ ~ starts (s2t ";") s /\ ~ starts (s2t "//") s.
Definition fix_name (s : text) : Prop := word fix_char s /\ solid s.

(** ** Names *)
(** the text of a line, without line breaks and some other characters *)
Definition free_of (forbidden : text) (s : text) : Prop := in_line s /\ Forall (fun c => ~ In c forbidden) s.
Definition sector_name (s : text) : Prop :=
  word (fun c => is_letter c || ((32 <=? c) && (c <=? 126))%N || (c =? 9)%N) s /\ solid s /\ ~ starts (s2t "#define") s.
Definition region_name (s : text) : Prop := free_of [9; 91]%N s /\ solid s /\ (forall c r, s = r ++ [c] -> c <> 32%N).
Definition label_name (s : text) : Prop := free_of [34]%N s /\ solid s.

(** The name of a drawing is followed by spaces and the first line; it must not be taken for a line itself. *)
Definition spaces (b : text) : Prop := b <> [] /\ Forall (fun c => space c = true) b.
(** capitals and digits, and the next word repeats or extends them *)
Definition stammers (s : text) : Prop := exists w b r, designator w /\ spaces b /\ s = w ++ b ++ w ++ r.
Definition like_coordinate (s : text) : Prop := exists h d r, In h (s2t "NSWEnswe") /\ SpecText.digits d /\ s = h :: d ++ s2t "." ++ r.
Definition drawing_name (s : text) : Prop :=
  s <> [] /\ free_of (s2t "[]") s /\ solid s /\ (forall c r, s = r ++ [c] -> space c = false) /\
  ~ starts (s2t "#define") s /\ ~ like_coordinate s.

(** ** Values *)
Definition on_globe (p : point) : Prop :=
  finite (fst p) /\ finite (snd p) /\ (Rabs (real_value (fst p)) < 256)%R /\ (Rabs (real_value (snd p)) < 256)%R.
Definition place (l : location) : Prop := match l with LFix f => designator f | LCoord p => on_globe p end.

(** What is drawn: the first line must join two fixes of different name, or two coordinates. *)
Definition first_line (name : text) (x : location * location * option text) : Prop :=
  match x with
  | (LFix a, LFix b, _) => a <> b /\ ~ stammers (name ++ s2t " " ++ a)
  | (LCoord _, LCoord _, _) => ~ stammers name
  | _ => False
  end.
Definition good_entry (x : location * location * option text) : Prop :=
  place (fst (fst x)) /\ place (snd (fst x)) /\ match snd x with Some c => colour_word c | None => True end.
Definition good_drawing (d : drawing) : Prop :=
  drawing_name (dr_name d) /\
  Forall good_entry (drawn_entries (dr_groups d)) /\
  exists g gs x l, dr_groups d = g :: gs /\ drawn_entries [g] = x :: l /\ first_line (dr_name d) x.

Definition good_nav (x : nav) : Prop := designator (n_des x) /\ numeral (n_freq x) /\ on_globe (n_pos x).
Definition good_fix (x : fix_) : Prop := fix_name (f_des x) /\ on_globe (f_pos x).
Definition good_airport (x : sct_ap) : Prop :=
  designator (sap_des x) /\ on_globe (sap_pos x) /\ In (sap_ctr x) (map s2t ["A"; "B"; "C"; "D"; "E"; "F"; "G"]).
Definition good_runway (x : runway) : Prop :=
  runway_word (fst (r_des x)) /\ runway_word (snd (r_des x)) /\ (fst (r_hdg x) < 2 ^ 32)%N /\ (snd (r_hdg x) < 2 ^ 32)%N /\
  on_globe (fst (r_loc x)) /\ on_globe (snd (r_loc x)) /\ designator (r_ad x).
Definition good_region (x : region) : Prop :=
  region_name (rg_name x) /\ colour_word (rg_colour x) /\ rg_polygon x <> [] /\ Forall on_globe (rg_polygon x).
Definition good_label (x : sct_label) : Prop :=
  label_name (sb_name x) /\ (exists p, sb_coord x = LCoord p /\ on_globe p) /\ colour_word (sb_colour x).
Definition good_airway (x : sct_airway) : Prop := fix_name (aw_des x) /\ place (aw_start x) /\ place (aw_end x).
(** [{}] writes a number that is read as the same *)
Definition shown (show : f64 -> text) (x : f64) : Prop := numeral (show x) /\ parse_f64 (show x) = Some x.
Definition good_info (show : f64 -> text) (i : sct_info) : Prop :=
  sector_name (in_name i) /\ callsign (in_callsign i) /\ designator (in_airport i) /\ on_globe (in_centre i) /\
  shown show (in_mi_lat i) /\ shown show (in_mi_lng i) /\ shown show (in_magvar i) /\ shown show (in_scale i).
Definition good_colour (x : text * colour) : Prop := colour_word (fst x) /\ wf_colour (snd x) /\ ca (snd x) = 255%N.
Definition good_sct (show : f64 -> text) (s : sct) : Prop :=
  good_info show (sc_info s) /\
  NoDup (map fst (sc_colours s)) /\ Forall good_colour (sc_colours s) /\
  Forall good_nav (sc_vors s) /\ Forall good_nav (sc_ndbs s) /\ Forall good_fix (sc_fixes s) /\
  Forall good_airport (sc_airports s) /\ Forall good_runway (sc_runways s) /\
  Forall good_drawing (sc_sids s) /\ Forall good_drawing (sc_stars s) /\ Forall good_drawing (sc_artccs_high s) /\
  Forall good_drawing (sc_artccs s) /\ Forall good_drawing (sc_artccs_low s) /\ Forall good_drawing (sc_geo s) /\
  Forall good_region (sc_regions s) /\ Forall good_label (sc_labels s) /\
  Forall good_airway (sc_high_airways s) /\ Forall good_airway (sc_low_airways s).

(** ** What is read back *)
(** at most 0.000502 seconds away *)
Definition near_value (x y : f64) : Prop := (Rabs (real_value y - real_value x) <= 502 / 1000000 / 3600)%R.
Definition near_point (p q : point) : Prop := near_value (fst p) (fst q) /\ near_value (snd p) (snd q).
Definition near_place (a b : location) : Prop :=
  match a, b with
  | LFix f, LFix g => g = f
  | LCoord p, LCoord q => near_point p q
  | _, _ => False
  end.
Definition near_nav (x y : nav) : Prop := n_des y = n_des x /\ n_freq y = n_freq x /\ near_point (n_pos x) (n_pos y).
Definition near_fix (x y : fix_) : Prop := f_des y = f_des x /\ near_point (f_pos x) (f_pos y).
Definition near_airport (x y : sct_ap) : Prop := sap_des y = sap_des x /\ near_point (sap_pos x) (sap_pos y) /\ sap_ctr y = sap_ctr x.
Definition near_runway (x y : runway) : Prop :=
  r_des y = r_des x /\ r_hdg y = r_hdg x /\ near_point (fst (r_loc x)) (fst (r_loc y)) /\
  near_point (snd (r_loc x)) (snd (r_loc y)) /\ r_ad y = r_ad x.
Definition near_region (x y : region) : Prop :=
  rg_name y = rg_name x /\ rg_colour y = rg_colour x /\ Forall2 near_point (rg_polygon x) (rg_polygon y).
Definition near_label (x y : sct_label) : Prop :=
  sb_name y = sb_name x /\ near_place (sb_coord x) (sb_coord y) /\ sb_colour y = sb_colour x.
Definition near_airway (x y : sct_airway) : Prop :=
  aw_des y = aw_des x /\ near_place (aw_start x) (aw_start y) /\ near_place (aw_end x) (aw_end y).
(** The same segments in the same colours, but for those whose ends are written as the same coordinate *)
Definition near_entry (x y : location * location * option text) : Prop :=
  near_place (fst (fst x)) (fst (fst y)) /\ near_place (snd (fst x)) (snd (fst y)) /\ snd y = snd x.
Definition near_drawing (x y : drawing) : Prop :=
  dr_name y = dr_name x /\
  exists ws out, Forall2 near_entry (drawn_entries (dr_groups x)) ws /\ proper_entries ws out /\
    Forall2 stands_for_entry (drawn_entries (dr_groups y)) out.
Definition near_info (x y : sct_info) : Prop :=
  in_name y = in_name x /\ in_callsign y = in_callsign x /\ in_airport y = in_airport x /\
  near_point (in_centre x) (in_centre y) /\ in_mi_lat y = in_mi_lat x /\ in_mi_lng y = in_mi_lng x /\
  in_magvar y = in_magvar x /\ in_scale y = in_scale x.
(** The items in another order *)
Definition shuffled {A} (R : A -> A -> Prop) (l l' : list A) : Prop := exists m, Permutation l m /\ Forall2 R m l'.
(** The items in another order, those of the same name in the same order *)
Definition regrouped {A} (name : A -> text) (R : A -> A -> Prop) (l l' : list A) : Prop :=
  exists m, Permutation l m /\ (forall n, filter (fun x => eqb (name x) n) m = filter (fun x => eqb (name x) n) l) /\ Forall2 R m l'.
Definition near_sct (s s' : sct) : Prop :=
  near_info (sc_info s) (sc_info s') /\
  (forall n, get n (sc_colours s') = get n (sc_colours s)) /\
  shuffled near_nav (sc_vors s) (sc_vors s') /\ shuffled near_nav (sc_ndbs s) (sc_ndbs s') /\
  shuffled near_fix (sc_fixes s) (sc_fixes s') /\ shuffled near_airport (sc_airports s) (sc_airports s') /\
  regrouped r_ad near_runway (sc_runways s) (sc_runways s') /\
  regrouped dr_name near_drawing (sc_sids s) (sc_sids s') /\ regrouped dr_name near_drawing (sc_stars s) (sc_stars s') /\
  regrouped dr_name near_drawing (sc_artccs_high s) (sc_artccs_high s') /\ regrouped dr_name near_drawing (sc_artccs s) (sc_artccs s') /\
  regrouped dr_name near_drawing (sc_artccs_low s) (sc_artccs_low s') /\ regrouped dr_name near_drawing (sc_geo s) (sc_geo s') /\
  regrouped rg_name near_region (sc_regions s) (sc_regions s') /\ regrouped sb_name near_label (sc_labels s) (sc_labels s') /\
  regrouped aw_des near_airway (sc_high_airways s) (sc_high_airways s') /\ regrouped aw_des near_airway (sc_low_airways s) (sc_low_airways s').
