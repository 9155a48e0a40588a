(** Specification of the text of .ese files, line by line (C78). *)
From Verif Require Import Base Num Float FloatParse Dms SpecText SpecFields Sectors Constraints EseParse.
Local Open Scope string_scope.
Local Open Scope list_scope.

(** ** Fields *)
Definition colon : text := s2t ":".
(** fields with a colon before each *)
Definition listed (l : list text) : text := List.concat (map (fun w => colon ++ w) l).
(** any text without colons that is not a remark *)
Definition words (w : text) : Prop := field 58 w /\ forall v, w <> s2t ";" ++ v.
(** upper case letters, digits and hyphens *)
Definition designator_char (c : N) : bool := is_upper c || is_digit c || (c =? 45)%N.
Definition code (w : text) : Prop := w <> [] /\ Forall (fun c => designator_char c = true) w.
(** either any (an asterisk) or a text *)
Definition any_or (o : option text) : text := match o with Some w => w | None => s2t "*" end.
Definition opt_words (o : option text) : Prop := forall w, o = Some w -> words w /\ forall v, w <> s2t "*" ++ v.
Definition opt_code (o : option text) : Prop := forall w, o = Some w -> code w.
Definition opt_level (o : option text) (n : option N) : Prop :=
  match o, n with Some w, Some n => whole w /\ parse_u32 w = Some n | None, None => True | _, _ => False end.

(** ** Coordinates: N048.21.13.000:E011.47.09.000 *)
Record dms := mkDms { d_letter : text; d_deg : text; d_min : text; d_sec : text }.
Definition dms_text (d : dms) : text := d_letter d ++ d_deg d ++ s2t "." ++ d_min d ++ s2t "." ++ d_sec d.
Definition reads_dms (d : dms) (v : deg_min_sec) : Prop :=
  let '(h, deg, min, sec) := v in
  In (d_letter d) (map s2t match h with Pos => ["N"; "E"; "n"; "e"] | Neg => ["S"; "W"; "s"; "w"] end) /\
  digits (d_deg d) /\ digits (d_min d) /\ numeral (d_sec d) /\
  parse_u16 (d_deg d) = Some deg /\ parse_u8 (d_min d) = Some min /\ parse_f64 (d_sec d) = Some sec.
Definition place_text (c : dms * dms) : text := dms_text (fst c) ++ colon ++ dms_text (snd c).
Definition reads_place (c : dms * dms) (p : point) : Prop :=
  exists lat lng, reads_dms (fst c) lat /\ reads_dms (snd c) lng /\ p = (dms_value lng, dms_value lat).

(** ** Positions *)
Record position_line := mkPositionLine {
  p_name : text; p_callsign : text; p_freq : text; p_ident : text; p_middle : text; p_prefix : text; p_suffix : text; p_x : text; p_y : text;
  p_squawk : option (text * text); p_points : list (dms * dms) }.
Definition position_text (p : position_line) : text :=
  p_name p ++ listed [p_callsign p; p_freq p; p_ident p; p_middle p; p_prefix p; p_suffix p; p_x p; p_y p] ++ colon ++
  match p_squawk p with Some (a, b) => a ++ colon ++ b | None => [] end ++ listed (map place_text (p_points p)).
(** At most four points, and none without a squawk range. *)
Definition reads_position (p : position_line) (x : position) : Prop :=
  Forall words [p_name p; p_callsign p; p_ident p; p_middle p; p_prefix p; p_suffix p; p_x p; p_y p] /\ numeral (p_freq p) /\
  po_name x = p_name p /\ po_callsign x = p_callsign p /\ po_freq x = p_freq p /\ po_ident x = p_ident p /\
  po_middle x = p_middle p /\ po_prefix x = p_prefix p /\ po_suffix x = p_suffix p /\
  match p_squawk p, po_squawk x with
  | Some (a, b), Some (m, n) => whole a /\ whole b /\ parse_u16 a = Some m /\ parse_u16 b = Some n
  | None, None => p_points p = []
  | _, _ => False
  end /\ (List.length (p_points p) <= 4)%nat /\ Forall2 reads_place (p_points p) (po_points x).

(** ** Airspace *)
Definition keyed (k : string) (l : list text) : text := s2t k ++ listed l.
Inductive border_item := Display (a b c : text) | Corner (c : dms * dms).
Definition border_text (i : border_item) : text :=
  match i with Display a b c => keyed "DISPLAY" [a; b; c] | Corner c => keyed "COORD" [place_text c] end.
Inductive detail :=
| Owner (w : text) (l : list text) | AltOwner (n : text) (w : text) (l : list text) | Border (w : text) (l : list text)
| Guest (s : text) (adep ades : option text) | Active (aerodrome runway : text) | DepApt (w : text) (l : list text) | ArrApt (w : text) (l : list text).
Definition detail_text (d : detail) : text :=
  match d with
  | Owner w l => keyed "OWNER" (w :: l) | AltOwner n w l => keyed "ALTOWNER" (n :: w :: l) | Border w l => keyed "BORDER" (w :: l)
  | Guest s a b => keyed "GUEST" [s; any_or a; any_or b] | Active a b => keyed "ACTIVE" [a; b]
  | DepApt w l => keyed "DEPAPT" (w :: l) | ArrApt w l => keyed "ARRAPT" (w :: l)
  end.
Record cop := mkCop { k_prev : option text; k_dep : option text; k_fix : option text; k_next : option text; k_arr : option text;
                      k_exit : text; k_entry : text; k_climb : option text; k_descent : option text; k_desc : text }.
Definition cop_text (fir : bool) (c : cop) : text :=
  keyed (if fir then "FIR_COPX" else "COPX")
    [any_or (k_prev c); any_or (k_dep c); any_or (k_fix c); any_or (k_next c); any_or (k_arr c);
     k_exit c; k_entry c; any_or (k_climb c); any_or (k_descent c); k_desc c].
Inductive airspace :=
| Sectorline (id : text) (l : list border_item)
| CircleLine (id fix_ radius : text) (l : list (text * text * text))
| DisplayLine (a b c d : text)
| Sector (id bottom top : text) (l : list detail)
| Copx (fir : bool) (c : cop)
| Msaw (id altitude : text) (c : dms * dms) (l : list (dms * dms)).
Definition airspace_lines (a : airspace) : list text :=
  match a with
  | Sectorline id l => keyed "SECTORLINE" [id] :: map border_text l
  | CircleLine id f r l => keyed "CIRCLE_SECTORLINE" [id; f; r] :: map (fun '(a, b, c) => border_text (Display a b c)) l
  | DisplayLine a b c d => [keyed "DISPLAY_SECTORLINE" [a; b; c; d]]
  | Sector id bottom top l => keyed "SECTOR" [id; bottom; top] :: map detail_text l
  | Copx fir c => [cop_text fir c]
  | Msaw id alt c l => keyed "MSAW" [id; alt] :: map (fun c => border_text (Corner c)) (c :: l)
  end.

(** what can be read *)
Definition fix_char (c : N) : bool := Unicode.is_letter c || is_digit c || existsb (N.eqb c) (s2t "()/-_.").
Definition good_item (i : border_item) : Prop :=
  match i with Display a b c => words a /\ words b /\ words c | Corner c => exists p, reads_place c p end.
Definition good_detail (d : detail) : Prop :=
  match d with
  | Owner w l | Border w l => Forall words (w :: l) | AltOwner n w l => Forall words (n :: w :: l)
  | Guest s a b => words s /\ opt_code a /\ opt_code b | Active a b => code a /\ code b | DepApt w l | ArrApt w l => Forall code (w :: l)
  end.
Definition good_cop (c : cop) : Prop :=
  opt_words (k_prev c) /\ opt_code (k_dep c) /\ opt_words (k_fix c) /\ opt_words (k_next c) /\ opt_code (k_arr c) /\
  words (k_exit c) /\ words (k_entry c) /\ words (k_desc c).
Definition good_airspace (a : airspace) : Prop :=
  match a with
  | Sectorline id l => words id /\ Forall good_item l
  | CircleLine id f r l => words id /\ f <> [] /\ Forall (fun c => fix_char c = true) f /\ numeral r /\ Forall (fun '(a, b, c) => good_item (Display a b c)) l
  | DisplayLine a b c d => Forall words [a; b; c; d]
  | Sector id bottom top l => words id /\ whole bottom /\ whole top /\ Forall good_detail l
  | Copx _ c => good_cop c
  | Msaw id alt c l => words id /\ whole alt /\ (exists n, parse_u32 alt = Some n) /\ Forall (fun c => exists p, reads_place c p) (c :: l)
  end.

(** the lines of sectors *)
Definition corners (l : list border_item) : list (dms * dms) := flat_map (fun i => match i with Corner c => [c] | Display _ _ _ => [] end) l.
Definition reads_line (a : airspace) (o : list (text * sector_line)) : Prop :=
  match a with Sectorline id l => exists ps, o = [(id, ps)] /\ Forall2 reads_place (corners l) ps | _ => o = [] end.
(** the first entry of a kind *)
Definition first_of (f : detail -> option (list text)) (l : list detail) : list text :=
  match flat_map (fun d => match f d with Some x => [x] | None => [] end) l with x :: _ => x | [] => [] end.
Definition owner_of (d : detail) := match d with Owner w l => Some (w :: l) | _ => None end.
Definition border_of (d : detail) := match d with Border w l => Some (w :: l) | _ => None end.
Definition dep_of (d : detail) := match d with DepApt w l => Some (w :: l) | _ => None end.
Definition arr_of (d : detail) := match d with ArrApt w l => Some (w :: l) | _ => None end.
(** a sector, its border made of [lines]; names without a line are ignored *)
Definition reads_sector (lines : list (text * sector_line)) (a : airspace) (o : list (text * ese_sector)) : Prop :=
  match a with
  | Sector id bottom top l => exists x, o = [(id, x)] /\
      es_id x = id /\ parse_u32 bottom = Some (es_bottom x) /\ parse_u32 top = Some (es_top x) /\
      es_border x = flat_map (fun k => match get k (rev lines) with Some s => [s] | None => [] end) (first_of border_of l) /\
      es_owner x = first_of owner_of l /\ es_dep x = first_of dep_of l /\ es_arr x = first_of arr_of l /\
      es_runways x = flat_map (fun d => match d with Active a r => [(a, r)] | _ => [] end) l
  | _ => o = []
  end.
Definition reads_cop (a : airspace) (o : list constraint) : Prop :=
  match a with
  | Copx _ c => exists x, o = [x] /\
      c_prev x = k_prev c /\ c_dep x = k_dep c /\ c_fix x = k_fix c /\ c_next x = k_next c /\ c_arr x = k_arr c /\
      c_exit x = k_exit c /\ c_entry x = k_entry c /\ opt_level (k_climb c) (c_climb x) /\ opt_level (k_descent c) (c_descent x) /\
      c_desc x = k_desc c /\ c_timing x = None
  | _ => o = []
  end.

(** ** SIDs and STARs: the waypoints are separated by blanks *)
Record procedure := mkProcedure { q_star : bool; q_airport : text; q_runway : option text; q_name : text; q_route : list (text * text) }.
Definition procedure_text (p : procedure) : text :=
  keyed (if q_star p then "STAR" else "SID") [q_airport p; match q_runway p with Some r => r | None => [] end; q_name p] ++ colon ++
  List.concat (map (fun '(b, w) => b ++ w) (q_route p)).
Definition blank_text (b : text) : Prop := b <> [] /\ blanks b.
Definition runway (w : text) : Prop :=
  exists a b s, w = a :: b :: s /\ is_digit a = true /\ is_digit b = true /\ In s (map s2t [""; "L"; "C"; "R"; "G"]).
Definition good_procedure (p : procedure) : Prop :=
  code (q_airport p) /\ (forall r, q_runway p = Some r -> runway r) /\ words (q_name p) /\
  Forall (fun '(b, w) => blanks b /\ code w) (q_route p) /\ Forall (fun '(b, _) => b <> []) (tl (q_route p)).
Definition procedure_of (p : procedure) : sid_star :=
  (if q_star p then Star else Sid) (mkProc (q_name p) (q_airport p) (q_runway p) (map snd (q_route p))).

(** ** Files *)
Inductive section :=
| Positions (l : list position_line) | Airspace (l : list airspace) | Procedures (l : list procedure) | Other (name : text) (l : list text).
Definition header (n : text) : text := s2t "[" ++ n ++ s2t "]".
Definition section_lines (s : section) : list text :=
  match s with
  | Positions l => header (s2t "POSITIONS") :: map position_text l
  | Airspace l => header (s2t "AIRSPACE") :: flat_map airspace_lines l
  | Procedures l => header (s2t "SIDSSTARS") :: map procedure_text l
  | Other n l => header n :: l
  end.
Definition header_char (c : N) : bool := is_upper c || (c =? 32)%N || (c =? 9)%N.
Definition good_section (s : section) : Prop :=
  match s with
  | Positions l => Forall (fun p => exists x, reads_position p x) l
  | Airspace l => Forall good_airspace l /\ Forall (fun a => exists o, reads_sector [] a o) l /\ Forall (fun a => exists o, reads_cop a o) l
  | Procedures l => Forall good_procedure l
  | Other n l => n <> [] /\ Forall (fun c => header_char c = true) n /\ (forall v, n <> 32%N :: v) /\ (forall v, n <> 9%N :: v) /\
      ~ In n (map s2t ["POSITIONS"; "AIRSPACE"; "SIDSSTARS"]) /\
      Forall (fun w => w <> [] /\ in_line w /\ trimmed w /\ forall c v, w = c :: v -> c <> 91%N /\ c <> 59%N) l
  end.
(** the last section of a kind *)
Definition last_of {A} (f : section -> option (list A)) (l : list section) : list A :=
  match flat_map (fun s => match f s with Some x => [x] | None => [] end) (rev l) with x :: _ => x | [] => [] end.
Definition positions_in (l : list section) := last_of (fun s => match s with Positions l => Some l | _ => None end) l.
Definition airspace_in (l : list section) := last_of (fun s => match s with Airspace l => Some l | _ => None end) l.
Definition procedures_in (l : list section) := last_of (fun s => match s with Procedures l => Some l | _ => None end) l.
(** what a list of entries contributes *)
Definition collects {A B} (f : A -> list B -> Prop) (l : list A) (r : list B) : Prop := exists rs, Forall2 f l rs /\ r = List.concat rs.
Definition ese_space (c : N) : bool := (c =? 32)%N || (c =? 9)%N.
Definition ese_text (l : list section) (t : text) : Prop := layout ese_space [s2t ";"] (flat_map section_lines l) t.
Definition ese_reads (l : list section) (e : ese) : Prop :=
  (exists ps, Forall2 reads_position (positions_in l) ps /\ forall k, get k (e_positions e) = get k (rev (map (fun p => (po_ident p, p)) ps))) /\
  (exists lines sectors, collects reads_line (airspace_in l) lines /\ collects (reads_sector lines) (airspace_in l) sectors /\
    forall k, get k (e_sectors e) = get k (rev sectors)) /\
  collects reads_cop (airspace_in l) (e_constraints e) /\
  e_procs e = map procedure_of (procedures_in l).
(** the same contents; the order inside of maps is not told *)
Definition same_ese (e e' : ese) : Prop :=
  (forall k, get k (e_positions e) = get k (e_positions e')) /\ (forall k, get k (e_sectors e) = get k (e_sectors e')) /\
  e_constraints e = e_constraints e' /\ e_procs e = e_procs e'.
