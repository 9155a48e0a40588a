(** Specification of the text of airway.txt files (C85): how the lines are written. *)
From Verif Require Import Base Num Float FloatParse SpecText SpecFields Airways.
Local Open Scope string_scope.
Local Open Scope list_scope.

Definition tab : text := [9]%N.
(** capital letters and digits *)
Definition designator (w : text) : Prop := w <> [] /\ Forall (fun c => is_upper c = true \/ is_digit c = true) w.
(** a neighbour: name, latitude, longitude, minimum level or none (NESTB or empty), and whether it may be flown to *)
Record neighbour := mkNeighbour { n_name : text; n_lat : text; n_lng : text; n_level : option text; n_nestb : bool; n_valid : bool }.
Definition level_text (n : neighbour) : text := match n_level n with Some l => l | None => if n_nestb n then s2t "NESTB" else [] end.
(** no neighbour: five columns, empty or 0, and N *)
Inductive slot := Nobody (zeros : list bool) | Next (n : neighbour).
Definition slot_text (s : slot) : text :=
  match s with
  | Nobody z => List.concat (map (fun b : bool => tab ++ if b then s2t "0" else []) z) ++ s2t "N"
  | Next n => tab ++ n_name n ++ tab ++ n_lat n ++ tab ++ n_lng n ++ tab ++ level_text n ++ tab ++ s2t (if n_valid n then "Y" else "N")
  end.
Record line := mkLine { l_fix : text; l_lat : text; l_lng : text; l_airway : text; l_type : airway_type; l_one : slot; l_two : slot }.
Definition type_text (ty : airway_type) : text := s2t (match ty with AHigh => "H" | ALow => "L" | ABoth => "B" | AUnknown => "" end).
Definition line_text (l : line) : text :=
  l_fix l ++ tab ++ l_lat l ++ tab ++ l_lng l ++ tab ++ s2t "14" ++ tab ++ l_airway l ++ tab ++ type_text (l_type l) ++ slot_text (l_one l) ++ slot_text (l_two l).

(** a latitude and a longitude *)
Definition spot (lat lng : text) (p : point) : Prop :=
  decimal lat /\ decimal lng /\ parse_f64 lat = Some (py p) /\ parse_f64 lng = Some (px p).
Definition reads_slot (l : line) (s : slot) (segs : list segment) : Prop :=
  match s, segs with
  | Nobody z, [] => List.length z = 5%nat
  | Next n, [g] =>
    designator (n_name n) /\ s_to g = n_name n /\ spot (n_lat n) (n_lng n) (s_to_pos g) /\ s_valid g = n_valid n /\
    match n_level n, s_min g with Some t, Some m => digits t /\ parse_u32 t = Some m | None, None => True | _, _ => False end /\
    s_from g = l_fix l /\ spot (l_lat l) (l_lng l) (s_from_pos g) /\ s_awy g = l_airway l /\ s_type g = l_type l
  | _, _ => False
  end.
Definition reads_line (l : line) (segs : list segment) : Prop :=
  designator (l_fix l) /\ designator (l_airway l) /\ decimal (l_lat l) /\ decimal (l_lng l) /\
  exists a b, segs = a ++ b /\ reads_slot l (l_one l) a /\ reads_slot l (l_two l) b.
(** lines end; there may be empty lines and remarks, but no blanks *)
Definition remarks : list text := [s2t ";"; s2t "//"].
Definition no_space (c : N) : bool := false.
Inductive lines_laid : list text -> text -> Prop :=
| lines_none : lines_laid [] []
| lines_more l ls b nl k t : idle no_space remarks b -> eol nl -> idles no_space remarks k -> lines_laid ls t -> lines_laid (l :: ls) (l ++ b ++ nl ++ k ++ t).
Definition airway_layout (ls : list text) (t : text) : Prop := exists k t', t = k ++ t' /\ idles no_space remarks k /\ lines_laid ls t'.
