(** Specification vocabulary for airway.txt files made from the texts of airway points (C74). *)
From Coq Require Import Reals.
From Verif Require Import Base Num Float SpecDms Airways Places SpecPlaces.
Local Open Scope string_scope.
Local Open Scope list_scope.

(** A line of airway.txt: a point, an airway and the neighbours of the point on it *)
Record line := mkLine { l_name : text; l_pos : point; l_airway : text; l_type : airway_type;
                        l_first : option airway_fix; l_second : option airway_fix }.
Definition tab : text := [9%N].
(** A neighbour is a tabulator and the text of the airway point; without one, its fields are empty *)
Definition slot_text (o : option airway_fix) : text :=
  tab ++ match o with Some a => show_airway_fix a | None => tab ++ tab ++ tab ++ tab ++ s2t "N" end.
Definition line_text (l : line) : text :=
  l_name l ++ tab ++ show6 (py (l_pos l)) ++ tab ++ show6 (px (l_pos l)) ++ tab ++ s2t "14" ++ tab ++
  l_airway l ++ tab ++ show_type (l_type l) ++ slot_text (l_first l) ++ slot_text (l_second l) ++ [10%N].
Definition airway_text (ls : list line) : text := List.concat (map line_text ls).

(** The segments of a line *)
Definition line_segments (l : line) : list segment :=
  flat_map (fun o => match o with
    | Some a => [mkSeg (l_airway l) (l_name l) (l_pos l) (af_name a) (af_pos a) (af_valid a) (af_min a) (l_type l)]
    | None => []
    end) [l_first l; l_second l].

(** Names are upper case letters and digits; coordinates are numbers of moderate size; levels have 32 bits *)
Definition name_char (c : N) : bool := ((65 <=? c) && (c <=? 90) || (48 <=? c) && (c <=? 57))%N.
Definition name (t : text) : Prop := t <> [] /\ Forall (fun c => name_char c = true) t.
Definition good_fix (a : airway_fix) : Prop :=
  name (af_name a) /\ somewhere (af_pos a) /\ forall l, af_min a = Some l -> (l < 2 ^ 32)%N.
Definition good_slot (o : option airway_fix) : Prop := forall a, o = Some a -> good_fix a.
Definition good_line (l : line) : Prop :=
  name (l_name l) /\ somewhere (l_pos l) /\ name (l_airway l) /\ good_slot (l_first l) /\ good_slot (l_second l).

(** [y] is the number of six decimals that is nearest to [x] (up to the precision of doubles) *)
Definition nearest6 (x y : f64) : Prop :=
  finite y /\ exists z, millionths z x (5 / 10000000) /\ millionths z y (1 / 10000000000000).
Definition nearest (p p' : point) : Prop := nearest6 (px p) (px p') /\ nearest6 (py p) (py p').
Definition fix_read (a a' : airway_fix) : Prop :=
  af_name a' = af_name a /\ nearest (af_pos a) (af_pos a') /\ af_valid a' = af_valid a /\ af_min a' = af_min a.
Definition slot_read (o o' : option airway_fix) : Prop :=
  match o, o' with Some a, Some a' => fix_read a a' | None, None => True | _, _ => False end.
(** A line as it is read: as it was written, but for the decimals of the coordinates *)
Definition line_read (l l' : line) : Prop :=
  l_name l' = l_name l /\ nearest (l_pos l) (l_pos l') /\ l_airway l' = l_airway l /\ l_type l' = l_type l /\
  slot_read (l_first l) (l_first l') /\ slot_read (l_second l) (l_second l').
