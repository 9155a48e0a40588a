(** Specification of airway.txt files (C55): the segments of a file, in terms of the pairs of the text. *)
From Verif Require Import Base Num Float FloatParse Peg SpecPeg Trees SpecPairs Airways.
Local Open Scope string_scope.
Local Open Scope list_scope.

(** the coordinate of a line or of a neighbour: latitude, then longitude *)
Definition reads_coord (p : tree) (c : point) : Prop :=
  exists q a b, of_rule "coord" (kids_of p) = [q] /\ texts "coord_part" q = [a; b] /\ parse_f64 a = Some (py c) /\ parse_f64 b = Some (px c).
Definition airway_letters : list (text * airway_type) := [(s2t "H", AHigh); (s2t "L", ALow); (s2t "B", ABoth); (s2t "", AUnknown)].
(** the neighbours of a line *)
Definition neighbours (p : tree) : list tree := of_rule "neighbour" (kids_of p).
(** the segment from the point of the line [p] to its neighbour [q] *)
Definition reads_segment (p q : tree) (s : segment) : Prop :=
  texts "designator" p = [s_from s; s_awy s] /\ reads_coord p (s_from_pos s) /\
  (exists ty, field "airway_type" p ty /\ In (ty, s_type s) airway_letters) /\
  field "designator" q (s_to s) /\ reads_coord q (s_to_pos s) /\
  match s_min s with
  | Some n => exists l, field "level" q l /\ parse_u32 l = Some n
  | None => of_rule "level" (kids_of q) = []
  end /\
  (if s_valid s then field "TRUE" q (s2t "Y") else field "FALSE" q (s2t "N")).
Definition reads_line (p : tree) (l : list segment) : Prop := Forall2 (reads_segment p) (neighbours p) l.
(** levels that fit into 32 bits *)
Definition level_ok (q : tree) : Prop := forall l, In l (texts "level" q) -> exists n, parse_u32 l = Some n.
Definition levels_ok (p : tree) : Prop := Forall level_ok (neighbours p).
