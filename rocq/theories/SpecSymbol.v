(** Specification of symbol rules (C44, C47, C57): what is drawn, in terms of the pairs of the text. *)
From Verif Require Import Base Num Float FloatParse Settings Peg SpecPeg Trees SpecPairs.
Local Open Scope string_scope.
Local Open Scope list_scope.

Definition reads_f64 (s : text) (x : f64) : Prop := parse_f64 s = Some x.
(** x, then y *)
Definition reads_xy (q : tree) (c : point) : Prop := exists a b, texts "decimal" q = [a; b] /\ reads_f64 a (fst c) /\ reads_f64 b (snd c).
Definition at_points (q : tree) (l : list point) : Prop := Forall2 reads_xy (of_rule "symbol_rule_point" (kids_of q)) l.
Definition radii (q : tree) (l : list f64) : Prop := Forall2 reads_f64 (texts "decimal" q) l.
(** an angle is reduced by full turns towards zero *)
Definition reads_angle (s : text) (a : Z) : Prop := exists n, parse_i64 s = Some n /\ (Z.abs a < 360)%Z /\ (exists k, n = a + 360 * k)%Z /\ (0 <= a * n)%Z.
Definition angles (q : tree) (l : list Z) : Prop := Forall2 reads_angle (texts "integer" q) l.
(** radii that differ by less than 2^-52 count as the same *)
Definition circular (x y : f64) : Prop := SFltb (SFabs (SFsub 53 1024 x y)) (S754_finite false 4503599627370496 (-104)) = true.
Definition reads_rule (q : tree) (r : Settings.symbol_rule) : Prop :=
  match r with
  | SMove p => rule_of q = "moveto" /\ at_points q [p]
  | SLine p => rule_of q = "line" /\ at_points q [p]
  | SPixel p => rule_of q = "pixel" /\ at_points q [p]
  | SArc p r a b => at_points q [p] /\ angles q [a; b] /\
      (rule_of q = "arc" /\ radii q [r] \/ rule_of q = "arc_ellipse" /\ exists r', radii q [r; r'] /\ circular r r')
  | SEllipticArc p x y a b => rule_of q = "arc_ellipse" /\ at_points q [p] /\ radii q [x; y] /\ angles q [a; b] /\ ~ circular x y
  | SFilledArc p r a b => at_points q [p] /\
      (rule_of q = "fillarc" /\ radii q [r] /\ angles q [a; b] \/
       rule_of q = "fillarc_ellipse" /\ (exists r', radii q [r; r'] /\ circular r r') /\ angles q [a; b] \/
       rule_of q = "ellipse_circle" /\ radii q [r] /\ a = 0%Z /\ b = 0%Z)
  | SFilledEllipticArc p x y a b => at_points q [p] /\ radii q [x; y] /\
      (rule_of q = "fillarc_ellipse" /\ angles q [a; b] /\ ~ circular x y \/ rule_of q = "ellipse" /\ a = 0%Z /\ b = 0%Z)
  | SPolygon l => rule_of q = "polygon" /\ at_points q l \/
      rule_of q = "fillrect" /\ exists x1 y1 x2 y2, at_points q [(x1, y1); (x2, y2)] /\ l = [(x1, y1); (x2, y1); (x2, y2); (x1, y2)]
  end.
(** the angles fit into 64 bits *)
Definition rule_fits (q : tree) : Prop := Forall (fun s => exists n, parse_i64 s = Some n) (texts "integer" q).
(** the rules of a symbol: everything but its name *)
Definition symbol_rules (p : tree) : list tree := tl (kids_of p).
