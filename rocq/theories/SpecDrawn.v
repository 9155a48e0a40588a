(** Specification of written symbol rules (C80): a word and numbers, with : or a space before each number. *)
From Verif Require Import Base Num Float FloatParse Settings SpecText SpecFields SpecSymbol.
Local Open Scope string_scope.
Local Open Scope list_scope.

Definition reads_num (s : text) (x : f64) : Prop := numeral s /\ reads_f64 s x.
Definition reads_turn (s : text) (a : Z) : Prop := whole s /\ reads_angle s a.
Definition reads_pt (x y : text) (p : point) : Prop := reads_num x (fst p) /\ reads_num y (snd p).
Inductive reads_pts : list text -> list point -> Prop :=
| pts_one x y p : reads_pt x y p -> reads_pts [x; y] [p]
| pts_more x y p l ps : reads_pt x y p -> reads_pts l ps -> reads_pts (x :: y :: l) (p :: ps).
(** what a word and its numbers stand for *)
Inductive draws : string -> list text -> Settings.symbol_rule -> Prop :=
| draws_move x y p : reads_pt x y p -> draws "MOVETO" [x; y] (SMove p)
| draws_line x y p : reads_pt x y p -> draws "LINETO" [x; y] (SLine p)
| draws_pixel x y p : reads_pt x y p -> draws "SETPIXEL" [x; y] (SPixel p)
| draws_arc x y p r v a b m n : reads_pt x y p -> reads_num r v -> reads_turn a m -> reads_turn b n -> draws "ARC" [x; y; r; a; b] (SArc p v m n)
| draws_round_arc x y p r v s w a b m n : reads_pt x y p -> reads_num r v -> reads_num s w -> reads_turn a m -> reads_turn b n -> circular v w ->
    draws "ARC" [x; y; r; s; a; b] (SArc p v m n)
| draws_elliptic_arc x y p r v s w a b m n : reads_pt x y p -> reads_num r v -> reads_num s w -> reads_turn a m -> reads_turn b n -> ~ circular v w ->
    draws "ARC" [x; y; r; s; a; b] (SEllipticArc p v w m n)
| draws_fillarc x y p r v a b m n : reads_pt x y p -> reads_num r v -> reads_turn a m -> reads_turn b n -> draws "FILLARC" [x; y; r; a; b] (SFilledArc p v m n)
| draws_round_fillarc x y p r v s w a b m n : reads_pt x y p -> reads_num r v -> reads_num s w -> reads_turn a m -> reads_turn b n -> circular v w ->
    draws "FILLARC" [x; y; r; s; a; b] (SFilledArc p v m n)
| draws_elliptic_fillarc x y p r v s w a b m n : reads_pt x y p -> reads_num r v -> reads_num s w -> reads_turn a m -> reads_turn b n -> ~ circular v w ->
    draws "FILLARC" [x; y; r; s; a; b] (SFilledEllipticArc p v w m n)
| draws_circle x y p r v : reads_pt x y p -> reads_num r v -> draws "ELLIPSE" [x; y; r] (SFilledArc p v 0 0)
| draws_ellipse x y p r v s w : reads_pt x y p -> reads_num r v -> reads_num s w -> draws "ELLIPSE" [x; y; r; s] (SFilledEllipticArc p v w 0 0)
| draws_polygon l ps : reads_pts l ps -> draws "POLYGON" l (SPolygon ps)
| draws_rect x y p x' y' p' : reads_pt x y p -> reads_pt x' y' p' ->
    draws "FILLRECT" [x; y; x'; y'] (SPolygon [(fst p, snd p); (fst p', snd p); (fst p', snd p'); (fst p, snd p')]).

(** a rule as it is written *)
Record drawn := mkDrawn { dr_word : string; dr_numbers : list (text * text) }.
Definition delimiter (d : text) : Prop := d = s2t ":" \/ d = s2t " ".
Definition drawn_text (d : drawn) : text := s2t (dr_word d) ++ List.concat (map (fun '(d, n) => d ++ n) (dr_numbers d)).
Definition reads_drawn (d : drawn) (r : Settings.symbol_rule) : Prop :=
  Forall (fun '(d, _) => delimiter d) (dr_numbers d) /\ draws (dr_word d) (map snd (dr_numbers d)) r.
