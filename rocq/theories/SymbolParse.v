(** Model of the symbol rules: the two copies of [parse_symbol_rules] in src/symbology.rs and src/topsky/symbol.rs. *)
From Verif Require Import Base Num Float FloatParse Settings Peg Grammars Trees.
Local Open Scope string_scope.
Local Open Scope list_scope.

(** symbology.rs:145-150, topsky/mod.rs:220-225 [parse_point] *)
Definition parse_point (pair : tree) : outcome point :=
  do (p, rest) <- next (kids_of pair); do x <- unwrap (parse_f64 (text_of p));
  do (p, _) <- next rest; do y <- unwrap (parse_f64 (text_of p));
  Ret (x, y).
(** symbology.rs:174, 191 and so on: [(radius_x - radius_y).abs() < f64::EPSILON]; the constant is 2^-52 *)
Definition epsilon : f64 := S754_finite false 4503599627370496 (-104).
Definition same_radius (x y : f64) : bool := SFltb (SFabs (fsub x y)) epsilon.
(** symbology.rs:168-169 and so on: [parse::<i64>().unwrap() % 360] *)
Definition parse_angle (s : text) : outcome Z := do n <- unwrap (parse_i64 s); Ret (Z.rem n 360).
(** symbology.rs:157-236, topsky/symbol.rs:20-98: the closure *)
Definition parse_symbol_rule (pair : tree) : outcome Settings.symbol_rule :=
  let is := is_rule pair in let rule := kids_of pair in
  if is "moveto" then do (p, _) <- next rule; do p <- parse_point p; Ret (SMove p)
  else if is "line" then do (p, _) <- next rule; do p <- parse_point p; Ret (SLine p)
  else if is "pixel" then do (p, _) <- next rule; do p <- parse_point p; Ret (SPixel p)
  else if is "arc" then
    do (p, rule) <- next rule; do pos <- parse_point p;
    do (p, rule) <- next rule; do radius <- unwrap (parse_f64 (text_of p));
    do (p, rule) <- next rule; do start_angle <- parse_angle (text_of p);
    do (p, _) <- next rule; do end_angle <- parse_angle (text_of p);
    Ret (SArc pos radius start_angle end_angle)
  else if is "arc_ellipse" then
    do (p, rule) <- next rule; do pos <- parse_point p;
    do (p, rule) <- next rule; do radius_x <- unwrap (parse_f64 (text_of p));
    do (p, rule) <- next rule; do radius_y <- unwrap (parse_f64 (text_of p));
    do (p, rule) <- next rule; do start_angle <- parse_angle (text_of p);
    do (p, _) <- next rule; do end_angle <- parse_angle (text_of p);
    Ret (if same_radius radius_x radius_y then SArc pos radius_x start_angle end_angle else SEllipticArc pos radius_x radius_y start_angle end_angle)
  else if is "fillarc" then
    do (p, rule) <- next rule; do pos <- parse_point p;
    do (p, rule) <- next rule; do radius <- unwrap (parse_f64 (text_of p));
    do (p, rule) <- next rule; do start_angle <- parse_angle (text_of p);
    do (p, _) <- next rule; do end_angle <- parse_angle (text_of p);
    Ret (SFilledArc pos radius start_angle end_angle)
  else if is "fillarc_ellipse" then
    do (p, rule) <- next rule; do pos <- parse_point p;
    do (p, rule) <- next rule; do radius_x <- unwrap (parse_f64 (text_of p));
    do (p, rule) <- next rule; do radius_y <- unwrap (parse_f64 (text_of p));
    do (p, rule) <- next rule; do start_angle <- parse_angle (text_of p);
    do (p, _) <- next rule; do end_angle <- parse_angle (text_of p);
    Ret (if same_radius radius_x radius_y then SFilledArc pos radius_x start_angle end_angle else SFilledEllipticArc pos radius_x radius_y start_angle end_angle)
  else if is "ellipse_circle" then
    do (p, rule) <- next rule; do pos <- parse_point p;
    do (p, _) <- next rule; do radius <- unwrap (parse_f64 (text_of p));
    Ret (SFilledArc pos radius 0 0)
  else if is "ellipse" then
    do (p, rule) <- next rule; do pos <- parse_point p;
    do (p, rule) <- next rule; do radius_x <- unwrap (parse_f64 (text_of p));
    do (p, _) <- next rule; do radius_y <- unwrap (parse_f64 (text_of p));
    Ret (SFilledEllipticArc pos radius_x radius_y 0 0)
  else if is "fillrect" then
    do (p, rule) <- next rule; do a <- parse_point p;
    do (p, _) <- next rule; do b <- parse_point p;
    let '(x1, y1) := a in let '(x2, y2) := b in
    Ret (SPolygon [(x1, y1); (x2, y1); (x2, y2); (x1, y2)])
  else if is "polygon" then do l <- omap parse_point rule; Ret (SPolygon l)
  else Panic.
