(** Model of src/airway.rs, after [read_to_string] (Decode.v). *)
From Verif Require Import Base Num Float FloatParse Peg Grammars Trees Airways.
Local Open Scope string_scope.
Local Open Scope list_scope.

(** airway.rs:26-31 [parse_coord] *)
Definition airway_coord (pair : tree) : outcome point :=
  let coord := kids_of pair in
  do (a, coord) <- next coord; do lat <- unwrap (parse_f64 (text_of a));
  do (b, _) <- next coord; do lng <- unwrap (parse_f64 (text_of b));
  Ret (lng, lat).
(** airway.rs:33-39 [parse_level] *)
Definition airway_level (pair : tree) : outcome (option N) :=
  if is_rule pair "not_established" then Ret None
  else if is_rule pair "level" then do n <- unwrap (parse_u32 (text_of pair)); Ret (Some n)
  else Panic.
(** airway.rs:41-64 [AirwayFix::parse] *)
Definition airway_fix_parse (pair : tree) : outcome (option airway_fix) :=
  if is_rule pair "no_neighbour" then Ret None
  else if is_rule pair "neighbour" then
    let airway_fix := kids_of pair in
    do (p, airway_fix) <- next airway_fix; let designator := text_of p in
    do (p, airway_fix) <- next airway_fix; do coordinate <- airway_coord p;
    do (p, airway_fix) <- next airway_fix; do minimum_level <- airway_level p;
    do (p, airway_fix) <- next airway_fix;
    Ret (Some (mkAfix designator coordinate (eqb (text_of p) (s2t "Y")) minimum_level))
  else Panic.
(** airway.rs:66-76 [AirwayType::parse] *)
Definition airway_type_parse (pair : tree) : outcome airway_type :=
  let s := text_of pair in
  if eqb s (s2t "H") then Ret AHigh
  else if eqb s (s2t "L") then Ret ALow
  else if eqb s (s2t "B") then Ret ABoth
  else if eqb s (s2t "") then Ret AUnknown
  else Panic.
(** airway.rs:103-113: the two neighbours *)
Fixpoint airway_segments (n : nat) (acc : graph) (airway fix_name : text) (fix_ : point) (ty : airway_type) (airway_line : list tree) : outcome graph :=
  match n with
  | O => Ret acc
  | S n =>
    do (p, airway_line) <- next airway_line;
    do segment <- airway_fix_parse p;
    match segment with
    | Some segment => do acc <- unwrap (insert_segment acc airway fix_name fix_ segment ty); airway_segments n acc airway fix_name fix_ ty airway_line
    | None => airway_segments n acc airway fix_name fix_ ty airway_line
    end
  end.
(** airway.rs:91-116: one pair *)
Definition airway_pair (acc : graph) (pair : tree) : outcome graph :=
  if is_rule pair "airway" then
    let airway_line := kids_of pair in
    do (p, airway_line) <- next airway_line; let fix_name := text_of p in
    do (p, airway_line) <- next airway_line; do fix_ <- airway_coord p;
    do (p, airway_line) <- next airway_line; let airway := text_of p in
    do (p, airway_line) <- next airway_line; do ty <- airway_type_parse p;
    airway_segments 2 acc airway fix_name fix_ ty airway_line
  else Ret acc.
(** airway.rs:80-119 [parse_airway_txt] *)
Definition parse_airway_txt (t : text) : outcome graph :=
  do kids <- top airway_grammar "airways" t;
  ofold airway_pair kids empty_graph.
