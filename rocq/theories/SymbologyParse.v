(** Model of src/symbology.rs, after [read_to_string] (Decode.v).  Warnings are not modelled. *)
From Verif Require Import Base Num Float FloatParse Colours Settings Peg Grammars Trees SymbolParse.
Local Open Scope string_scope.
Local Open Scope list_scope.

(** symbology.rs:34-43 [Item] *)
Record sitem := mkSItem {
  si_folder : text; si_name : text; si_colour : colour; si_size : f32; si_style : text; si_weight : Z; si_align : alignment }.
(** symbology.rs:45-54 [parse_linestyle] *)
Definition parse_linestyle (pair : tree) : outcome text :=
  do n <- unwrap (parse_u8 (text_of pair));
  match n with
  | 0 => Ret (s2t "SOLID") | 1 => Ret (s2t "DASH") | 2 => Ret (s2t "DOT") | 3 => Ret (s2t "DASHDOT") | 4 => Ret (s2t "DASHDOTDOT")
  | _ => Panic
  end%N.
(** symbology.rs:56-77 [parse_alignment] *)
Definition parse_alignment (pair : tree) : outcome alignment :=
  do n <- unwrap (parse_u8 (text_of pair));
  do horizontal <- match n with 0 | 1 | 2 => Ret HLeft | 6 | 7 | 8 => Ret HCenter | 12 | 13 | 14 => Ret HRight | _ => Panic end%N;
  do vertical <- match n with 0 | 6 | 12 => Ret VTop | 1 | 7 | 13 => Ret VCenter | 2 | 8 | 14 => Ret VBottom | _ => Panic end%N;
  Ret (horizontal, vertical).
(** symbology.rs:115-142 [Item::parse] *)
Definition parse_item (pair : tree) : outcome (option sitem) :=
  let item := kids_of pair in
  do (p, item) <- next item; let folder := text_of p in
  do (p, item) <- next item; let name := text_of p in
  do (p, item) <- next item; do colour_num <- unwrap (parse_i32 (text_of p));
  do (p, item) <- next item; do size <- unwrap (parse_f32 (text_of p));
  do (p, item) <- next item; do style <- parse_linestyle p;
  do (p, item) <- next item; do weight <- unwrap (parse_i32 (text_of p));
  do (p, _) <- next item; do align <- parse_alignment p;
  Ret (match Colours.from_euroscope colour_num with Some colour => Some (mkSItem folder name colour size style weight align) | None => None end).
(** symbology.rs:79-105: the symbol types in order, [FromPrimitive] *)
Definition symbol_types : list symbol_type :=
  [StAirport; StNDB; StVOR; StFix; StStandby; StPrimaryOnly; StCorrACSecondaryOnly; StCorrSSecondaryOnly; StCorrAC; StCorrS; StCorrACIdent; StCorrSIdent; StFlightPlanTrack;
   StCoasting; StHistoryDot; StGroundAircraft; StUncorrACSecondaryOnly; StUncorrSSecondaryOnly; StUncorrAC; StUncorrS; StUncorrACIdent; StUncorrSIdent; StGroundVehicle; StGroundRotorcraft].
Definition symbol_type_from (n : N) : option symbol_type := if (n <? 24)%N then nth_error symbol_types (N.to_nat n) else None.
(** symbology.rs:152-238 [parse_symbol_rules] *)
Definition parse_symbol_rules (pair : tree) : outcome (option (symbol_type * symbol)) :=
  do (p, rules) <- next (kids_of pair); do n <- unwrap (parse_u32 (text_of p));
  do rules <- omap parse_symbol_rule rules;
  Ret (match symbol_type_from n with Some ty => Some (ty, rules) | None => None end).
(** symbology.rs:107-111 [Symbology] *)
Record symbology := mkSymbology { sg_items : list ((text * text) * sitem); sg_symbols : list (symbol_type * symbol) }.
(** symbology.rs:245-265: the body of the fold *)
Definition symbology_step (acc : symbology) (pair : tree) : outcome symbology :=
  let '(mkSymbology items symbols) := acc in
  if is_rule pair "item" then
    do o <- parse_item pair;
    Ret (mkSymbology (match o with Some item => put (si_folder item, si_name item) item items | None => items end) symbols)
  else if is_rule pair "symbol" then
    do o <- parse_symbol_rules pair;
    Ret (mkSymbology items (match o with Some (ty, rules) => put ty rules symbols | None => symbols end))
  else if is_rule pair "header" || is_rule pair "footer" || is_rule pair "EOI" then Ret acc
  else Panic.
(** symbology.rs:240-273 [Symbology::parse] *)
Definition parse_symbology (t : text) : outcome symbology :=
  do kids <- top symbology_grammar "symbology" t;
  ofold symbology_step kids (mkSymbology [] []).
