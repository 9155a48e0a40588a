(** Specification of symbology files (C57, C47). *)
From Verif Require Import Base Num Float FloatParse Colours SpecColours Settings Peg SpecPeg Trees SpecPairs SpecKeyed SpecSymbol SymbologyParse.
Local Open Scope string_scope.
Local Open Scope list_scope.

(** the colour of an item: red, green and blue from the low end *)
Definition item_colour (p : tree) (c : colour) : Prop :=
  exists s u r g b, texts "integer" p = [s; u] /\ (r < 256 /\ g < 256 /\ b < 256)%N /\ parse_i32 s = Some (Z.of_N (r + 256 * g + 65536 * b)) /\ c = mkColour r g b 255.
(** an item that counts has a folder, a name and a colour *)
Definition names_item (p : tree) (k : text * text) : Prop := texts "colon_delimited_text" p = [fst k; snd k] /\ exists c, item_colour p c.
Definition line_style_names : list (text * text) :=
  [(s2t "0", s2t "SOLID"); (s2t "1", s2t "DASH"); (s2t "2", s2t "DOT"); (s2t "3", s2t "DASHDOT"); (s2t "4", s2t "DASHDOTDOT")].
Definition alignments : list (text * alignment) :=
  [(s2t "0", (HLeft, VTop)); (s2t "1", (HLeft, VCenter)); (s2t "2", (HLeft, VBottom));
   (s2t "6", (HCenter, VTop)); (s2t "7", (HCenter, VCenter)); (s2t "8", (HCenter, VBottom));
   (s2t "12", (HRight, VTop)); (s2t "13", (HRight, VCenter)); (s2t "14", (HRight, VBottom))].
Definition reads_item (p : tree) (x : sitem) : Prop :=
  texts "colon_delimited_text" p = [si_folder x; si_name x] /\ item_colour p (si_colour x) /\
  (exists s, field "decimal" p s /\ parse_f32 s = Some (si_size x)) /\
  (exists s, field "line_style" p s /\ In (s, si_style x) line_style_names) /\
  (exists u s, texts "integer" p = [u; s] /\ parse_i32 s = Some (si_weight x)) /\
  (exists s, field "alignment" p s /\ In (s, si_align x) alignments).
(** the symbol types and their numbers *)
Definition type_number (ty : symbol_type) : N :=
  match ty with
  | StAirport => 0 | StNDB => 1 | StVOR => 2 | StFix => 3 | StStandby => 4 | StPrimaryOnly => 5 | StCorrACSecondaryOnly => 6 | StCorrSSecondaryOnly => 7
  | StCorrAC => 8 | StCorrS => 9 | StCorrACIdent => 10 | StCorrSIdent => 11 | StFlightPlanTrack => 12 | StCoasting => 13 | StHistoryDot => 14 | StGroundAircraft => 15
  | StUncorrACSecondaryOnly => 16 | StUncorrSSecondaryOnly => 17 | StUncorrAC => 18 | StUncorrS => 19 | StUncorrACIdent => 20 | StUncorrSIdent => 21
  | StGroundVehicle => 22 | StGroundRotorcraft => 23
  end%N.
Definition names_type (p : tree) (ty : symbol_type) : Prop := exists s, field "integer" p s /\ parse_u32 s = Some (type_number ty).
Definition symbology_reads (kids : list tree) (s : symbology) : Prop :=
  holds names_item (of_rule "item" kids) reads_item (sg_items s) /\
  holds names_type (of_rule "symbol" kids) (fun p rules => Forall2 reads_rule (symbol_rules p) rules) (sg_symbols s).
Definition symbology_fits (kids : list tree) : Prop :=
  (forall p s, In p (of_rule "item" kids) -> In s (texts "integer" p) -> exists n, parse_i32 s = Some n) /\
  (forall p s, In p (of_rule "symbol" kids) -> In s (texts "integer" p) -> exists n, parse_u32 s = Some n) /\
  (forall p q, In p (of_rule "symbol" kids) -> In q (symbol_rules p) -> rule_fits q).
