(** Specification of the text of symbology files (C80). *)
From Verif Require Import Base Num Float FloatParse Colours SpecColours Settings SpecText SpecFields SymbologyParse SpecSymbology SpecSymbol SpecDrawn.
Local Open Scope string_scope.
Local Open Scope list_scope.

Definition symbology_space (c : N) : bool := is_blank c.
(** folder:name:colour:size:line style:line weight:alignment *)
Record item_line := mkItemLine { il_folder : text; il_name : text; il_colour : text; il_size : text; il_style : text; il_weight : text; il_align : text }.
Definition item_text (i : item_line) : text :=
  il_folder i ++ s2t ":" ++ il_name i ++ s2t ":" ++ il_colour i ++ s2t ":" ++ il_size i ++ s2t ":" ++ il_style i ++ s2t ":" ++ il_weight i ++ s2t ":" ++ il_align i.
(** what an item stands for; without a colour it does not count *)
Definition reads_item_line (i : item_line) (o : list ((text * text) * sitem)) : Prop :=
  SpecFields.field 58 (il_folder i) /\ SpecFields.field 58 (il_name i) /\ whole (il_colour i) /\ numeral (il_size i) /\ whole (il_weight i) /\
  exists n size style weight align,
    parse_i32 (il_colour i) = Some n /\ parse_f32 (il_size i) = Some size /\ In (il_style i, style) line_style_names /\
    parse_i32 (il_weight i) = Some weight /\ In (il_align i, align) alignments /\
    ((exists r g b, (r < 256 /\ g < 256 /\ b < 256)%N /\ n = Z.of_N (r + 256 * g + 65536 * b) /\
        o = [((il_folder i, il_name i), mkSItem (il_folder i) (il_name i) (mkColour r g b 255) size style weight align)]) \/
     ~ (0 <= n < 256 * 256 * 256)%Z /\ o = []).
(** a symbol has a number and rules, each in its line *)
Record symbol_lines := mkSymbolLines { sl_number : text; sl_rules : list drawn }.
Definition symbol_text (s : symbol_lines) : list text := (s2t "SYMBOL:" ++ sl_number s) :: map (fun d => s2t "SYMBOLITEM:" ++ drawn_text d) (sl_rules s).
(** what it stands for; a number without a type does not count *)
Definition reads_symbol_lines (s : symbol_lines) (o : list (symbol_type * symbol)) : Prop :=
  whole (sl_number s) /\ sl_rules s <> [] /\
  exists n rules, parse_u32 (sl_number s) = Some n /\ Forall2 reads_drawn (sl_rules s) rules /\
    ((exists ty, type_number ty = n /\ o = [(ty, rules)]) \/ (forall ty, type_number ty <> n) /\ o = []).
Definition symbology_lines (items : list item_line) (symbols : list symbol_lines) (clip : text) : list text :=
  [s2t "SYMBOLOGY"; s2t "SYMBOLSIZE"] ++ map item_text items ++ flat_map symbol_text symbols ++ [s2t "m_ClipArea:" ++ clip; s2t "END"].
(** the last of the entries with a key *)
Definition last_counts {K A} `{EqDec K} (defs m : list (K * A)) : Prop := forall k, get k m = get k (rev defs).
