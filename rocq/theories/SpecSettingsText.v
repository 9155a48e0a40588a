(** Specification of the text of TopSky settings files (C84): how settings and sections are written. *)
From Verif Require Import Base Num Colours SpecText SpecFields.
Local Open Scope string_scope.
Local Open Scope list_scope.

(** letters, digits, _ and /, but no remark *)
Definition named (w : text) : Prop :=
  w <> [] /\ Forall (fun c => is_alnum c = true \/ In c (s2t "_/")) w /\ forall v, w <> s2t "//" ++ v.
(** a value ends where a remark begins *)
Definition value (w : text) : Prop := in_line w /\ trimmed w /\ Forall (fun c => c <> 59%N) w /\ forall a b, w <> a ++ s2t "//" ++ b.

(** Color_Name=12,34,56 and Color_Name and Name=Value *)
Inductive entry := Coloured (n r g b : text) | Uncoloured (n : text) | Valued (n v : text).
Definition entry_text (e : entry) : text :=
  match e with
  | Coloured n r g b => s2t "Color_" ++ n ++ s2t "=" ++ r ++ s2t "," ++ g ++ s2t "," ++ b
  | Uncoloured n => s2t "Color_" ++ n
  | Valued n v => n ++ s2t "=" ++ v
  end.
Definition well_written (e : entry) : Prop :=
  match e with
  | Coloured n r g b => named n /\ digits r /\ digits g /\ digits b
  | Uncoloured n => named n
  | Valued n v => named n /\ (forall u, n <> s2t "Color_" ++ u) /\ value v
  end.
(** sections: [Name] or {Name}, then settings *)
Inductive section := Section_ (square : bool) (n : text) (l : list entry).
Definition section_lines (s : section) : list text :=
  match s with Section_ q n l => (if q then s2t "[" ++ n ++ s2t "]" else s2t "{" ++ n ++ s2t "}") :: map entry_text l end.
Definition section_written (s : section) : Prop := match s with Section_ _ n l => named n /\ Forall well_written l end.
Definition settings_lines (es : list entry) (ss : list section) : list text := map entry_text es ++ flat_map section_lines ss.

(** After the content of a line there may be a remark, but not without a blank before it.  The last line need not end. *)
Definition marks : list text := [s2t ";"; s2t "//"].
Definition trailing (b : text) : Prop := idle is_blank marks b /\ forall c v, b = c :: v -> is_blank c = true.
Inductive follows : list text -> text -> Prop :=
| follows_eof b : trailing b -> follows [] b
| follows_end b nl k b' : trailing b -> eol nl -> idles is_blank marks k -> idle is_blank marks b' -> follows [] (b ++ nl ++ k ++ b')
| follows_line b nl k b' l ls t : trailing b -> eol nl -> idles is_blank marks k -> blanks b' -> follows ls t -> follows (l :: ls) (b ++ nl ++ k ++ b' ++ l ++ t).
(** The first line may come first; if not, the line before it must not be empty (C84_first_line_refuted). *)
Inductive settings_layout : list text -> text -> Prop :=
| nothing k b : idles is_blank marks k -> idle is_blank marks b -> settings_layout [] (k ++ b)
| begins_at_once l ls t : follows ls t -> settings_layout (l :: ls) (l ++ t)
| begins_later v nl k b l ls t : idle is_blank marks v -> v <> [] -> eol nl -> idles is_blank marks k -> blanks b -> follows ls t ->
    settings_layout (l :: ls) (v ++ nl ++ k ++ b ++ l ++ t).

(** what the settings say, in order; a colour with a part above 255 is not one *)
Definition colour_said (e : entry) : option (text * (text * colour)) :=
  match e with
  | Coloured n r g b => match parse_u8 r, parse_u8 g, parse_u8 b with Some r, Some g, Some b => Some (n, (n, mkColour r g b 255)) | _, _, _ => None end
  | _ => None
  end.
Definition value_said (e : entry) : option (text * text) := match e with Valued n v => Some (n, v) | _ => None end.
Definition said {A} (f : entry -> option A) (es : list entry) : list A := flat_map (fun e => match f e with Some x => [x] | None => [] end) es.
Definition colours_said (es : list entry) := said colour_said es.
Definition values_said (es : list entry) := said value_said es.
