(** Specification of isec.txt files, line by line (C43). *)
From Verif Require Import Base SpecText.

Record entry := mkEntry { e_des : text; e_lat : text; e_lng : text }.
Definition name_char (c : N) : bool := is_upper c || is_digit c.
Definition name (s : text) : Prop := s <> [] /\ Forall (fun c => name_char c = true) s.

(** designator, latitude, longitude and the number 15; the fields are separated by blanks, which may be missing
    before a minus sign *)
Definition separated (b s : text) : Prop := blanks b /\ (b <> [] \/ exists s', s = s2t "-" ++ s').
Inductive entry_line : text -> entry -> Prop :=
| entry_intro b0 d b1 lat b2 lng b3 tail :
    blanks b0 -> name d -> separated b1 lat -> decimal lat -> separated b2 lng -> decimal lng ->
    blanks b3 -> b3 <> [] -> void_line tail ->
    entry_line (b0 ++ d ++ b1 ++ lat ++ b2 ++ lng ++ b3 ++ s2t "15" ++ tail) (mkEntry d lat lng).

(** Every line is an entry or has at most a comment; the last line is not an entry unless it is ended. *)
Inductive isec_file : text -> list entry -> Prop :=
| file_end c : void_line c -> isec_file c []
| file_void c nl r es : void_line c -> line_end nl -> isec_file r es -> isec_file (c ++ nl ++ r) es
| file_entry c nl r e es : entry_line c e -> line_end nl -> isec_file r es -> isec_file (c ++ nl ++ r) (e :: es).

(** The fix of an entry: its name and its coordinates, read as numbers *)
From Verif Require Import Float FloatParse Locations.
Definition entry_fix (e : entry) (f : fix_) : Prop :=
  f_des f = e_des e /\ parse_f64 (e_lat e) = Some (py (f_pos f)) /\ parse_f64 (e_lng e) = Some (px (f_pos f)).
Definition named (d : text) (e : entry) : bool := eqb (e_des e) d.
