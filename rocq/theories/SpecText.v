(** Specification vocabulary for text files: lines, blanks, comments, decimals. *)
From Verif Require Import Base.
Local Open Scope N_scope.

Definition is_blank (c : N) : bool := (c =? 32) || (c =? 9).
Definition blanks (s : text) : Prop := Forall (fun c => is_blank c = true) s.
Definition in_line (s : text) : Prop := Forall (fun c => c <> 10 /\ c <> 13) s.
Inductive line_end : text -> Prop := end_lf : line_end [10] | end_crlf : line_end [13; 10] | end_cr : line_end [13].
(** the rest of a line is a comment after ; or // *)
Inductive void_line : text -> Prop :=
| void_blank b : blanks b -> void_line b
| void_semi b s : blanks b -> in_line s -> void_line (b ++ s2t ";" ++ s)
| void_slashes b s : blanks b -> in_line s -> void_line (b ++ s2t "//" ++ s).

Definition digits (s : text) : Prop := s <> [] /\ Forall (fun c => is_digit c = true) s.
(** 12.5 or -12.5, with at least one digit on both sides of the point *)
Inductive decimal : text -> Prop :=
| decimal_pos a b : digits a -> digits b -> decimal (a ++ s2t "." ++ b)
| decimal_neg a b : digits a -> digits b -> decimal (s2t "-" ++ a ++ s2t "." ++ b).
(** 12, 12.5 or .5, with an optional sign *)
Inductive unsigned_numeral : text -> Prop :=
| numeral_int a : digits a -> unsigned_numeral a
| numeral_point a b : Forall (fun c => is_digit c = true) a -> digits b -> unsigned_numeral (a ++ s2t "." ++ b).
Definition numeral (s : text) : Prop := exists sg u, s = sg ++ u /\ (sg = [] \/ sg = s2t "-" \/ sg = s2t "+") /\ unsigned_numeral u.
