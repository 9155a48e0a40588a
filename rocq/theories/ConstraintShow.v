(** Model of the text of a coordination point (src/ese.rs). *)
From Verif Require Import Base Num Constraints SctWrite.
Local Open Scope string_scope.
Local Open Scope list_scope.

(** ese.rs:283-307 [Display for Constraint]: [{:<w}] fills up with spaces to [w] characters *)
Definition show_constraint (c : constraint) : text :=
  let fix_ := match c_fix c with Some f => f | None => s2t "*" end in
  pad_right 8 fix_ ++ [32%N] ++ pad_right 30 (c_exit c) ++ [32%N; 8594%N; 32%N] ++ pad_right 30 (c_entry c) ++
  match c_climb c with Some cl => s2t "  FL" ++ fmt_uint 10 (cl / 100) | None => [] end ++
  match c_descent c with Some dl => s2t "  FL" ++ fmt_uint 10 (dl / 100) | None => [] end ++
  match (match c_dep c with Some r => Some r | None => c_arr c end) with Some rwy => s2t "  [" ++ rwy ++ s2t "]" | None => [] end.
