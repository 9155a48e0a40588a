(** Specification of the text of a coordination point (C76). *)
From Verif Require Import Base Constraints.
Local Open Scope string_scope.
Local Open Scope list_scope.

(** The text of a column: the name, and spaces up to the width of the column *)
Definition column (w : nat) (name t : text) : Prop := List.length t = w /\ exists n, t = name ++ repeat 32%N n.
(** A name that fits into a column and does not end with a space *)
Definition fits (w : nat) (name : text) : Prop := (List.length name <= w)%nat /\ forall l, name <> l ++ [32%N].
Definition fix_shown (c : constraint) : text := match c_fix c with Some f => f | None => [42%N] end.
Definition neat (c : constraint) : Prop := fits 8 (fix_shown c) /\ fits 30 (c_exit c) /\ fits 30 (c_entry c).
(** The levels that are there, in hundreds of feet: first the one for climbing *)
Definition flight_levels (c : constraint) : list N :=
  map (fun l => l / 100)%N (match c_climb c with Some l => [l] | None => [] end ++ match c_descent c with Some l => [l] | None => [] end).
(** The runway of the departure, or else that of the arrival *)
Definition runway_shown (c : constraint) : option text := match c_dep c, c_arr c with Some r, _ => Some r | None, o => o end.
