(** Specification vocabulary for constraints (C27). *)
From Verif Require Import Base Constraints.

Definition departure (c : constraint) : Prop := c_climb c <> None.
Definition destination (c : constraint) : Prop := c_climb c = None /\ c_descent c <> None.

(** The seven fields that make up the key, '*' for absent ones *)
Definition star (o : option text) : text := match o with Some s => s | None => [42%N] end.
Definition key_fields (c : constraint) : list text :=
  [star (c_prev c); star (c_dep c); star (c_next c); star (c_arr c); star (c_fix c); c_exit c; c_entry c].
Fixpoint joined (sep : N) (l : list text) : text :=
  match l with
  | [] => []
  | [x] => x
  | x :: l => x ++ [sep] ++ joined sep l
  end.
Definition key_text (c : constraint) : text := joined 35%N (key_fields c).
Definition no_hash (c : constraint) : Prop := Forall (fun f => ~ In 35%N f) (key_fields c).

(** [c] is the last element of [l] that satisfies [P] and has key [k]. *)
Definition last_with (P : constraint -> Prop) (k : text) (l : list constraint) (c : constraint) : Prop :=
  exists pre post, l = pre ++ c :: post /\ P c /\ key_text c = k /\
    forall c', In c' post -> P c' -> key_text c' <> k.
