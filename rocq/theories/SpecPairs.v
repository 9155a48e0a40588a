(** Specification vocabulary for files read through a grammar: the pairs of a text (SpecPeg.v says what a match is). *)
From Verif Require Import Base Peg SpecPeg Trees.

(** [t] is a text of the format, and [kids] are the pairs inside the pair of the start rule *)
Definition parsed (g : grammar) (start : string) (t : text) (kids : list tree) : Prop :=
  exists k, matches g NonAtomic (Call start) true t [] (Some (t, [], k, [T start t kids])).
(** [t] is not a text of the format *)
Definition unparsed (g : grammar) (start : string) (t : text) : Prop := matches g NonAtomic (Call start) true t [] None.

(** the pairs of a rule, in order *)
Fixpoint of_rule (n : string) (ts : list tree) : list tree :=
  match ts with
  | [] => []
  | t :: ts => if string_dec (rule_of t) n then t :: of_rule n ts else of_rule n ts
  end.
(** the texts of the pairs of rule [n] inside [p] *)
Definition texts (n : string) (p : tree) : list text := map text_of (of_rule n (kids_of p)).
(** the text of the only pair of rule [n] inside [p] *)
Definition field (n : string) (p : tree) (s : text) : Prop := texts n p = [s].
(** [q] is one of the pairs [ts] or lies inside one of them *)
Inductive inside (q : tree) : list tree -> Prop :=
| inside_here ts : In q ts -> inside q ts
| inside_deep t ts : In t ts -> inside q (kids_of t) -> inside q ts.
