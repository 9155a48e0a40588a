(** Specification of maps filled from the pairs of a text: the last pair with a key counts. *)
From Verif Require Import Base Peg.
Local Open Scope list_scope.

(** the last of the pairs with a key *)
Definition last_keyed {K} (key : tree -> K -> Prop) (ps : list tree) (id : K) (p : tree) : Prop :=
  exists before after, ps = before ++ p :: after /\ key p id /\ Forall (fun q => ~ key q id) after.
(** a map holds for every key what the last of the pairs with the key says *)
Definition holds {K V} `{EqDec K} (key : tree -> K -> Prop) (ps : list tree) (R : tree -> V -> Prop) (m : list (K * V)) : Prop :=
  forall id, match get id m with Some x => exists p, last_keyed key ps id p /\ R p x | None => Forall (fun q => ~ key q id) ps end.
