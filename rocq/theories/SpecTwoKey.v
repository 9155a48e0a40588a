(** Specification of the JSON form of maps with two keys (C73). *)
From Verif Require Import Base Json.
Local Open Scope string_scope.
Local Open Scope list_scope.

Definition no_colon (a : text) : Prop := ~ In 58%N a.
(** The name for two keys, with a colon between them *)
Definition joined (a b : text) : text := a ++ s2t ":" ++ b.
(** The object [j] shows the map [m]: no name occurs twice, every entry of the map is the member with its joined keys, and
    every member is such an entry.  The first key is what stands before the first colon. *)
Definition shows {V} (write : V -> json) (m : list ((text * text) * V)) (j : json) : Prop :=
  exists l, j = JObj l /\ NoDup (map fst l) /\
    (forall a b v, get (a, b) m = Some v -> no_colon a /\ In (joined a b, write v) l) /\
    (forall n x, In (n, x) l -> exists a b v, no_colon a /\ n = joined a b /\ get (a, b) m = Some v /\ x = write v).
