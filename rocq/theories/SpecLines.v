(** Specification vocabulary for merged lines (C06, C07). *)
From Verif Require Import Base Float Colours Locations SctData.

(** The same place: the same fix name or equal coordinates *)
Definition same_place (a b : location) : Prop :=
  match a, b with
  | LFix d, LFix d' => d = d'
  | LCoord p, LCoord p' => SFeqb (fst p) (fst p') = true /\ SFeqb (snd p) (snd p') = true
  | _, _ => False
  end.
(** A location and the one drawn for it *)
Definition stands_for (a b : location) : Prop := a = b \/ same_place a b.
Definition stands_for_segment (a b : location * location) : Prop := stands_for (fst a) (fst b) /\ snd a = snd b.

(** The segments a line draws *)
Fixpoint segments (l : list location) : list (location * location) :=
  match l with
  | [] => []
  | [_] => []
  | p :: (p' :: _) as r => (p, p') :: segments r
  end.

(** [out] is [l] without the entries that go nowhere. *)
Inductive proper : list (location * location) -> list (location * location) -> Prop :=
| pr_nil : proper [] []
| pr_drop s e l out : same_place s e -> proper l out -> proper ((s, e) :: l) out
| pr_keep s e l out : ~ same_place s e -> proper l out -> proper ((s, e) :: l) ((s, e) :: out).
Inductive proper_entries : list (location * location * option text) -> list (location * location * option text) -> Prop :=
| pe_nil : proper_entries [] []
| pe_drop s e c l out : same_place s e -> proper_entries l out -> proper_entries ((s, e, c) :: l) out
| pe_keep s e c l out : ~ same_place s e -> proper_entries l out -> proper_entries ((s, e, c) :: l) ((s, e, c) :: out).

Definition drawn_segments (lines : list (list location)) : list (location * location) := flat_map segments lines.
Definition drawn_entries (gs : list line_group) : list (location * location * option text) :=
  flat_map (fun g => map (fun s => (s, lg_colour g)) (drawn_segments (lg_lines g))) gs.
Definition stands_for_entry (a b : location * location * option text) : Prop :=
  stands_for_segment (fst a) (fst b) /\ snd a = snd b.

(** Consecutive items are related. *)
Definition chained {A} (R : A -> A -> Prop) (l : list A) : Prop := forall a x y b, l = a ++ x :: y :: b -> R x y.
(** No line could be continued by the next one. *)
Definition gap (l l' : list location) : Prop :=
  forall a x y b, l = a ++ [x] -> l' = y :: b -> ~ same_place x y.
(** A place is on a line. *)
Definition on_line (p : location) (lines : list (list location)) : Prop :=
  exists l q, In l lines /\ In q l /\ stands_for q p.
