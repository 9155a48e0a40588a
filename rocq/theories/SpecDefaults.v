(** Specification vocabulary for C77: what a profile leaves unsaid.  The fields of the settings, colours and symbols are those of SpecSettings.v and SpecColours.v. *)
From Verif Require Import Base.
From Verif Require SymbologyParse Settings.

(** The symbology has no item of this name in this folder. *)
Definition unsaid (y : SymbologyParse.symbology) (folder name : string) : Prop :=
  forall i, ~ In ((s2t folder, s2t name), i) (SymbologyParse.sg_items y).
(** The symbology has no symbol of this type. *)
Definition undrawn (y : SymbologyParse.symbology) (t : Settings.symbol_type) : Prop := forall s, ~ In (t, s) (SymbologyParse.sg_symbols y).

Definition sector_keys : list (string * string) :=
  [("active_background", "active sector background"); ("inactive_background", "inactive sector background")]%string.
(** Two structs have the field [f], with the same value, or with different values. *)
Definition same_field {A} (f : string) (s t : list (string * A)) : Prop := exists c, get f s = Some c /\ get f t = Some c.
Definition other_field {A} (f : string) (s t : list (string * A)) : Prop := exists c d, get f s = Some c /\ get f t = Some d /\ c <> d.
