(** Specification of squawks.json (C75).  Of the model only the types of the data and the JSON values are used. *)
From Verif Require Import Base Colours SpecColours Json SpecJson Squawks.
Local Open Scope string_scope.
Local Open Scope list_scope.

(** What a value says about something *)
Definition says_text (t : text) (j : json) : Prop := j = JStr t.
(** #rrggbb, an opaque colour *)
Definition says_colour (c : colour) (j : json) : Prop :=
  exists r1 r2 g1 g2 b1 b2 v1 v2 v3 v4 v5 v6,
    j = JStr [35%N; r1; r2; g1; g2; b1; b2] /\
    hex_digit r1 v1 /\ hex_digit r2 v2 /\ hex_digit g1 v3 /\ hex_digit g2 v4 /\ hex_digit b1 v5 /\ hex_digit b2 v6 /\
    c = mkColour (16 * v1 + v2) (16 * v3 + v4) (16 * v5 + v6) 255.
(** null, or a value *)
Definition says_option {A} (R : A -> json -> Prop) (o : option A) (j : json) : Prop :=
  match o with Some a => j <> JNull /\ R a j | None => j = JNull end.
Definition says_list {A} (R : A -> json -> Prop) (l : list A) (j : json) : Prop := exists js, j = JArr js /\ Forall2 R l js.
(** The object [o] has one member with this name, and it says [a] *)
Definition member {A} (k : string) (R : A -> json -> Prop) (a : A) (o : list (text * json)) : Prop := exists v, once k v o /\ R a v.
(** The same, where an absent member is None *)
Definition member_option {A} (k : string) (R : A -> json -> Prop) (a : option A) (o : list (text * json)) : Prop :=
  (exists v, once k v o /\ says_option R a v) \/ (~ In (s2t k) (map fst o) /\ a = None).

(** Structs are objects with their members by name (other members are ignored), or arrays with the members in order *)
Definition says_range (r : code_range) (j : json) : Prop :=
  (exists o, j = JObj o /\ member "start" says_text (rg_start r) o /\ member "end" says_text (rg_end r) o) \/
  (exists v w, j = JArr [v; w] /\ says_text (rg_start r) v /\ says_text (rg_end r) w).
Definition says_def (d : squawk_def) (j : json) : Prop :=
  (exists o, j = JObj o /\ member_option "code" says_text (sd_code d) o /\ member_option "range" says_range (sd_range d) o /\
     member "message" says_text (sd_message d) o /\ member "color" says_colour (sd_colour d) o) \/
  (exists v1 v2 v3 v4, j = JArr [v1; v2; v3; v4] /\ says_option says_text (sd_code d) v1 /\ says_option says_range (sd_range d) v2 /\
     says_text (sd_message d) v3 /\ says_colour (sd_colour d) v4).
Definition says_squawks (s : squawks) (j : json) : Prop :=
  (exists o, j = JObj o /\ member "NonDiscreteColor" says_colour (sq_colour s) o /\ member "NonDiscreteMessage" says_text (sq_message s) o /\
     member "NonDiscrete" (says_list says_text) (sq_codes s) o /\ member "Squawks" (says_list says_def) (sq_defs s) o) \/
  (exists v1 v2 v3 v4, j = JArr [v1; v2; v3; v4] /\ says_colour (sq_colour s) v1 /\ says_text (sq_message s) v2 /\
     says_list says_text (sq_codes s) v3 /\ says_list says_def (sq_defs s) v4).
