(** Model of src/squawks.rs: squawks.json. *)
From Verif Require Import Base Colours Json.
Local Open Scope string_scope.
Local Open Scope list_scope.

(** squawks.rs:15-19 [Range] *)
Record code_range := mkRange { rg_start : text; rg_end : text }.
(** squawks.rs:21-27 [SquawkDef] *)
Record squawk_def := mkDef { sd_code : option text; sd_range : option code_range; sd_message : text; sd_colour : colour }.
(** squawks.rs:29-36 [SquawksJson] *)
Record squawks := mkSquawks { sq_colour : colour; sq_message : text; sq_codes : list text; sq_defs : list squawk_def }.

Definition c_range : codec code_range :=
  iso (fun '(a, (b, _)) => mkRange a b) (fun x => (rg_start x, (rg_end x, tt))) (c_struct (field "start" c_text (field "end" c_text fnil))).
Definition c_def : codec squawk_def :=
  iso (fun '(c, (r, (m, (k, _)))) => mkDef c r m k) (fun x => (sd_code x, (sd_range x, (sd_message x, (sd_colour x, tt)))))
    (c_struct (field_option "code" c_text (field_option "range" c_range (field "message" c_text (field "color" c_colour fnil))))).
Definition c_squawks (colour message codes defs : string) : codec squawks :=
  iso (fun '(c, (m, (n, (d, _)))) => mkSquawks c m n d) (fun x => (sq_colour x, (sq_message x, (sq_codes x, (sq_defs x, tt)))))
    (c_struct (field colour c_colour (field message c_text (field codes (c_list c_text) (field defs (c_list c_def) fnil))))).
(** [Serialize]: with the names of the fields *)
Definition squawks_to_value : squawks -> json := enc (c_squawks "non_discrete_color" "non_discrete_message" "non_discrete" "squawks").
(** [Deserialize]: [rename_all(deserialize = "PascalCase")] *)
Definition squawks_of_value : json -> option squawks := dec (c_squawks "NonDiscreteColor" "NonDiscreteMessage" "NonDiscrete" "Squawks").
(** squawks.rs:39-41 [parse_squawks_json]; [parse] reads the bytes of a JSON document *)
Definition parse_squawks_json (parse : list N -> option json) (content : list N) : outcome squawks :=
  match parse content with
  | Some j => match squawks_of_value j with Some s => Ret s | None => Err end
  | None => Err
  end.
