(** Specification vocabulary for settings, line styles and symbols (C32-C35, C49, C50). *)
From Verif Require Import Base Num Float FloatParse Constraints Settings.

(** ** Timing (C32) *)
Inductive timing_field := Act | Abi | Rev.
Definition override (f : timing_field) (t : timing) : option f32 :=
  match f with Act => t_act t | Abi => t_abi t | Rev => t_rev t end.
Definition global (f : timing_field) (s : coordination) : f32 :=
  match f with Act => co_act s | Abi => co_abi s | Rev => co_rev s end.
Definition effective (f : timing_field) (r : resolved) : f32 :=
  match f with Act => rt_act r | Abi => rt_abi r | Rev => rt_rev r end.

(** The time [x] that an optional override sets for field [f] *)
Definition sets (o : option timing) (f : timing_field) (x : f32) : Prop :=
  exists t, o = Some t /\ override f t = Some x.
Definition fir_timing (s : coordination) (fir : option text) (t : timing) : Prop :=
  exists name, fir = Some name /\ get name (co_firs s) = Some t.

(** ** Special use codes (C33) *)
Definition octal_digit (c : N) : Prop := (48 <= c <= 55)%N.
Definition octal_value (s : text) : N := fold_left (fun a c => (a * 8 + (c - 48))%N) s 0%N.

(** [s] is an octal numeral of the 16 bit number [n] (an optional '+' and digits). *)
Definition octal_numeral (s : text) (n : N) : Prop :=
  exists ds, (s = ds \/ s = 43%N :: ds) /\ ds <> [] /\ Forall octal_digit ds /\
    octal_value ds = n /\ (n <= 65535)%N.

(** [k] is [n] as four octal digits, or more when needed. *)
Definition code_text (n : N) (k : text) : Prop :=
  Forall octal_digit k /\ octal_value k = n /\
  (List.length k = 4 \/ (4 < List.length k /\ hd_error k <> Some 48%N)).

Definition covers (q : squawk) (k : text) : Prop :=
  exists n, code_text n k /\
    ((exists s, sq_code q = Some s /\ sq_range q = None /\ octal_numeral s n) \/
     (exists a b lo hi, sq_code q = None /\ sq_range q = Some (a, b) /\
        octal_numeral a lo /\ octal_numeral b hi /\ (lo <= n <= hi)%N)).

(** ** Line styles (C34) *)
Definition d_ (a b : Z) : dash := mkDash (f32_of_Z a) (f32_of_Z b).
Inductive builtin_style : text -> option (list dash) -> Prop :=
| bs_solid : builtin_style (s2t "SOLID") None
| bs_dot : builtin_style (s2t "DOT") (Some [d_ 1 1])
| bs_alternate : builtin_style (s2t "ALTERNATE") (Some [d_ 1 1])
| bs_dash : builtin_style (s2t "DASH") (Some [d_ 3 3])
| bs_dashdot : builtin_style (s2t "DASHDOT") (Some [d_ 3 3; d_ 1 3])
| bs_dashdotdot : builtin_style (s2t "DASHDOTDOT") (Some [d_ 3 3; d_ 1 3; d_ 1 3]).
Definition builtin_name (k : text) : Prop := exists d, builtin_style k d.

(** Dash lengths taken pairwise; fewer than two mean a solid line. *)
Definition dashes_ok (l : list f32) (o : option (list dash)) : Prop :=
  match o with
  | None => List.length l <= 1
  | Some ds => 2 <= List.length l /\ List.length ds = Nat.div2 (List.length l) /\
      forall i d, nth_error ds i = Some d ->
        nth_error l (2 * i) = Some (d_len d) /\ nth_error l (2 * i + 1) = Some (d_gap d)
  end.

(** ** Symbols (C35) *)
Inductive symbol_kind := KHistory | KFix | KNdb | KVor | KAirport | KPrimary | KCoasted | KUncontrolled | KControlled.
Definition topsky_name (k : symbol_kind) : string :=
  match k with KHistory => "HISTORY" | KFix => "FIX" | KNdb => "NDB" | KVor => "VOR" | KAirport => "AIRPORT"
  | KPrimary => "PRIMARY" | KCoasted => "COASTED" | KUncontrolled => "UNCONTROLLED" | KControlled => "DAPS" end.
Definition symbology_type (k : symbol_kind) : symbol_type :=
  match k with KHistory => StHistoryDot | KFix => StFix | KNdb => StNDB | KVor => StVOR | KAirport => StAirport
  | KPrimary => StPrimaryOnly | KCoasted => StCoasting | KUncontrolled => StUncorrAC | KControlled => StCorrS end.
Definition symbol_field (k : symbol_kind) (s : symbols) : symbol :=
  match k with KHistory => sy_history s | KFix => sy_fix s | KNdb => sy_ndb s | KVor => sy_vor s
  | KAirport => sy_airport s | KPrimary => sy_primary s | KCoasted => sy_coasted s
  | KUncontrolled => sy_uncontrolled s | KControlled => sy_controlled s end.

(** ** Line and label settings (C49) *)
Inductive line_kind := LRunway | LGeo | LSid | LStar | LHigh | LLow | LArtccLow | LArtcc | LArtccHigh.
Definition line_item (k : line_kind) : string * string :=
  match k with LRunway => ("Runways", "centerline") | LGeo => ("Geo", "line") | LSid => ("Sids", "line")
  | LStar => ("Stars", "line") | LHigh => ("High airways", "line") | LLow => ("Low airways", "line")
  | LArtccLow => ("ARTCC low boundary", "line") | LArtcc => ("ARTCC boundary", "line")
  | LArtccHigh => ("ARTCC high boundary", "line") end%string.
Definition line_field (k : line_kind) (s : line_settings) : line_style :=
  match k with LRunway => li_runway s | LGeo => li_geo s | LSid => li_sid s | LStar => li_star s
  | LHigh => li_high s | LLow => li_low s | LArtccLow => li_artcc_low s | LArtcc => li_artcc s
  | LArtccHigh => li_artcc_high s end.

Inductive label_kind := BVor | BNdb | BFix | BAirport | BRunway.
Definition label_folder (k : label_kind) : string :=
  match k with BVor => "VORs" | BNdb => "NDBs" | BFix => "Fixes" | BAirport => "Airports" | BRunway => "Runways" end.
Definition label_field (k : label_kind) (s : label_settings) : alignment * f32 :=
  match k with BVor => la_vor s | BNdb => la_ndb s | BFix => la_fix s | BAirport => la_airport s | BRunway => la_runway s end.
