(** Specification of .ese files (C45-C47, C56): what is read, in terms of the pairs of the text. *)
From Verif Require Import Base Num Float FloatParse Dms Sectors Constraints Peg SpecPeg Trees SpecPairs SpecKeyed SpecSct EseParse.
Local Open Scope string_scope.
Local Open Scope list_scope.

(** ** Coordinates *)
Definition reads_dms (a : tree) (v : deg_min_sec) : Prop := exists p, of_rule "sct_coord_part" (kids_of a) = [p] /\ reads_part p v.
(** latitude, then longitude *)
Definition reads_point (q : tree) (c : point) : Prop :=
  exists a b y x, of_rule "coord_part" (kids_of q) = [a; b] /\ reads_dms a y /\ reads_dms b x /\ c = (dms_value x, dms_value y).
(** coordinates in degrees, minutes and seconds whose numbers fit into their types *)
Definition fits_dms (a : tree) : Prop :=
  exists p, of_rule "sct_coord_part" (kids_of a) = [p] /\
    (forall s, In s (texts "deg" p) -> exists n, parse_u16 s = Some n) /\ (forall s, In s (texts "min" p) -> exists n, parse_u8 s = Some n).
Definition fits_point (q : tree) : Prop := Forall fits_dms (of_rule "coord_part" (kids_of q)).
Definition points_of (p : tree) : list tree := of_rule "coordinate" (kids_of p).

(** ** Positions *)
Definition squawks (p : tree) : list tree := of_rule "squawk_range" (kids_of p).
(** the points that count: without a squawk range the first one is lost *)
Definition points_read (p : tree) : list tree := match squawks p with [] => tl (points_of p) | _ => points_of p end.
Definition reads_squawk (p : tree) (o : option (N * N)) : Prop :=
  match o with
  | Some (a, b) => exists q s t, squawks p = [q] /\ texts "integer" q = [s; t] /\ parse_u16 s = Some a /\ parse_u16 t = Some b
  | None => squawks p = []
  end.
Definition reads_position (p : tree) (x : position) : Prop :=
  (exists u v, texts "colon_delimited_text" p = [po_name x; po_callsign x; po_ident x; po_middle x; po_prefix x; po_suffix x; u; v]) /\
  field "frequency" p (po_freq x) /\ reads_squawk p (po_squawk x) /\ Forall2 reads_point (points_read p) (po_points x).

(** the identifier of a position: name, callsign, frequency, identifier *)
Definition names_position (p : tree) (id : text) : Prop := nth_error (texts "colon_delimited_text" p) 2 = Some id.

(** ** Sectors *)
Definition ids (p : tree) : list text := texts "colon_delimited_text" p.
(** the texts of the first pair of rule [n] *)
Definition first_list (n m : string) (p : tree) : list text := match of_rule n (kids_of p) with q :: _ => texts m q | [] => [] end.
Definition has_id (p : tree) (id : text) : Prop := ids p = [id].
Definition last_with : list tree -> text -> tree -> Prop := last_keyed has_id.
(** the line an identifier stands for, if any *)
Definition line_of (sec : tree) (id : text) (o : option sector_line) : Prop :=
  match o with
  | Some l => exists p, last_with (of_rule "sectorline" (kids_of sec)) id p /\ Forall2 reads_point (points_of p) l
  | None => Forall (fun q => ~ has_id q id) (of_rule "sectorline" (kids_of sec))
  end.
Definition somes {A} (l : list (option A)) : list A := flat_map (fun o => match o with Some x => [x] | None => [] end) l.
Definition reads_border (sec p : tree) (b : list sector_line) : Prop :=
  exists os, Forall2 (line_of sec) (first_list "border" "colon_delimited_text" p) os /\ b = somes os.
Definition reads_levels (p : tree) (bottom top : N) : Prop :=
  exists a b, texts "integer" p = [a; b] /\ parse_u32 a = Some bottom /\ parse_u32 b = Some top.
Definition reads_sector (sec p : tree) (x : ese_sector) : Prop :=
  ids p = [es_id x] /\ reads_levels p (es_bottom x) (es_top x) /\ reads_border sec p (es_border x) /\
  es_owner x = first_list "owner" "colon_delimited_text" p /\ es_dep x = first_list "depapt" "designator" p /\ es_arr x = first_list "arrapt" "designator" p /\
  Forall2 (fun q r => texts "designator" q = [fst r; snd r]) (of_rule "active" (kids_of p)) (es_runways x).

(** ** Coordination points *)
Definition is_cop (q : tree) : bool := String.eqb (rule_of q) "cop" || String.eqb (rule_of q) "fir_cop".
Definition reads_opt (q : tree) (o : option text) : Prop :=
  match o with Some s => rule_of q <> "wildcard" /\ text_of q = s | None => rule_of q = "wildcard" end.
Definition reads_level (q : tree) (o : option N) : Prop :=
  match o with Some n => rule_of q = "integer" /\ parse_u32 (text_of q) = Some n | None => rule_of q = "wildcard" end.
Definition reads_cop (p : tree) (x : constraint) : Prop :=
  exists a b c d e f g h i j, kids_of p = [a; b; c; d; e; f; g; h; i; j] /\
    reads_opt a (c_prev x) /\ reads_opt b (c_dep x) /\ reads_opt c (c_fix x) /\ reads_opt d (c_next x) /\ reads_opt e (c_arr x) /\
    text_of f = c_exit x /\ text_of g = c_entry x /\ reads_level h (c_climb x) /\ reads_level i (c_descent x) /\ text_of j = c_desc x /\ c_timing x = None.

(** ** Procedures *)
Definition reads_proc (p : tree) (x : proc) : Prop :=
  field "designator" p (pr_airport x) /\ field "colon_delimited_text" p (pr_name x) /\
  match pr_runway x with Some r => field "runway_designator" p r | None => texts "runway_designator" p = [] end /\
  exists q, of_rule "route" (kids_of p) = [q] /\ pr_route x = texts "designator" q.
Definition reads_sid_star (p : tree) (x : sid_star) : Prop :=
  match x with Sid x => rule_of p = "sid" /\ reads_proc p x | Star x => rule_of p = "star" /\ reads_proc p x end.

(** ** Numbers and coordinates that can be read *)
Definition all_u32 (l : list text) : Prop := Forall (fun s => exists n, parse_u32 s = Some n) l.
Definition fits_entry (p : tree) : Prop :=
  (rule_of p = "position" ->
    Forall (fun q => Forall (fun s => exists n, parse_u16 s = Some n) (texts "integer" q)) (squawks p) /\ Forall fits_point (points_read p)) /\
  (rule_of p = "sectorline" \/ rule_of p = "msaw" -> Forall fits_point (points_of p)) /\
  (rule_of p = "sector" \/ rule_of p = "msaw" \/ rule_of p = "cop" \/ rule_of p = "fir_cop" -> all_u32 (texts "integer" p)).
Definition ese_fits (kids : list tree) : Prop := forall sec p, In sec kids -> In p (kids_of sec) -> fits_entry p.

(** ** The file: the last section of each kind *)
Definition section_of (n : string) (kids : list tree) : tree := match last_opt (of_rule n kids) with Some p => p | None => T n [] [] end.
