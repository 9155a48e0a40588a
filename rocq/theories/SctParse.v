(** Model of the reading half of src/sct.rs, after [read_to_string] (Decode.v). *)
From Verif Require Import Base Num Float FloatParse Colours Locations SctData Lines Dms Peg Grammars Trees.
Local Open Scope string_scope.
Local Open Scope list_scope.

(** sct.rs:485-504 [Section] *)
Inductive section :=
| SecInfo (x : sct_info) | SecAirport (x : list sct_ap) | SecFixes (x : list fix_)
| SecHighAirways (x : list sct_airway) | SecLowAirways (x : list sct_airway)
| SecNdbs (x : list nav) | SecVors (x : list nav) | SecRunways (x : list runway)
| SecSid (x : list drawing) | SecStar (x : list drawing)
| SecArtccHigh (x : list drawing) | SecArtcc (x : list drawing) | SecArtccLow (x : list drawing)
| SecRegions (x : list region) | SecLabels (x : list sct_label) | SecGeo (x : list drawing)
| SecUnsupported.
(** sct.rs:506-526 [SectionName] *)
Inductive section_name :=
| SnInfo | SnAirport | SnHighAirway | SnLowAirway | SnFixes | SnNdbs | SnVors | SnRunways | SnSid | SnStar
| SnArtccHigh | SnArtcc | SnArtccLow | SnRegions | SnLabels | SnGeo | SnUnsupported.
#[export] Instance EqDec_section_name : EqDec section_name.
Proof. intros x y. unfold EqDec in *. decide equality. Defined.

(** sct.rs:528-541 [parse_coordinate_part] *)
Definition coord_part (pair : tree) : outcome deg_min_sec :=
  let part := kids_of pair in
  do (p, part) <- next part; do sign <- hemi_from (text_of p);
  do (p, part) <- next part; do degrees <- unwrap (parse_u16 (text_of p));
  do (p, part) <- next part; do min <- unwrap (parse_u8 (text_of p));
  do (p, _) <- next part; do sec <- unwrap (parse_f64 (text_of p));
  Ret (sign, degrees, min, sec).
(** sct.rs:543-548 [parse_coordinate] *)
Definition coordinate (pair : tree) : outcome point :=
  let coordinate := kids_of pair in
  do (p, coordinate) <- next coordinate; do y <- coord_part p;
  do (p, _) <- next coordinate; do x <- coord_part p;
  Ret (from_deg_min_sec y x).
(** [Iterator::find]: the pair found, and the pairs after it *)
Fixpoint find_pair (n : string) (ts : list tree) : option (tree * list tree) :=
  match ts with
  | [] => None
  | t :: ts => if is_rule t n then Some (t, ts) else find_pair n ts
  end.
(** sct.rs:550-566 [parse_airport] *)
Definition parse_airport (pair : tree) : outcome sct_ap :=
  let location := kids_of pair in
  do (p, location) <- next location; let designator := text_of p in
  do (p, location) <- unwrap (find_pair "sct_coordinate" location); do coordinate <- coordinate p;
  do (p, _) <- next location; let ctr_airspace := text_of p in
  Ret (mkSctAp designator coordinate ctr_airspace).
(** sct.rs:568-574 [parse_location] *)
Definition parse_location (pair : tree) : outcome location :=
  if is_rule pair "sct_coordinate" then do c <- coordinate pair; Ret (LCoord c)
  else if is_rule pair "airway_fix" then do (p, _) <- next (kids_of pair); Ret (LFix (text_of p))
  else Panic.
(** sct.rs:576-593 [parse_airway] *)
Definition parse_airway (pair : tree) : outcome (option sct_airway) :=
  let airway := kids_of pair in
  do (p, airway) <- next airway; let designator := text_of p in
  match airway with
  | a :: b :: _ => do start <- parse_location a; do end_ <- parse_location b; Ret (Some (mkSctAirway designator start end_))
  | _ => Ret None
  end.
(** sct.rs:595-609 [parse_fix] *)
Definition parse_fix (pair : tree) : outcome (option fix_) :=
  if is_rule pair "fix" then
    let fix_ := kids_of pair in
    do (p, fix_) <- next fix_; let designator := text_of p in
    do (p, _) <- next fix_; do coordinate <- coordinate p;
    Ret (Some (mkFix designator coordinate))
  else Ret None.
(** sct.rs:611-627 [parse_ndb] and 731-743 [parse_vor]: the fields of a pair [location] *)
Definition parse_nav (pair : tree) : outcome nav :=
  let location := kids_of pair in
  do (p, location) <- next location; let designator := text_of p in
  do (p, location) <- next location; let frequency := text_of p in
  do (p, _) <- next location; do coordinate <- coordinate p;
  Ret (mkNav designator frequency coordinate).
Definition parse_ndb (pair : tree) : outcome (option nav) :=
  if is_rule pair "location" then do x <- parse_nav pair; Ret (Some x) else Ret None.
(** sct.rs:629-640 [parse_region] *)
Definition parse_region (pair : tree) : outcome region :=
  let region := kids_of pair in
  do (p, region) <- next region; let name := text_of p in
  do (p, region) <- next region; let colour_name := text_of p in
  do polygon <- omap coordinate region;
  Ret (mkRegion name colour_name polygon).
(** sct.rs:642-653 [parse_label] *)
Definition parse_label (pair : tree) : outcome sct_label :=
  let label := kids_of pair in
  do (p, label) <- next label; let name := text_of p in
  do (p, label) <- next label; do coordinate <- parse_location p;
  do (p, _) <- next label; let colour_name := text_of p in
  Ret (mkSctLabel name coordinate colour_name).
(** sct.rs:657-660: start, end and colour of one line; the merging is [merge_groups] of Lines.v *)
Definition parse_line (pair : tree) : outcome (location * location * option text) :=
  let line := kids_of pair in
  do (p, line) <- next line; do start <- parse_location p;
  do (p, line) <- next line; do end_ <- parse_location p;
  let colour_name := match line with p :: _ => Some (text_of p) | [] => None end in
  Ret (start, end_, colour_name).
(** sct.rs:655-698 [parse_line_groups] *)
Definition parse_line_groups (lines : list tree) : outcome (list line_group) :=
  ofold (fun acc pair => do x <- parse_line pair; Ret (push_entry acc x)) lines [].
(** sct.rs:700-729 [parse_geo], [parse_sid], [parse_star], [parse_artcc] *)
Definition parse_drawing (pair : tree) : outcome drawing :=
  do (p, lines) <- next (kids_of pair); let name := text_of p in
  do line_groups <- parse_line_groups lines;
  Ret (mkDrawing name line_groups).
(** sct.rs:745-761 [parse_runway] *)
Definition parse_runway (pair : tree) : outcome runway :=
  let runway := kids_of pair in
  do (p, runway) <- next runway; let designator1 := text_of p in
  do (p, runway) <- next runway; let designator2 := text_of p in
  do (p, runway) <- next runway; do heading1 <- unwrap (parse_u32 (text_of p));
  do (p, runway) <- next runway; do heading2 <- unwrap (parse_u32 (text_of p));
  do (p, runway) <- next runway; do loc1 <- coordinate p;
  do (p, runway) <- next runway; do loc2 <- coordinate p;
  do (p, _) <- next runway; let aerodrome := text_of p in
  Ret (mkRunway (designator1, designator2) (heading1, heading2) (loc1, loc2) aerodrome).

(** sct.rs:793-803 [parse_colour_definition] *)
Definition parse_colour_definition (pair : tree) : outcome (option (text * colour)) :=
  let pairs := kids_of pair in
  do (p, pairs) <- next pairs; let colour_name := text_of p in
  do (p, _) <- next pairs; do n <- unwrap (parse_i32 (text_of p));
  Ret match Colours.from_euroscope n with Some colour_value => Some (colour_name, colour_value) | None => None end.
(** sct.rs:805-810 [store_colour] *)
Definition store_colour (colours : list (text * colour)) (pair : tree) : outcome (list (text * colour)) :=
  do d <- parse_colour_definition pair;
  Ret match d with Some (colour_name, colour) => put colour_name colour colours | None => colours end.

(** [SctInfo::default()], [DegMinSec::default()] *)
Definition info_default : sct_info := mkSctInfo [] [] [] (S754_zero false, S754_zero false) (S754_zero false) (S754_zero false) (S754_zero false) (S754_zero false).
Definition dms_default : deg_min_sec := (Pos, 0%N, 0%N, S754_zero false).
(** sct.rs:770-786: the [i]-th line of the section that is not a colour definition *)
Definition info_line (info : sct_info) (i : nat) (y : deg_min_sec) (pair : tree) : outcome (sct_info * deg_min_sec) :=
  let '(mkSctInfo name callsign airport centre mi_lat mi_lng magvar scale) := info in
  match i with
  | 0 => Ret (mkSctInfo (text_of pair) callsign airport centre mi_lat mi_lng magvar scale, y)
  | 1 => Ret (mkSctInfo name (text_of pair) airport centre mi_lat mi_lng magvar scale, y)
  | 2 => Ret (mkSctInfo name callsign (text_of pair) centre mi_lat mi_lng magvar scale, y)
  | 3 => do y <- coord_part pair; Ret (info, y)
  | 4 => do x <- coord_part pair; Ret (mkSctInfo name callsign airport (from_deg_min_sec y x) mi_lat mi_lng magvar scale, y)
  | 5 => do v <- unwrap (parse_f64 (text_of pair)); Ret (mkSctInfo name callsign airport centre v mi_lng magvar scale, y)
  | 6 => do v <- unwrap (parse_f64 (text_of pair)); Ret (mkSctInfo name callsign airport centre mi_lat v magvar scale, y)
  | 7 => do v <- unwrap (parse_f64 (text_of pair)); Ret (mkSctInfo name callsign airport centre mi_lat mi_lng v scale, y)
  | 8 => do v <- unwrap (parse_f64 (text_of pair)); Ret (mkSctInfo name callsign airport centre mi_lat mi_lng magvar v, y)
  | _ => Panic
  end.
(** sct.rs:763-791 [parse_info_section] *)
Fixpoint info_lines (ts : list tree) (info : sct_info) (i : nat) (y : deg_min_sec) (colours : list (text * colour))
  : outcome (sct_info * list (text * colour)) :=
  match ts with
  | [] => Ret (info, colours)
  | p :: ts =>
    if is_rule p "colour_definition" then do colours <- store_colour colours p; info_lines ts info i y colours
    else do (info, y) <- info_line info i y p; info_lines ts info (S i) y colours
  end.
Definition parse_info_section (pair : tree) (colours : list (text * colour)) : outcome (sct_info * list (text * colour)) :=
  info_lines (kids_of pair) info_default 0 dms_default colours.

(** sct.rs:824-838 and the like: the entries of a section; colour definitions among them are stored *)
Fixpoint entries {A} (f : tree -> outcome (option A)) (ts : list tree) (colours : list (text * colour))
  : outcome (list A * list (text * colour)) :=
  match ts with
  | [] => Ret ([], colours)
  | p :: ts =>
    if is_rule p "colour_definition" then do colours <- store_colour colours p; entries f ts colours
    else do x <- f p; do (l, colours) <- entries f ts colours; Ret (match x with Some x => x :: l | None => l end, colours)
  end.
Definition some {A} (f : tree -> outcome A) (pair : tree) : outcome (option A) := do x <- f pair; Ret (Some x).
Definition listed {A} (f : tree -> outcome (option A)) (sec : list A -> section) (n : section_name) (pair : tree) (colours : list (text * colour))
  : outcome (section_name * section * list (text * colour)) :=
  do (l, colours) <- entries f (kids_of pair) colours; Ret (n, sec l, colours).
(** sct.rs:812-1056 [parse_independent_section] *)
Definition parse_section (pair : tree) (colours : list (text * colour)) : outcome (section_name * section * list (text * colour)) :=
  let is := is_rule pair in
  if is "info_section" then do (info, colours) <- parse_info_section pair colours; Ret (SnInfo, SecInfo info, colours)
  else if is "airport_section" then listed (some parse_airport) SecAirport SnAirport pair colours
  else if is "fixes_section" then listed parse_fix SecFixes SnFixes pair colours
  else if is "ndb_section" then listed parse_ndb SecNdbs SnNdbs pair colours
  else if is "vor_section" then listed (some parse_nav) SecVors SnVors pair colours
  else if is "runway_section" then listed (some parse_runway) SecRunways SnRunways pair colours
  else if is "sid_section" then listed (some parse_drawing) SecSid SnSid pair colours
  else if is "star_section" then listed (some parse_drawing) SecStar SnStar pair colours
  else if is "artcc_high_section" then listed (some parse_drawing) SecArtccHigh SnArtccHigh pair colours
  else if is "artcc_section" then listed (some parse_drawing) SecArtcc SnArtcc pair colours
  else if is "artcc_low_section" then listed (some parse_drawing) SecArtccLow SnArtccLow pair colours
  else if is "high_airway_section" then listed parse_airway SecHighAirways SnHighAirway pair colours
  else if is "low_airway_section" then listed parse_airway SecLowAirways SnLowAirway pair colours
  else if is "region_section" then listed (some parse_region) SecRegions SnRegions pair colours
  else if is "labels_section" then listed (some parse_label) SecLabels SnLabels pair colours
  else if is "geo_section" then listed (some parse_drawing) SecGeo SnGeo pair colours
  else Ret (SnUnsupported, SecUnsupported, colours).
(** sct.rs:1063-1077: the sections collected into a hash map *)
Definition sct_step (st : list (section_name * section) * list (text * colour)) (pair : tree)
  : outcome (list (section_name * section) * list (text * colour)) :=
  let '(sections, colours) := st in
  if is_rule pair "colour_definition" then do colours <- store_colour colours pair; Ret (sections, colours)
  else do (n, s, colours) <- parse_section pair colours; Ret (put n s sections, colours).
(** sct.rs:1079-1142 *)
Definition taken {A} (n : section_name) (f : section -> option A) (default : A) (sections : list (section_name * section)) : A :=
  match get n sections with
  | Some s => match f s with Some x => x | None => default end
  | None => default
  end.
(** sct.rs:1059-1165 [Sct::parse] *)
Definition parse_sct (t : text) : outcome sct :=
  do kids <- top sct_grammar "sct" t;
  do (sections, colours) <- ofold sct_step kids ([], []);
  Ret (mkSct
    (taken SnInfo (fun s => match s with SecInfo x => Some x | _ => None end) info_default sections)
    colours
    (taken SnAirport (fun s => match s with SecAirport x => Some x | _ => None end) [] sections)
    (taken SnFixes (fun s => match s with SecFixes x => Some x | _ => None end) [] sections)
    (taken SnNdbs (fun s => match s with SecNdbs x => Some x | _ => None end) [] sections)
    (taken SnVors (fun s => match s with SecVors x => Some x | _ => None end) [] sections)
    (taken SnRunways (fun s => match s with SecRunways x => Some x | _ => None end) [] sections)
    (taken SnSid (fun s => match s with SecSid x => Some x | _ => None end) [] sections)
    (taken SnStar (fun s => match s with SecStar x => Some x | _ => None end) [] sections)
    (taken SnArtccHigh (fun s => match s with SecArtccHigh x => Some x | _ => None end) [] sections)
    (taken SnArtcc (fun s => match s with SecArtcc x => Some x | _ => None end) [] sections)
    (taken SnArtccLow (fun s => match s with SecArtccLow x => Some x | _ => None end) [] sections)
    (taken SnHighAirway (fun s => match s with SecHighAirways x => Some x | _ => None end) [] sections)
    (taken SnLowAirway (fun s => match s with SecLowAirways x => Some x | _ => None end) [] sections)
    (taken SnRegions (fun s => match s with SecRegions x => Some x | _ => None end) [] sections)
    (taken SnLabels (fun s => match s with SecLabels x => Some x | _ => None end) [] sections)
    (taken SnGeo (fun s => match s with SecGeo x => Some x | _ => None end) [] sections)).
