(** Model of src/ese.rs, after [read_to_string] (Decode.v).  The warnings about duplicates are not modelled. *)
From Verif Require Import Base Num Float FloatParse Dms Sectors Constraints Peg Grammars Trees.
Local Open Scope string_scope.
Local Open Scope list_scope.

(** ese.rs:33-45 [Position] *)
Record position := mkPosition {
  po_name : text; po_callsign : text; po_freq : text; po_ident : text; po_prefix : text; po_middle : text; po_suffix : text;
  po_squawk : option (N * N); po_points : list point }.
(** ese.rs:358-372 [SID], [STAR]; 560-564 [SidStar] *)
Record proc := mkProc { pr_name : text; pr_airport : text; pr_runway : option text; pr_route : list text }.
Inductive sid_star := Sid (x : proc) | Star (x : proc).
(** ese.rs:374-380 [Ese] *)
Record ese := mkEse {
  e_positions : list (text * position); e_sectors : list (text * ese_sector); e_constraints : list constraint; e_procs : list sid_star }.

(** ese.rs:400-415 [parse_coordinate_part] *)
Definition ese_coord_part (pair : tree) : outcome deg_min_sec :=
  do (p, _) <- next (kids_of pair); let part := kids_of p in
  do (p, part) <- next part; do sign <- hemi_from (text_of p);
  do (p, part) <- next part; do degrees <- unwrap (parse_u16 (text_of p));
  do (p, part) <- next part; do min <- unwrap (parse_u8 (text_of p));
  do (p, _) <- next part; do sec <- unwrap (parse_f64 (text_of p));
  Ret (sign, degrees, min, sec).
(** ese.rs:417-423 [parse_coordinate] *)
Definition ese_coordinate (pair : tree) : outcome point :=
  let coordinate := kids_of pair in
  do (p, coordinate) <- next coordinate; do lat <- ese_coord_part p;
  do (p, _) <- next coordinate; do lng <- ese_coord_part p;
  Ret (from_deg_min_sec lat lng).

(** ese.rs:47-61 [MSAW::parse] *)
Definition parse_msaw (pair : tree) : outcome (text * (N * list point)) :=
  let msaw := kids_of pair in
  do (p, msaw) <- next msaw; let id := text_of p in
  do (p, msaw) <- next msaw; do altitude <- unwrap (parse_u32 (text_of p));
  do points <- omap ese_coordinate msaw;
  Ret (id, (altitude, points)).
(** ese.rs:69-84 [SectorLine::parse] *)
Definition parse_sectorline (pair : tree) : outcome (text * sector_line) :=
  do (p, sectorline) <- next (kids_of pair); let id := text_of p in
  let coords := filter (fun p => negb (is_rule p "display")) sectorline in
  do points <- omap ese_coordinate coords;
  Ret (id, points).
(** ese.rs:92-103 [CircleSectorLine::parse] *)
Definition parse_circle (pair : tree) : outcome (text * (text * spec_float)) :=
  let circle_sectorline := kids_of pair in
  do (p, circle_sectorline) <- next circle_sectorline; let id := text_of p in
  do (p, circle_sectorline) <- next circle_sectorline; let center := text_of p in
  do (p, _) <- next circle_sectorline; do radius <- unwrap (parse_f32 (text_of p));
  Ret (id, (center, radius)).

(** ese.rs:105-115 [SectorSubsetting] *)
Inductive subsetting :=
| SOwner (l : list text) | SAltOwner (n : text) (l : list text) | SBorder (l : list text) | SActive (a b : text)
| SDep (l : list text) | SArr (l : list text) | SGuest.
(** ese.rs:208-247 [Sector::parse_subsettings] *)
Definition parse_subsetting (pair : tree) : outcome subsetting :=
  let is := is_rule pair in let inner := kids_of pair in
  if is "owner" then Ret (SOwner (map text_of inner))
  else if is "altowner" then do (p, inner) <- next inner; Ret (SAltOwner (text_of p) (map text_of inner))
  else if is "border" then Ret (SBorder (map text_of inner))
  else if is "guest" then Ret SGuest
  else if is "active" then do (a, inner) <- next inner; do (b, _) <- next inner; Ret (SActive (text_of a) (text_of b))
  else if is "depapt" then Ret (SDep (map text_of inner))
  else if is "arrapt" then Ret (SArr (map text_of inner))
  else Panic.
(** [find_map], [filter_map] *)
Fixpoint find_map {A B} (f : A -> option B) (l : list A) : option B :=
  match l with [] => None | x :: l => match f x with Some y => Some y | None => find_map f l end end.
Fixpoint filter_map {A B} (f : A -> option B) (l : list A) : list B :=
  match l with [] => [] | x :: l => match f x with Some y => y :: filter_map f l | None => filter_map f l end end.
Definition or_empty {A} (o : option (list A)) : list A := match o with Some l => l | None => [] end.
(** ese.rs:132-206 [Sector::parse] *)
Definition parse_sector (pair : tree) : outcome (list text * ese_sector) :=
  let sector := kids_of pair in
  do (p, sector) <- next sector; let id := text_of p in
  do (p, sector) <- next sector; do bottom <- unwrap (parse_u32 (text_of p));
  do (p, sector) <- next sector; do top <- unwrap (parse_u32 (text_of p));
  do subsettings <- omap parse_subsetting sector;
  let owner_priority := or_empty (find_map (fun s => match s with SOwner l => Some l | _ => None end) subsettings) in
  let departure_airports := or_empty (find_map (fun s => match s with SDep l => Some l | _ => None end) subsettings) in
  let arrival_airports := or_empty (find_map (fun s => match s with SArr l => Some l | _ => None end) subsettings) in
  let border := or_empty (find_map (fun s => match s with SBorder l => Some l | _ => None end) subsettings) in
  let runway_filter := filter_map (fun s => match s with SActive a b => Some (a, b) | _ => None end) subsettings in
  Ret (border, mkEseSector id bottom top [] owner_priority departure_airports arrival_airports runway_filter).

(** ese.rs:250-264 [parse_wildcard_string], [parse_wildcard_u32] *)
Definition wildcard_string (pair : tree) : outcome (option text) :=
  if is_rule pair "wildcard" then Ret None
  else if is_rule pair "colon_delimited_text" || is_rule pair "designator" then Ret (Some (text_of pair))
  else Panic.
Definition wildcard_u32 (pair : tree) : outcome (option N) :=
  if is_rule pair "wildcard" then Ret None
  else if is_rule pair "integer" then do n <- unwrap (parse_u32 (text_of pair)); Ret (Some n)
  else Panic.
(** ese.rs:307-335 [Constraint::parse] *)
Definition parse_cop (pair : tree) : outcome constraint :=
  let cop := kids_of pair in
  do (p, cop) <- next cop; do previous_fix <- wildcard_string p;
  do (p, cop) <- next cop; do departure_runway <- wildcard_string p;
  do (p, cop) <- next cop; do fix_ <- wildcard_string p;
  do (p, cop) <- next cop; do subsequent_fix <- wildcard_string p;
  do (p, cop) <- next cop; do arrival_runway <- wildcard_string p;
  do (p, cop) <- next cop; let exit_sector := text_of p in
  do (p, cop) <- next cop; let entry_sector := text_of p in
  do (p, cop) <- next cop; do climb_level <- wildcard_u32 p;
  do (p, cop) <- next cop; do descent_level <- wildcard_u32 p;
  do (p, _) <- next cop; let description := text_of p in
  Ret (mkConstraint previous_fix departure_runway subsequent_fix arrival_runway fix_ exit_sector entry_sector climb_level descent_level description None).

(** ese.rs:425-433 [SectorRule]; 435-446 [parse_airspace] *)
Inductive sector_rule :=
| XSector (border : list text) (s : ese_sector) | XLine (id : text) (l : sector_line) | XFirCop (c : constraint) | XCop (c : constraint)
| XCircle (id : text) (c : text * spec_float) | XDisplay | XMsaw (id : text) (m : N * list point).
Definition parse_airspace (pair : tree) : outcome sector_rule :=
  let is := is_rule pair in
  if is "sectorline" then do (id, l) <- parse_sectorline pair; Ret (XLine id l)
  else if is "sector" then do (border, s) <- parse_sector pair; Ret (XSector border s)
  else if is "cop" then do c <- parse_cop pair; Ret (XCop c)
  else if is "fir_cop" then do c <- parse_cop pair; Ret (XFirCop c)
  else if is "display_sectorline" then Ret XDisplay
  else if is "circle_sectorline" then do (id, c) <- parse_circle pair; Ret (XCircle id c)
  else if is "msaw" then do (id, m) <- parse_msaw pair; Ret (XMsaw id m)
  else Panic.
(** ese.rs:448-458 [parse_squawk_range] *)
Definition squawk_range (maybe_pair : option tree) : outcome (option (N * N)) :=
  match maybe_pair with
  | None => Ret None
  | Some squawk =>
    if is_rule squawk "squawk_range" then
      do (a, inner) <- next (kids_of squawk); do squawk_begin <- unwrap (parse_u16 (text_of a));
      do (b, _) <- next inner; do squawk_end <- unwrap (parse_u16 (text_of b));
      Ret (Some (squawk_begin, squawk_end))
    else Ret None
  end.
(** ese.rs:460-488 [parse_position] *)
Definition parse_position (pair : tree) : outcome (text * position) :=
  let position := kids_of pair in
  do (p, position) <- next position; let name := text_of p in
  do (p, position) <- next position; let callsign := text_of p in
  do (p, position) <- next position; let frequency := text_of p in
  do (p, position) <- next position; let identifier := text_of p in
  do (p, position) <- next position; let middle := text_of p in
  do (p, position) <- next position; let prefix := text_of p in
  do (p, position) <- next position; let suffix := text_of p in
  let position := skipn 2 position in
  do squawk <- squawk_range (hd_error position);
  do visibility_points <- omap ese_coordinate (tl position);
  Ret (identifier, mkPosition name callsign frequency identifier prefix middle suffix squawk visibility_points).

(** ese.rs:490-533 [SectorsLinesBorders], [collect_sectors] *)
Record collected := mkCollected {
  co_sectors : list (text * ese_sector); co_circles : list (text * (text * spec_float)); co_lines : list (text * sector_line);
  co_borders : list (text * list text); co_constraints : list constraint }.
Definition collect_sectors (c : collected) (rule : sector_rule) : collected :=
  let '(mkCollected sectors circles lines borders constraints) := c in
  match rule with
  | XCop cop | XFirCop cop => mkCollected sectors circles lines borders (constraints ++ [cop])
  | XLine id l => mkCollected sectors circles (put id l lines) borders constraints
  | XCircle id l => mkCollected sectors (put id l circles) lines borders constraints
  | XSector border s => mkCollected (put (es_id s) s sectors) circles lines (put (es_id s) border borders) constraints
  | XMsaw _ _ | XDisplay => c
  end.
(** ese.rs:535-558 [combine_sectors_with_borders] *)
Definition with_border (s : ese_sector) (b : list sector_line) : ese_sector :=
  mkEseSector (es_id s) (es_bottom s) (es_top s) b (es_owner s) (es_dep s) (es_arr s) (es_runways s).
Definition combine_sectors (c : collected) : list (text * ese_sector) * list constraint :=
  (map (fun '(id, s) =>
     (id, with_border s (match get id (co_borders c) with Some border => filter_map (fun id => get id (co_lines c)) border | None => [] end)))
     (co_sectors c),
   co_constraints c).

(** ese.rs:565-597 [parse_sid_star] *)
Definition parse_sid_star (pair : tree) : outcome sid_star :=
  let sid_star := kids_of pair in
  do (p, sid_star) <- next sid_star; let airport := text_of p in
  do (p, sid_star) <- next sid_star;
  do runway <- (if is_rule p "runway_designator" then Ret (Some (text_of p)) else if is_rule p "none" then Ret None else Panic);
  do (p, sid_star) <- next sid_star; let name := text_of p in
  do (p, _) <- next sid_star; let waypoints := map text_of (kids_of p) in
  if is_rule pair "sid" then Ret (Sid (mkProc name airport runway waypoints))
  else if is_rule pair "star" then Ret (Star (mkProc name airport runway waypoints))
  else Panic.

(** ese.rs:384-398 [Section], [SectionName] *)
Inductive ese_section :=
| SecPositions (m : list (text * position)) | SecSectors (x : list (text * ese_sector) * list constraint) | SecProcs (l : list sid_star) | SecOther.
Inductive ese_name := NPosition | NAirspace | NSidsStars | NOther.
#[export] Instance EqDec_ese_name : EqDec ese_name.
Proof. intros x y. unfold EqDec in *. decide equality. Defined.
(** ese.rs:599-631 [parse_section]; the entries are parsed one after the other as they are collected *)
Definition ese_section_of (pair : tree) : outcome (ese_name * ese_section) :=
  if is_rule pair "position_section" then do l <- omap parse_position (kids_of pair); Ret (NPosition, SecPositions (put_all l []))
  else if is_rule pair "airspace_section" then
    do l <- omap parse_airspace (kids_of pair);
    Ret (NAirspace, SecSectors (combine_sectors (fold_left collect_sectors l (mkCollected [] [] [] [] []))))
  else if is_rule pair "sidsstars_section" then do l <- omap parse_sid_star (kids_of pair); Ret (NSidsStars, SecProcs l)
  else Ret (NOther, SecOther).
(** ese.rs:633-664 [Ese::parse] *)
Definition parse_ese (t : text) : outcome ese :=
  do kids <- top ese_grammar "ese" t;
  do l <- omap ese_section_of kids;
  let sections := put_all l [] in
  let positions := match get NPosition sections with Some (SecPositions positions) => positions | _ => [] end in
  let '(sectors, constraints) := match get NAirspace sections with Some (SecSectors sectors) => sectors | _ => ([], []) end in
  let sids_stars := match get NSidsStars sections with Some (SecProcs sids_stars) => sids_stars | _ => [] end in
  Ret (mkEse positions sectors constraints sids_stars).
