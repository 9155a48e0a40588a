(** Model of src/adaptation/locations/mod.rs. *)
From Verif Require Import Base Num Float Unicode.

(** locations/mod.rs:27-31 [Fix] *)
Record fix_ := mkFix { f_des : text; f_pos : point }.
(** locations/mod.rs:73-84 [NDB], [VOR] *)
Record nav := mkNav { n_des : text; n_freq : text; n_pos : point }.
(** locations/mod.rs:86-92 [Runway] *)
Record runway := mkRunway {
  r_des : text * text; r_hdg : N * N; r_loc : point * point; r_ad : text }.
(** locations/mod.rs:94-101 [Airport] *)
Record airport := mkAirport {
  ap_des : text; ap_pos : point; ap_name : option text; ap_country : option text;
  ap_runways : list runway }.
(** locations/mod.rs:129-143 [SID], [STAR] (same fields) *)
Record procedure := mkProc {
  pr_name : text; pr_airport : text; pr_runway : option text; pr_wpts : list fix_ }.
(** locations/mod.rs:156-165 [Locations] without the airway graph *)
Record locations := mkLocations {
  l_fixes : list (text * list fix_); l_vors : list (text * list nav); l_ndbs : list (text * list nav);
  l_airports : list (text * airport);
  l_sids : list (text * list (text * list procedure));
  l_stars : list (text * list (text * list procedure)) }.

(** lib.rs:140-145 [Location] *)
Inductive location := LCoord (p : point) | LFix (d : text).

(** ese.rs [SID]/[STAR] before conversion *)
Record ese_proc := mkEseProc {
  ep_name : text; ep_airport : text; ep_runway : option text; ep_wpts : list text }.
Inductive sid_star := Sid (p : ese_proc) | Star (p : ese_proc).

(** ** Strings *)

(** [s.split_at_checked(n)] / slicing at byte [n]: [None] when [n] is not a char boundary or
    beyond the end *)
Fixpoint split_bytes (n : nat) (s : text) : option (text * text) :=
  match n with
  | O => Some ([], s)
  | _ => match s with
         | [] => None
         | c :: s => if Nat.leb (utf8_len1 c) n
                     then match split_bytes (n - utf8_len1 c) s with
                          | Some (a, b) => Some (c :: a, b)
                          | None => None
                          end
                     else None
         end
  end.

(** [s[a..b]]; [None] = panic *)
Definition slice (a b : nat) (s : text) : option text :=
  match split_bytes a s with
  | None => None
  | Some (_, t) => match split_bytes (b - a) t with Some (u, _) => Some u | None => None end
  end.

(** [s.parse::<f64>()] on a string of [\d] characters: only ASCII digits are understood. *)
Definition parse_digits (s : text) : option f64 :=
  match digits1_val 10 s with Some n => Some (f64_of_Z (Z.of_N n)) | None => None end.

(** Longest prefix of digits ([\d+] followed by a non-digit) *)
Fixpoint span_nd (s : text) : text * text :=
  match s with
  | [] => ([], [])
  | c :: s' => if is_nd c then let '(a, b) := span_nd s' in (c :: a, b) else ([], s)
  end.

(** locations/mod.rs:167-170: ^(\d{1,6})(N|S)(\d{2,7})(E|W)$.  A digit is never N, S, E or W, so
    the digit groups are maximal. *)
Definition coord_captures (s : text) : option (text * N * text * N) :=
  let '(lat, r) := span_nd s in
  match r with
  | ns :: r =>
    let '(lng, r) := span_nd r in
    match r with
    | [ew] =>
      if (Nat.leb 1 (List.length lat) && Nat.leb (List.length lat) 6)
         && ((ns =? 78)%N || (ns =? 83)%N)
         && (Nat.leb 2 (List.length lng) && Nat.leb (List.length lng) 7)
         && ((ew =? 69)%N || (ew =? 87)%N)
      then Some (lat, ns, lng, ew) else None
    | _ => None
    end
  | [] => None
  end.

(** locations/mod.rs:172-175: ^([0-9A-Z]{2,5})(\d{3})(\d{3})$.  The last six characters are the
    digit groups, so the first group's length is fixed by the length of the text. *)
Definition rb_captures (s : text) : option (text * text * text) :=
  let n := List.length s in
  let fix_part := firstn (n - 6) s in
  let brg := firstn 3 (skipn (n - 6) s) in
  let rng := skipn 3 (skipn (n - 6) s) in
  if (Nat.leb 8 n && Nat.leb n 11)
     && forallb (fun c => is_digit c || is_upper c) fix_part
     && forallb is_nd brg && forallb is_nd rng
  then Some (fix_part, brg, rng) else None.

(** Outcome of a conversion: a panic or the optional fix *)
Definition conv := outcome (option fix_).
Definition conv_or (a b : conv) : conv :=   (* [a.or(b)]: both sides are evaluated *)
  match a, b with
  | Panic, _ => Panic
  | _, Panic => Panic
  | Ret (Some x), _ => Ret (Some x)
  | _, b => b
  end.

(** [lat_str.len()] odd / [lng_str.len()] even: prefix a zero (332-351); [None]: starts with 0 *)
Definition normalise (abbreviated : nat -> bool) (s : text) : option text :=
  if abbreviated (utf8_len s)
  then match s with
       | c :: _ => if (c =? 48)%N then None else Some (48%N :: s)
       | [] => Some (48%N :: s)
       end
  else Some s.

Definition plus60 (d m : option f64) : option f64 :=
  match d, m with Some d, Some m => Some (fadd d (fdiv m (f64_of_Z 60))) | _, _ => None end.
Definition plus3600 (d s : option f64) : option f64 :=
  match d, s with Some d, Some s => Some (fadd d (fdiv s (f64_of_Z 3600))) | _, _ => None end.
Definition obind {A B} (o : option A) (f : A -> option B) : option B :=
  match o with Some a => f a | None => None end.

(** 356-369: value of the normalised digits; [w] is the width of the degrees.  [None] = panic *)
Definition coord_value (w : nat) (s : text) : option f64 :=
  let part a b := obind (slice a b s) parse_digits in
  let l := utf8_len s in
  if Nat.eqb l w then parse_digits s
  else if Nat.eqb l (w + 2) then plus60 (part 0 w) (part w (w + 2))
  else if Nat.eqb l (w + 4) then
    plus3600 (plus60 (part 0 w) (part w (w + 2))) (part (w + 2) (w + 4))
  else None.   (* unreachable!() *)

Definition sign_of (positive : bool) : f64 := f64_of_Z (if positive then 1 else -1).

(** locations/mod.rs:328-380 [convert_coordinate] *)
Definition convert_coordinate (d : text) : conv :=
  match coord_captures d with
  | None => Ret None
  | Some (lat, ns, lng, ew) =>
    match normalise (fun n => Nat.eqb n 1 || Nat.eqb n 3 || Nat.eqb n 5) lat with
    | None => Ret None
    | Some nlat =>
      match normalise (fun n => Nat.eqb n 2 || Nat.eqb n 4 || Nat.eqb n 6) lng with
      | None => Ret None
      | Some nlng =>
        if negb (Nat.eqb (utf8_len nlng - utf8_len nlat) 1) then Ret None
        else
          match coord_value 2 nlat, coord_value 3 nlng with
          | Some la, Some lo =>
            Ret (Some (mkFix (nlat ++ [ns] ++ nlng ++ [ew])
                             (fmul (sign_of (ew =? 69)%N) lo, fmul (sign_of (ns =? 78)%N) la)))
          | _, _ => Panic
          end
      end
    end
  end.

(** locations/mod.rs:382-404 [convert_rwy] *)
Definition rwy_end (rw : text) (r : runway) : option (text * point) :=
  if eqb (fst (r_des r)) rw then Some (fst (r_des r), fst (r_loc r))
  else if eqb (snd (r_des r)) rw then Some (snd (r_des r), snd (r_loc r))
  else None.
Fixpoint find_map {A B} (f : A -> option B) (l : list A) : option B :=
  match l with [] => None | x :: l => match f x with Some y => Some y | None => find_map f l end end.
Definition convert_rwy (L : locations) (d : text) : option fix_ :=
  if negb (Nat.eqb (utf8_len d) 6 || Nat.eqb (utf8_len d) 7) then None
  else
    match split_bytes 4 d with
    | None => None
    | Some (ad, rw) =>
      match get ad (l_airports L) with
      | None => None
      | Some ap =>
        find_map (fun r => match rwy_end rw r with
                           | Some (des, pos) => Some (mkFix (ap_des ap ++ des) pos)
                           | None => None
                           end) (ap_runways ap)
      end
    end.

Definition opt_or {A} (a b : option A) : option A := match a with Some _ => a | None => b end.

(** locations/mod.rs:406-423 [convert_fix] *)
Definition convert_fix (L : locations) (d : text) : option fix_ :=
  let of_nav n := mkFix (n_des n) (n_pos n) in
  let of_ap a := mkFix (ap_des a) (ap_pos a) in
  opt_or (opt_or (opt_or (opt_or (option_map of_nav (mget d (l_vors L)))
                                 (option_map of_nav (mget d (l_ndbs L))))
                         (mget d (l_fixes L)))
                 (option_map of_ap (get d (l_airports L))))
         (convert_rwy L d).

(** locations/mod.rs:312-326 [convert_range_bearing]; [dest] is geo's [Geodesic.destination]
    (position, bearing, distance) with the conversion of the range from NM to metres. *)
Definition convert_range_bearing (dest : point -> f64 -> f64 -> point) (L : locations) (d : text) : conv :=
  match rb_captures d with
  | None => Ret None
  | Some (f, brg, rng) =>
    match parse_digits brg, parse_digits rng with
    | Some b, Some r =>
      Ret (match convert_fix L f with Some x => Some (mkFix d (dest (f_pos x) b r)) | None => None end)
    | _, _ => Panic
    end
  end.

(** locations/mod.rs:425-429 [convert_designator] *)
Definition convert_designator dest (L : locations) (d : text) : conv :=
  conv_or (conv_or (Ret (convert_fix L d)) (convert_coordinate d)) (convert_range_bearing dest L d).

(** locations/mod.rs:305-310 [convert_location] *)
Definition convert_location dest (L : locations) (l : location) : outcome (option point) :=
  match l with
  | LCoord p => Ret (Some p)
  | LFix d => match convert_designator dest L d with
              | Ret o => Ret (option_map f_pos o)
              | Err => Err
              | Panic => Panic
              end
  end.

Definition has {K V} `{EqDec K} (k : K) (m : list (K * V)) : bool :=
  match get k m with Some _ => true | None => false end.

(** locations/mod.rs:431-437 [contains_designator] *)
Definition contains_designator (L : locations) (d : text) : bool :=
  has d (l_vors L) || has d (l_ndbs L) || has d (l_fixes L) || has d (l_airports L)
  || match convert_rwy L d with Some _ => true | None => false end.

(** locations/mod.rs:439-455 [contains_nav_element] *)
Definition contains_nav_element (L : locations) (d : text) (p : point) : bool :=
  let at_ {A} (pos : A -> point) (o : option A) :=
    match o with Some x => eqb (quantize (pos x)) (quantize p) | None => false end in
  at_ n_pos (mget d (l_vors L)) || at_ n_pos (mget d (l_ndbs L)) || at_ f_pos (mget d (l_fixes L)).

(** ** Construction *)

(** sct.rs [Airport]; navdata_airports.rs [NavdataAirport]; icao.rs [IcaoAirport] (name, country) *)
Record sct_airport := mkSctAirport { sa_des : text; sa_pos : point }.
Record navdata_airport := mkNavdata { nd_name : text; nd_pos : point }.
Record icao_airport := mkIcao { ic_name : text; ic_country : text }.

(** locations/mod.rs:103-126 [from_sct_airports] *)
Definition from_sct_airports (aps : list sct_airport) (rwys : list runway) : list (text * airport) :=
  of_list (map (fun a => (sa_des a, mkAirport (sa_des a) (sa_pos a) None None
                            (filter (fun r => eqb (r_ad r) (sa_des a)) rwys))) aps).

(** [Option::get_or_insert] *)
Definition or_insert {A} (o : option A) (a : A) : option A := match o with Some x => Some x | None => Some a end.

(** 197-216: one navdata airport *)
Definition add_navdata (t : list (text * airport)) (e : text * navdata_airport) : list (text * airport) :=
  let '(d, n) := e in
  match get d t with
  | Some a => put d (mkAirport (ap_des a) (ap_pos a) (or_insert (ap_name a) (nd_name n)) (ap_country a) (ap_runways a)) t
  | None => put d (mkAirport d (nd_pos n) (Some (nd_name n)) None []) t
  end.
(** 217-227: one ICAO airport *)
Definition add_icao (t : list (text * airport)) (e : text * icao_airport) : list (text * airport) :=
  let '(d, i) := e in
  match get d t with
  | Some a => put d (mkAirport (ap_des a) (ap_pos a) (or_insert (ap_name a) (ic_name i))
                       (or_insert (ap_country a) (ic_country i)) (ap_runways a)) t
  | None => t
  end.
Definition airport_table (aps : list sct_airport) (rwys : list runway)
    (navdata : list (text * navdata_airport)) (icao : list (text * icao_airport)) :=
  fold_left add_icao icao (fold_left add_navdata navdata (from_sct_airports aps rwys)).

(** 241-256, 271-286: [filter_map] of the waypoints *)
Fixpoint resolve_wpts dest (L : locations) (l : list text) : outcome (list fix_) :=
  match l with
  | [] => Ret []
  | d :: l =>
    match convert_designator dest L d with
    | Panic => Panic
    | Err => Err
    | Ret o =>
      match resolve_wpts dest L l with
      | Ret r => Ret (match o with Some f => f :: r | None => r end)
      | x => x
      end
    end
  end.

Definition conv_proc dest (L : locations) (p : ese_proc) : outcome procedure :=
  match resolve_wpts dest L (ep_wpts p) with
  | Ret w => Ret (mkProc (ep_name p) (ep_airport p) (ep_runway p) w)
  | Err => Err
  | Panic => Panic
  end.

(** 263-268, 293-298: insertion below the airport *)
Definition add_proc (p : procedure) (m : list (text * list (text * list procedure))) :=
  match get (pr_airport p) m with
  | Some names => put (pr_airport p) (mpush (pr_name p) p names) m
  | None => put (pr_airport p) (mpush (pr_name p) p []) m
  end.

(** 237-300: one SID or STAR *)
Definition add_sid_star dest (st : outcome locations) (x : sid_star) : outcome locations :=
  match st with
  | Ret L =>
    match x with
    | Sid p => match conv_proc dest L p with
               | Ret q => Ret (mkLocations (l_fixes L) (l_vors L) (l_ndbs L) (l_airports L)
                                 (add_proc q (l_sids L)) (l_stars L))
               | Err => Err | Panic => Panic
               end
    | Star p => match conv_proc dest L p with
                | Ret q => Ret (mkLocations (l_fixes L) (l_vors L) (l_ndbs L) (l_airports L)
                                  (l_sids L) (add_proc q (l_stars L)))
                | Err => Err | Panic => Panic
                end
    end
  | x => x
  end.

(** locations/mod.rs:178-303 [Locations::from_euroscope]; [navdata] and [icao] are the entries of
    the two hash maps in iteration order. *)
Record loc_input := mkLocInput {
  i_fixes : list fix_; i_vors : list nav; i_ndbs : list nav; i_airports : list sct_airport;
  i_runways : list runway; i_navdata : list (text * navdata_airport);
  i_icao : list (text * icao_airport); i_procs : list sid_star }.
Definition base_locations (i : loc_input) : locations :=
  mkLocations (mpush_all (map (fun f => (f_des f, f)) (i_fixes i)) [])
              (mpush_all (map (fun n => (n_des n, n)) (i_vors i)) [])
              (mpush_all (map (fun n => (n_des n, n)) (i_ndbs i)) [])
              (airport_table (i_airports i) (i_runways i) (i_navdata i) (i_icao i)) [] [].
Definition from_euroscope dest (i : loc_input) : outcome locations :=
  fold_left (add_sid_star dest) (i_procs i) (Ret (base_locations i)).
