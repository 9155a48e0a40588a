(** Model of src/icao_airlines.rs, src/icao_airports.rs, src/icao_aircraft.rs, src/navdata_airports.rs and
    src/adaptation/icao.rs; the parsers after [read_to_string] (Decode.v). *)
From Verif Require Import Base Num Float FloatParse Peg Grammars Trees.
Local Open Scope string_scope.
Local Open Scope list_scope.

(** icao_airlines.rs:31-42 [Airline] *)
Record airline := mkAirline { al_designator : text; al_name : text; al_callsign : text; al_country : text }.
(** the derived [FromPest] of [Airline]: one inner pair for each field, in order, and no other *)
Definition inner (n : string) (ts : list tree) : outcome (text * list tree) :=
  do (p, r) <- next ts; if is_rule p n then Ret (text_of p, r) else Panic.
Definition airline_pair (pair : tree) : outcome airline :=
  do (designator, r) <- inner "designator" (kids_of pair);
  do (name, r) <- inner "name" r;
  do (callsign, r) <- inner "callsign" r;
  do (country, r) <- inner "country" r;
  match r with [] => Ret (mkAirline designator name callsign country) | _ :: _ => Panic end.
(** icao_airlines.rs:20-29, the derived [FromPest] of [Airlines]: definitions as long as there are any, then [EOI];
    anything else makes [expect] panic *)
Fixpoint airlines_pairs (ts : list tree) : outcome (list airline) :=
  match ts with
  | p :: r =>
    if is_rule p "definition" then do a <- airline_pair p; do l <- airlines_pairs r; Ret (a :: l)
    else if is_rule p "EOI" then match r with [] => Ret [] | _ :: _ => Panic end
    else Panic
  | [] => Panic
  end.
(** icao_airlines.rs:54-65 [parse_airlines]; [entry().or_insert] is [put_new] *)
Definition parse_airlines (t : text) : outcome (list (text * airline)) :=
  do kids <- top icao_airlines_grammar "airlines" t;
  do l <- airlines_pairs kids;
  Ret (fold_left (fun acc a => put_new (al_designator a) a acc) l []).

(** adaptation/icao.rs:147-151 [IcaoAirport] *)
Record icao_airport := mkIcaoAirport { ia_designator : text; ia_name : text; ia_country : text }.
(** icao_airports.rs:26-50 [parse_airports] *)
Definition airport_pair (acc : list (text * icao_airport)) (pair : tree) : outcome (list (text * icao_airport)) :=
  if is_rule pair "definition" then
    let line := kids_of pair in
    do (p, line) <- next line; let designator := text_of p in
    do (p, line) <- next line; let name := text_of p in
    do (p, line) <- next line; let country := text_of p in
    Ret (put_new designator (mkIcaoAirport designator name country) acc)
  else Ret acc.
Definition parse_airports (t : text) : outcome (list (text * icao_airport)) :=
  do kids <- top icao_airports_grammar "aircraft" t;
  ofold airport_pair kids [].

(** navdata_airports.rs:10-15 [NavdataAirport] *)
Record navdata_airport := mkNavdata { nd_designator : text; nd_name : text; nd_location : point }.
(** navdata_airports.rs:32-58 [parse_navdata_airports] *)
Definition navdata_pair (acc : list (text * navdata_airport)) (pair : tree) : outcome (list (text * navdata_airport)) :=
  if is_rule pair "definition" then
    let line := kids_of pair in
    do (p, line) <- next line; let designator := text_of p in
    do (p, line) <- next line; do lat <- unwrap (parse_f64 (text_of p));
    do (p, line) <- next line; do lon <- unwrap (parse_f64 (text_of p));
    do (p, line) <- next line; let name := text_of p in
    Ret (put_new designator (mkNavdata designator name (lon, lat)) acc)
  else Ret acc.
Definition parse_navdata_airports (t : text) : outcome (list (text * navdata_airport)) :=
  do kids <- top navdata_grammar "airports" t;
  ofold navdata_pair kids [].

(** adaptation/icao.rs:8-16 [Wtc], 21-38 its [from_str]; [s.len()] is the number of bytes *)
Inductive wtc := WtcLight | WtcMedium | WtcHeavy | WtcSuper | WtcUnknown.
Definition wtc_of (s : text) : option wtc :=
  if eqb s (s2t "L") then Some WtcLight
  else if eqb s (s2t "M") then Some WtcMedium
  else if eqb s (s2t "H") then Some WtcHeavy
  else if eqb s (s2t "J") then Some WtcSuper
  else if eqb s (s2t "-") then Some WtcUnknown
  else None.
(** adaptation/icao.rs:40-50 [Display] *)
Definition wtc_fmt (w : wtc) : text :=
  s2t match w with WtcLight => "L" | WtcMedium => "M" | WtcHeavy => "H" | WtcSuper => "J" | WtcUnknown => "?" end.
(** adaptation/icao.rs:53-85 [AircraftType] *)
Inductive aircraft_type := Landplane | Seaplane | Amphibian | Gyrocopter | Helicopter | Tiltrotor | UnknownType.
Definition aircraft_type_of (s : text) : option aircraft_type :=
  if eqb s (s2t "L") then Some Landplane
  else if eqb s (s2t "S") then Some Seaplane
  else if eqb s (s2t "A") then Some Amphibian
  else if eqb s (s2t "G") then Some Gyrocopter
  else if eqb s (s2t "H") then Some Helicopter
  else if eqb s (s2t "T") then Some Tiltrotor
  else if eqb s (s2t "-") then Some UnknownType
  else None.
(** adaptation/icao.rs:87-117 [EngineType] *)
Inductive engine_type := Jet | Turboprop | Piston | Electric | Rocket | UnknownEngine.
Definition engine_type_of (s : text) : option engine_type :=
  if eqb s (s2t "J") then Some Jet
  else if eqb s (s2t "T") then Some Turboprop
  else if eqb s (s2t "P") then Some Piston
  else if eqb s (s2t "E") then Some Electric
  else if eqb s (s2t "R") then Some Rocket
  else if eqb s (s2t "-") then Some UnknownEngine
  else None.
(** adaptation/icao.rs:130-139 [Aircraft] *)
Record aircraft := mkAircraft {
  ac_designator : text; ac_wtc : wtc; ac_type : aircraft_type; ac_engines : N; ac_engine : engine_type;
  ac_manufacturer : text; ac_name : text }.
(** icao_aircraft.rs:26-61 [parse_aircraft] *)
Definition aircraft_pair (acc : list (text * aircraft)) (pair : tree) : outcome (list (text * aircraft)) :=
  if is_rule pair "definition" then
    let line := kids_of pair in
    do (p, line) <- next line; let designator := text_of p in
    do (p, line) <- next line; do w <- unwrap (wtc_of (text_of p));
    do (p, line) <- next line; do ty <- unwrap (aircraft_type_of (text_of p));
    do (p, line) <- next line; let engines := match parse_u8 (text_of p) with Some n => n | None => 0%N end in
    do (p, line) <- next line; do en <- unwrap (engine_type_of (text_of p));
    do (p, line) <- next line; let manufacturer := text_of p in
    do (p, line) <- next line; let name := text_of p in
    Ret (put_new designator (mkAircraft designator w ty engines en manufacturer name) acc)
  else Ret acc.
Definition parse_aircraft (t : text) : outcome (list (text * aircraft)) :=
  do kids <- top icao_aircraft_grammar "aircraft" t;
  ofold aircraft_pair kids [].
(** adaptation/icao.rs:123-129 [AircraftMap::wtc] *)
Definition map_wtc (m : list (text * aircraft)) (ac_type : option text) : wtc :=
  match ac_type with
  | Some k => match get k m with Some ac => ac_wtc ac | None => WtcUnknown end
  | None => WtcUnknown
  end.

(** The repository's tests (icao_airlines.rs:78-139, icao_airports.rs:63-103, icao_aircraft.rs:74-178,
    navdata_airports.rs:69-120) *)
Definition lines (l : list string) : text := flat_map (fun s => s2t s ++ [10]%N) l.
Definition airlines_test := lines [""; ";====COMMENT====;"; "AAL	AMERICAN AIRLINES	AMERICAN	United States"; "DLH	LUFTHANSA	LUFTHANSA	Germany"; "DLH	OTHER	OTHER	Other"].
Example airlines_test_ok : parse_airlines airlines_test = Ret
  [(s2t "AAL", mkAirline (s2t "AAL") (s2t "AMERICAN AIRLINES") (s2t "AMERICAN") (s2t "United States"));
   (s2t "DLH", mkAirline (s2t "DLH") (s2t "LUFTHANSA") (s2t "LUFTHANSA") (s2t "Germany"))].
Proof. vm_compute. reflexivity. Qed.
Definition airports_test := lines [""; ";====COMMENT====;"; "EBOS	OOSTENDE BRUGGE/OOSTENDE	Belgium"; "EDDM	MUNICH	Germany"].
Example airports_test_ok : parse_airports airports_test = Ret
  [(s2t "EBOS", mkIcaoAirport (s2t "EBOS") (s2t "OOSTENDE BRUGGE/OOSTENDE") (s2t "Belgium"));
   (s2t "EDDM", mkIcaoAirport (s2t "EDDM") (s2t "MUNICH") (s2t "Germany"))].
Proof. vm_compute. reflexivity. Qed.
Definition navdata_test := lines ["EDDB    52.3622470    13.5006720    BERLIN BRANDENBURG"; "EDDF    50.0333060    8.5704560    FRANKFURT/MAIN"].
Example navdata_test_ok : parse_navdata_airports navdata_test = Ret
  [(s2t "EDDB", mkNavdata (s2t "EDDB") (s2t "BERLIN BRANDENBURG") (f64_of_dec false 13500672 6, f64_of_dec false 52362247 6));
   (s2t "EDDF", mkNavdata (s2t "EDDF") (s2t "FRANKFURT/MAIN") (f64_of_dec false 8570456 6, f64_of_dec false 50033306 6))].
Proof. vm_compute. reflexivity. Qed.
Definition aircraft_test := lines [""; ";====COMMENT====;"; "EUFI	ML2J	ALENIA	Eurofighter 2000, Typhoon";
  "C208	LL1T	CESSNA	208 Caravan 1, (Super)Cargomaster, Grand  Caravan (C98, U27)"; "EC45	LH2T	EUROCOPTER	EC145";
  "C08T	LLCT	SOLOY	208 DualPac Caravan, Pathfinder 21"; "continued model name from the previous line we ignore";
  "ZZZZ	----	-	Aircraft type not assigned"].
Example aircraft_test_ok : parse_aircraft aircraft_test = Ret
  [(s2t "EUFI", mkAircraft (s2t "EUFI") WtcMedium Landplane 2 Jet (s2t "ALENIA") (s2t "Eurofighter 2000, Typhoon"));
   (s2t "C208", mkAircraft (s2t "C208") WtcLight Landplane 1 Turboprop (s2t "CESSNA") (s2t "208 Caravan 1, (Super)Cargomaster, Grand  Caravan (C98, U27)"));
   (s2t "EC45", mkAircraft (s2t "EC45") WtcLight Helicopter 2 Turboprop (s2t "EUROCOPTER") (s2t "EC145"));
   (s2t "C08T", mkAircraft (s2t "C08T") WtcLight Landplane 0 Turboprop (s2t "SOLOY") (s2t "208 DualPac Caravan, Pathfinder 21"));
   (s2t "ZZZZ", mkAircraft (s2t "ZZZZ") WtcUnknown UnknownType 0 UnknownEngine (s2t "-") (s2t "Aircraft type not assigned"))].
Proof. vm_compute. reflexivity. Qed.
