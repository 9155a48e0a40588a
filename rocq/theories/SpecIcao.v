(** Specification of the ICAO and navdata tables (C40). *)
From Verif Require Import Base Num Float FloatParse Peg Trees SpecPairs Icao.
Local Open Scope string_scope.
Local Open Scope list_scope.

(** [x] is the first of the list with the property *)
Definition first_with {A} (P : A -> Prop) (l : list A) (x : A) : Prop :=
  exists l1 l2, l = l1 ++ x :: l2 /\ P x /\ forall y, In y l1 -> ~ P y.
(** The table has one entry for each designator: its first definition, read by [reads] *)
Definition first_definitions {A} (reads : tree -> A -> Prop) (defs : list tree) (m : list (text * A)) : Prop :=
  NoDup (keys m) /\
  (forall d a, get d m = Some a -> exists p, first_with (fun p => field "designator" p d) defs p /\ reads p a) /\
  (forall d p, first_with (fun p => field "designator" p d) defs p -> exists a, get d m = Some a /\ reads p a) /\
  forall p, In p defs -> exists d, field "designator" p d /\ get d m <> None.

Definition reads_airline (p : tree) (a : airline) : Prop :=
  field "designator" p (al_designator a) /\ field "name" p (al_name a) /\ field "callsign" p (al_callsign a) /\
  field "country" p (al_country a).
Definition reads_airport (p : tree) (a : icao_airport) : Prop :=
  field "designator" p (ia_designator a) /\ field "name" p (ia_name a) /\ field "country" p (ia_country a).
(** the latitude is the first number and the longitude the second *)
Definition reads_navdata (p : tree) (a : navdata_airport) : Prop :=
  field "designator" p (nd_designator a) /\ field "name" p (nd_name a) /\
  exists lat lon, texts "decimal" p = [lat; lon] /\ parse_f64 lat = Some (py (nd_location a)) /\ parse_f64 lon = Some (px (nd_location a)).

(** ICAO Doc 8643 *)
Definition wtc_letters : list (text * wtc) :=
  [(s2t "L", WtcLight); (s2t "M", WtcMedium); (s2t "H", WtcHeavy); (s2t "J", WtcSuper); (s2t "-", WtcUnknown)].
Definition type_letters : list (text * aircraft_type) :=
  [(s2t "L", Landplane); (s2t "S", Seaplane); (s2t "A", Amphibian); (s2t "G", Gyrocopter); (s2t "H", Helicopter);
   (s2t "T", Tiltrotor); (s2t "-", UnknownType)].
Definition engine_letters : list (text * engine_type) :=
  [(s2t "J", Jet); (s2t "T", Turboprop); (s2t "P", Piston); (s2t "E", Electric); (s2t "R", Rocket); (s2t "-", UnknownEngine)].
(** a digit is the number of engines; anything else counts as none *)
Definition engines_of (s : text) (n : N) : Prop :=
  (exists c, s = [c] /\ (48 <= c <= 57)%N /\ n = (c - 48)%N) \/ (~ (exists c, s = [c] /\ (48 <= c <= 57)%N) /\ n = 0%N).
Definition reads_aircraft (p : tree) (a : aircraft) : Prop :=
  field "designator" p (ac_designator a) /\ field "manufacturer" p (ac_manufacturer a) /\ field "name" p (ac_name a) /\
  (exists s, field "wtc" p s /\ In (s, ac_wtc a) wtc_letters) /\
  (exists s, field "aircrafttype" p s /\ In (s, ac_type a) type_letters) /\
  (exists s, field "enginetype" p s /\ In (s, ac_engine a) engine_letters) /\
  (exists s, field "num_engines" p s /\ engines_of s (ac_engines a)).
