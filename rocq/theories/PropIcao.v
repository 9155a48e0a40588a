(** C40 C47 C54: the ICAO and navdata tables. *)
From Verif Require Import Base Num Float FloatParse Peg Grammars SpecPeg Trees SpecPairs PairsProofs Icao SpecIcao IcaoProofs.
Local Open Scope string_scope.
Local Open Scope list_scope.

(** Each designator of a file of airlines has its first definition in the table; texts that are no such files are
    errors. *)
Theorem C40_airlines t kids : parsed icao_airlines_grammar "airlines" t kids ->
  exists m, parse_airlines t = Ret m /\ first_definitions reads_airline (of_rule "definition" kids) m.
Proof. apply airlines_ok. Qed.
Print Assumptions C40_airlines.
Theorem C40_airports t kids : parsed icao_airports_grammar "aircraft" t kids ->
  exists m, parse_airports t = Ret m /\ first_definitions reads_airport (of_rule "definition" kids) m.
Proof. apply airports_ok. Qed.
Print Assumptions C40_airports.
Theorem C40_navdata t kids : parsed navdata_grammar "airports" t kids ->
  exists m, parse_navdata_airports t = Ret m /\ first_definitions reads_navdata (of_rule "definition" kids) m.
Proof. apply navdata_ok. Qed.
Print Assumptions C40_navdata.
Theorem C40_aircraft t kids : parsed icao_aircraft_grammar "aircraft" t kids ->
  exists m, parse_aircraft t = Ret m /\ first_definitions reads_aircraft (of_rule "definition" kids) m.
Proof. apply aircraft_ok. Qed.
Print Assumptions C40_aircraft.
Theorem C40_rejects t :
  (unparsed icao_airlines_grammar "airlines" t -> parse_airlines t = Err) /\
  (unparsed icao_airports_grammar "aircraft" t -> parse_airports t = Err) /\
  (unparsed navdata_grammar "airports" t -> parse_navdata_airports t = Err) /\
  (unparsed icao_aircraft_grammar "aircraft" t -> parse_aircraft t = Err).
Proof. split; [apply airlines_err|]. split; [apply airports_err|]. split; [apply navdata_err | apply aircraft_err]. Qed.
Print Assumptions C40_rejects.
(** The wake turbulence category of an aircraft type is that of its first definition, and unknown if it has none. *)
Theorem C40_wtc t kids m : parsed icao_aircraft_grammar "aircraft" t kids -> parse_aircraft t = Ret m ->
  map_wtc m None = WtcUnknown /\
  (forall d p, first_with (fun p => field "designator" p d) (of_rule "definition" kids) p ->
    exists s, field "wtc" p s /\ In (s, map_wtc m (Some d)) wtc_letters) /\
  (forall d, (forall p, In p (of_rule "definition" kids) -> ~ field "designator" p d) -> map_wtc m (Some d) = WtcUnknown).
Proof.
  intros P E. destruct (aircraft_ok t kids P) as [m' [E' [_ [D1 [D2 _]]]]]. rewrite E in E'. injection E' as <-.
  split; [reflexivity|]. split; intros d.
  - intros p H. destruct (D2 d p H) as [a [G [_ [_ [_ [W _]]]]]]. cbn [map_wtc]. rewrite G. exact W.
  - intros N. cbn [map_wtc]. destruct (get d m) as [a|] eqn:G; [|reflexivity]. destruct (D1 d a G) as [p [[l1 [l2 [L [F _]]]] _]].
    exfalso. apply (N p); [rewrite L; apply in_elt | exact F].
Qed.
Print Assumptions C40_wtc.

Example C40_nonvacuous :
  (exists kids, parsed icao_airlines_grammar "airlines" airlines_test kids /\ List.length (of_rule "definition" kids) = 3) /\
  (exists kids, parsed icao_airports_grammar "aircraft" airports_test kids /\ List.length (of_rule "definition" kids) = 2) /\
  (exists kids, parsed navdata_grammar "airports" navdata_test kids /\ List.length (of_rule "definition" kids) = 2) /\
  (exists kids, parsed icao_aircraft_grammar "aircraft" aircraft_test kids /\ List.length (of_rule "definition" kids) = 5) /\
  unparsed icao_airlines_grammar "airlines" (s2t "AAL" ++ [10]%N).
Proof.
  split; [|split; [|split; [|split]]].
  - destruct (top_cases 7 "icao_airlines" icao_airlines_grammar "airlines" eq_refl ltac:(eexists; reflexivity) airlines_test) as [[kids [P E]]|[_ E]]; vm_compute in E; [|discriminate].
    exists kids. split; [exact P|]. injection E as <-. reflexivity.
  - destruct (top_cases 8 "icao_airports" icao_airports_grammar "aircraft" eq_refl ltac:(eexists; reflexivity) airports_test) as [[kids [P E]]|[_ E]]; vm_compute in E; [|discriminate].
    exists kids. split; [exact P|]. injection E as <-. reflexivity.
  - destruct (top_cases 9 "navdata_airports" navdata_grammar "airports" eq_refl ltac:(eexists; reflexivity) navdata_test) as [[kids [P E]]|[_ E]]; vm_compute in E; [|discriminate].
    exists kids. split; [exact P|]. injection E as <-. reflexivity.
  - destruct (top_cases 6 "icao_aircraft" icao_aircraft_grammar "aircraft" eq_refl ltac:(eexists; reflexivity) aircraft_test) as [[kids [P E]]|[_ E]]; vm_compute in E; [|discriminate].
    exists kids. split; [exact P|]. injection E as <-. reflexivity.
  - destruct (top_cases 7 "icao_airlines" icao_airlines_grammar "airlines" eq_refl ltac:(eexists; reflexivity) (s2t "AAL" ++ [10]%N)) as [[kids [P E]]|[U _]]; [vm_compute in E; discriminate | exact U].
Qed.

(** Parsing these files never panics. *)
Theorem C47_icao t : parse_airlines t <> Panic /\ parse_airports t <> Panic /\ parse_navdata_airports t <> Panic /\ parse_aircraft t <> Panic.
Proof.
  repeat split.
  - destruct (top_cases 7 "icao_airlines" icao_airlines_grammar "airlines" eq_refl ltac:(eexists; reflexivity) t) as [[kids [P _]]|[U _]].
    + destruct (airlines_ok t kids P) as [m [E _]]. congruence.
    + pose proof (airlines_err t U). congruence.
  - destruct (top_cases 8 "icao_airports" icao_airports_grammar "aircraft" eq_refl ltac:(eexists; reflexivity) t) as [[kids [P _]]|[U _]].
    + destruct (airports_ok t kids P) as [m [E _]]. congruence.
    + pose proof (airports_err t U). congruence.
  - destruct (top_cases 9 "navdata_airports" navdata_grammar "airports" eq_refl ltac:(eexists; reflexivity) t) as [[kids [P _]]|[U _]].
    + destruct (navdata_ok t kids P) as [m [E _]]. congruence.
    + pose proof (navdata_err t U). congruence.
  - destruct (top_cases 6 "icao_aircraft" icao_aircraft_grammar "aircraft" eq_refl ltac:(eexists; reflexivity) t) as [[kids [P _]]|[U _]].
    + destruct (aircraft_ok t kids P) as [m [E _]]. congruence.
    + pose proof (aircraft_err t U). congruence.
Qed.
Print Assumptions C47_icao.

(** A known wake turbulence category is written as the letter it is read from. *)
Theorem C54_known w : w <> WtcUnknown -> In (wtc_fmt w, w) wtc_letters /\ wtc_of (wtc_fmt w) = Some w.
Proof. destruct w; intros H; try (split; [cbn; tauto | reflexivity]). contradiction H; reflexivity. Qed.
Print Assumptions C54_known.
(** The unknown category is written as ? but read from a minus sign. *)
Theorem C54_unknown_refuted : exists w, wtc_of (wtc_fmt w) = None.
Proof. exists WtcUnknown. reflexivity. Qed.
Print Assumptions C54_unknown_refuted.
(** What is read from one letter is read from no other. *)
Theorem C54_letters s : 
  (forall w, wtc_of s = Some w <-> In (s, w) wtc_letters) /\ (forall w, aircraft_type_of s = Some w <-> In (s, w) type_letters) /\
  (forall w, engine_type_of s = Some w <-> In (s, w) engine_letters).
Proof. apply letters_exact. Qed.
Print Assumptions C54_letters.
Example C54_nonvacuous : wtc_of (s2t "J") = Some WtcSuper /\ wtc_of (s2t "JJ") = None /\ engine_type_of (s2t "L") = None.
Proof. repeat split; reflexivity. Qed.
