(** C08 C47: .sct files. *)
From Verif Require Import Base Num Float FloatParse Colours SpecColours Locations SctData Lines Dms Peg Grammars SpecPeg Trees SpecPairs PairsProofs Verdict SctParse SpecSct SctProofs.
Local Open Scope string_scope.
Local Open Scope list_scope.

Definition sct_lines (l : list string) : text := flat_map (fun s => s2t s ++ [13; 10]%N) l.
Definition sct_test : text := sct_lines [
  "#define COLOR_APP 16711680"; "#define huge 33554432"; "[INFO]"; "AeroNav"; "AERO_NAV"; "ZZZZ"; "N048.08.12.527"; "E011.33.47.512"; "60"; "39"; "-2.9"; "1.0"; "";
  "[VOR]"; "NUB 115.750 N049.30.10.508 E011.02.06.000"; "#define COLOR_APP 255"; "";
  "[NDB]"; "MIQ 426.000 N048.34.12.810 E011.35.51.010 ; comment"; "what is this"; "";
  "[FIXES]"; "ABC N048.10.00.000 W011.00.00.000"; "";
  "[AIRPORT]"; "EDDM 000.000 N048.21.13.618 E011.47.09.909 D"; "";
  "[RUNWAY]"; "08L 26R 080 260 N048.21.46.164 E011.46.03.158 N048.22.02.504 E011.49.15.910 EDDM"; "";
  "[SID]"; "EDDM SID 26L ABC N048.10.00.000 E011.00.00.000 N048.10.30.000 E011.10.00.000 COLOR_APP"; "  N048.10.30.000 E011.10.00.000 ABC ABC"; "";
  "[LOW AIRWAY]"; "A361 ABC ABC N048.10.30.000 E011.10.00.000"; "";
  "[REGIONS]"; "REGIONNAME EDDM"; "COLOR_APP N048.10.00.000 E011.00.00.000"; "N048.11.00.000 E011.00.00.000"; "N048.10.00.000 E011.01.00.000"; "";
  "[LABELS]"; """Vienna"" N048.10.00.000 E011.00.00.000 COLOR_APP"].
(** two sections of a kind *)
Definition twice_test : text := sct_lines ["[VOR]"; "NUB 115.750 N049.30.10.508 E011.02.06.000"; "[VOR]"; "OTT 112.300 N048.10.49.400 E011.48.59.500"].
Definition sct_ruin : text := sct_lines ["[VOR]"; "NUB 115.750 N049.300.10.508 E011.02.06.000"].

(** What is read from a file: the general information, *)
Theorem C08_info t kids s : parsed sct_grammar "sct" t kids -> parse_sct t = Ret s ->
  match last_opt (of_rule "info_section" kids) with Some p => reads_info p (sc_info s) | None => empty_info (sc_info s) end.
Proof. intros P E. destruct (sct_file_ok t kids P) as [[_ [v [E' R]]]|[_ E']]; rewrite E in E'; [|discriminate]. injection E' as <-. apply R. Qed.
Print Assumptions C08_info.
(** the colours: the last definition of a name anywhere in the file that is a colour, *)
Theorem C08_colours t kids s : parsed sct_grammar "sct" t kids -> parse_sct t = Ret s ->
  forall n c, get n (sc_colours s) = Some c <-> last_definition (colour_defs kids) n c.
Proof. intros P E. destruct (sct_file_ok t kids P) as [[_ [v [E' R]]]|[_ E']]; rewrite E in E'; [|discriminate]. injection E' as <-. apply R. Qed.
Print Assumptions C08_colours.
(** and the entries of the last section of each kind, each once and in order. *)
Theorem C08_lists t kids s : parsed sct_grammar "sct" t kids -> parse_sct t = Ret s ->
  Forall2 reads_airport (entries_of "airport_section" "aerodrome" kids) (sc_airports s) /\
  Forall2 reads_fix (entries_of "fixes_section" "fix" kids) (sc_fixes s) /\
  Forall2 reads_nav (entries_of "ndb_section" "location" kids) (sc_ndbs s) /\
  Forall2 reads_nav (entries_of "vor_section" "location" kids) (sc_vors s) /\
  Forall2 reads_runway (entries_of "runway_section" "runway" kids) (sc_runways s) /\
  Forall2 reads_drawing (entries_of "sid_section" "coloured_lines" kids) (sc_sids s) /\
  Forall2 reads_drawing (entries_of "star_section" "coloured_lines" kids) (sc_stars s) /\
  Forall2 reads_drawing (entries_of "artcc_high_section" "coloured_lines" kids) (sc_artccs_high s) /\
  Forall2 reads_drawing (entries_of "artcc_section" "coloured_lines" kids) (sc_artccs s) /\
  Forall2 reads_drawing (entries_of "artcc_low_section" "coloured_lines" kids) (sc_artccs_low s) /\
  Forall2 reads_airway (entries_of "high_airway_section" "airway" kids) (sc_high_airways s) /\
  Forall2 reads_airway (entries_of "low_airway_section" "airway" kids) (sc_low_airways s) /\
  Forall2 reads_region (entries_of "region_section" "region" kids) (sc_regions s) /\
  Forall2 reads_label (entries_of "labels_section" "label" kids) (sc_labels s) /\
  Forall2 reads_drawing (entries_of "geo_section" "coloured_lines" kids) (sc_geo s).
Proof. intros P E. destruct (sct_file_ok t kids P) as [[_ [v [E' R]]]|[_ E']]; rewrite E in E'; [|discriminate]. injection E' as <-. apply R. Qed.
Print Assumptions C08_lists.
(** Reading a file succeeds exactly if its degrees, minutes, colours and headings fit into their types; otherwise it panics. Other texts are errors. *)
Theorem C47_sct t kids : parsed sct_grammar "sct" t kids ->
  (all_fit kids -> exists s, parse_sct t = Ret s) /\ (~ all_fit kids -> parse_sct t = Panic).
Proof. intros P. destruct (sct_file_ok t kids P) as [[F [v [E _]]]|[F E]]; split; intros H; try contradiction; eauto. Qed.
Print Assumptions C47_sct.
Theorem C47_sct_rejects t : unparsed sct_grammar "sct" t -> parse_sct t = Err.
Proof. apply sct_err. Qed.
Print Assumptions C47_sct_rejects.
Theorem C47_sct_refuted : parse_sct sct_ruin = Panic.
Proof. vm_compute. reflexivity. Qed.
Print Assumptions C47_sct_refuted.

Example C08_nonvacuous : exists kids s, parsed sct_grammar "sct" sct_test kids /\ parse_sct sct_test = Ret s /\
  in_callsign (sc_info s) = s2t "AERO_NAV" /\ sc_colours s = [(s2t "COLOR_APP", mkColour 255 0 0 255)] /\ List.length (colour_defs kids) = 3 /\
  map n_des (sc_vors s) = [s2t "NUB"] /\ map n_des (sc_ndbs s) = [s2t "MIQ"] /\ map sb_name (sc_labels s) = [s2t "Vienna"] /\
  map (fun g => List.length (rg_polygon g)) (sc_regions s) = [3] /\ List.length (sc_low_airways s) = 1 /\ List.length (sc_sids s) = 1.
Proof.
  destruct (top_cases 0 "sct" sct_grammar "sct" eq_refl ltac:(eexists; reflexivity) sct_test) as [[kids [P E]]|[_ E]]; [|vm_compute in E; discriminate].
  exists kids. destruct (sct_file_ok _ _ P) as [[_ [s [X _]]]|[_ X]]; [|vm_compute in X; discriminate]. exists s. split; [exact P|]. split; [exact X|].
  clear P. vm_compute in X. injection X as <-. vm_compute in E. injection E as <-. split; [reflexivity|]. split; [reflexivity|]. split; [reflexivity|].
  split; [reflexivity|]. split; [reflexivity|]. split; [reflexivity|]. split; [reflexivity|]. split; reflexivity.
Qed.
(** only the last section of a kind counts *)
Example C08_lists_nonvacuous : exists kids s, parsed sct_grammar "sct" twice_test kids /\ parse_sct twice_test = Ret s /\
  List.length (of_rule "vor_section" kids) = 2 /\ map n_des (sc_vors s) = [s2t "OTT"].
Proof.
  destruct (top_cases 0 "sct" sct_grammar "sct" eq_refl ltac:(eexists; reflexivity) twice_test) as [[kids [P E]]|[_ E]]; [|vm_compute in E; discriminate].
  exists kids. destruct (sct_file_ok _ _ P) as [[_ [s [X _]]]|[_ X]]; [|vm_compute in X; discriminate]. exists s. split; [exact P|]. split; [exact X|].
  clear P. vm_compute in X. injection X as <-. vm_compute in E. injection E as <-. split; reflexivity.
Qed.
Example C47_sct_nonvacuous : exists kids, parsed sct_grammar "sct" sct_ruin kids /\ ~ all_fit kids.
Proof.
  destruct (top_cases 0 "sct" sct_grammar "sct" eq_refl ltac:(eexists; reflexivity) sct_ruin) as [[kids [P E]]|[_ E]]; [|vm_compute in E; discriminate].
  exists kids. split; [exact P|]. destruct (sct_file_ok _ _ P) as [[_ [s [X _]]]|[F _]]; [vm_compute in X; discriminate | exact F].
Qed.
