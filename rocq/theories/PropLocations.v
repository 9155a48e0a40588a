(** Property theorems: locations (C21-C26).

    [dest] is any function for the destination point of a range and bearing. *)
From Verif Require Import Base Num Float Unicode Locations SpecLocations LocationsProofs LocationsResolve.

(** C21 *)
Theorem C21_convert_designator : forall dest i L d, input_ok i -> from_euroscope dest i = Ret L ->
  plain_digits d -> forall o, convert_designator dest L d = Ret o <-> resolves dest i d o.
Proof.
  intros dest i L d OK E P. apply designator_spec; [exact OK | eapply from_euroscope_tables, E | exact P].
Qed.
Print Assumptions C21_convert_designator.

Theorem C21_contains_designator : forall dest i L d, input_ok i -> from_euroscope dest i = Ret L ->
  contains_designator L d = true <-> exists f, resolves_fix i d (Some f).
Proof.
  intros dest i L d OK E. apply contains_designator_spec; [exact OK | eapply from_euroscope_tables, E].
Qed.
Print Assumptions C21_contains_designator.

(** [convert_location]: coordinates stay, designators give the resolved position. *)
Theorem C21_convert_location : forall dest i L l o, input_ok i -> from_euroscope dest i = Ret L ->
  match l with
  | LCoord p => convert_location dest L l = Ret o <-> o = Some p
  | LFix d => plain_digits d ->
      (convert_location dest L l = Ret o <-> exists f, resolves dest i d f /\ o = option_map f_pos f)
  end.
Proof.
  intros dest i L [p|d] o OK E; cbn [convert_location].
  - split; [intros X; injection X as <-; reflexivity | intros ->; reflexivity].
  - intros P. destruct (convert_plain dest L d P) as [f H]. rewrite H.
    apply (C21_convert_designator dest i L d OK E P) in H. split.
    + intros X; injection X as <-. eauto.
    + intros [f' [H' ->]]. apply (C21_convert_designator dest i L d OK E P) in H, H'. congruence.
Qed.
Print Assumptions C21_convert_location.

Definition pt (x y : Z) : point := (f64_of_Z x, f64_of_Z y).
Definition ex_dest (p : point) (b r : f64) : point := (fadd (fst p) r, fadd (snd p) b).
Definition ex_loc : loc_input := mkLocInput
  [mkFix (s2t "ABC") (pt 1 2); mkFix (s2t "ABC") (pt 3 4); mkFix (s2t "TANGO") (pt 5 6)]
  [mkNav (s2t "TGO") (s2t "112.500") (pt 9 48)] [mkNav (s2t "ABC") (s2t "340") (pt 7 7)]
  [mkSctAirport (s2t "EDDF") (pt 8 50); mkSctAirport (s2t "EDDF") (pt 9 50)]
  [mkRunway (s2t "07L", s2t "25R") (70, 250)%N (pt 8 50, pt 9 51) (s2t "EDDF");
   mkRunway (s2t "18", s2t "36") (180, 0)%N (pt 10 50, pt 11 51) (s2t "LOWI");
   mkRunway (s2t "18", s2t "36") (180, 0)%N (pt 12 50, pt 13 51) (s2t "EDDF")]
  [(s2t "EDDF", mkNavdata (s2t "Frankfurt") (pt 0 0)); (s2t "LOWI", mkNavdata (s2t "Innsbruck") (pt 11 47))]
  [(s2t "LOWI", mkIcao (s2t "Kranebitten") (s2t "Austria")); (s2t "KJFK", mkIcao (s2t "Kennedy") (s2t "USA"))]
  [Sid (mkEseProc (s2t "TGO1A") (s2t "EDDF") (Some (s2t "07L")) [s2t "ABC"; s2t "NOPE"; s2t "48N010E"; s2t "TGO"]);
   Star (mkEseProc (s2t "X") (s2t "EDDF") None [s2t "TANGO"]);
   Sid (mkEseProc (s2t "TGO1A") (s2t "EDDF") (Some (s2t "18")) [s2t "TGO090012"])].
Definition ex_L : locations :=
  match from_euroscope ex_dest ex_loc with Ret L => L | _ => base_locations ex_loc end.

Lemma ex_input_ok : input_ok ex_loc.
Proof. split; apply nodupb_NoDup; vm_compute; reflexivity. Qed.

(** VOR, NDB before fix, airport, runway threshold, coordinate waypoint, range/bearing, unknown *)
Example C21_nonvacuous :
  input_ok ex_loc /\ from_euroscope ex_dest ex_loc = Ret ex_L /\
  map (fun d => convert_designator ex_dest ex_L (s2t d))
    ["TGO"; "ABC"; "TANGO"; "EDDF"; "EDDF25R"; "EDDF36"; "LOWI18"; "5N011E"; "TGO090012"; "XYZ"]%string =
  [Ret (Some (mkFix (s2t "TGO") (pt 9 48))); Ret (Some (mkFix (s2t "ABC") (pt 7 7)));
   Ret (Some (mkFix (s2t "TANGO") (pt 5 6))); Ret (Some (mkFix (s2t "EDDF") (pt 9 50)));
   Ret (Some (mkFix (s2t "EDDF25R") (pt 9 51))); Ret (Some (mkFix (s2t "EDDF36") (pt 13 51)));
   Ret None; Ret (Some (mkFix (s2t "05N011E") (pt 11 5)));
   Ret (Some (mkFix (s2t "TGO090012") (pt 21 138))); Ret None] /\
  map (fun d => contains_designator ex_L (s2t d)) ["TGO"; "EDDF18"; "5N011E"]%string = [true; true; false].
Proof. split; [exact ex_input_ok|]. split; [vm_compute; reflexivity|]. split; vm_compute; reflexivity. Qed.

(** C22 *)
Theorem C22_coordinate_waypoints : forall d, ascii d ->
  exists o, convert_coordinate d = Ret o /\ forall f, o = Some f <-> coordinate_waypoint d f.
Proof. exact convert_coordinate_spec. Qed.
Print Assumptions C22_coordinate_waypoints.

Theorem C22_normal_form : forall d f, ascii d -> convert_coordinate d = Ret (Some f) ->
  convert_coordinate (f_des f) = Ret (Some f).
Proof.
  intros d f A E. destruct (convert_coordinate_spec d A) as [o [E' H]]. rewrite E in E'. injection E' as <-.
  assert (C : coordinate_waypoint (f_des f) f) by (eapply coordinate_waypoint_stable, H; reflexivity).
  destruct (convert_coordinate_spec (f_des f) (coordinate_waypoint_ascii _ _ C)) as [o [E2 H2]].
  apply H2 in C. congruence.
Qed.
Print Assumptions C22_normal_form.

Example C22_nonvacuous :
  convert_coordinate (s2t "5N10E") = Ret (Some (mkFix (s2t "05N010E") (pt 10 5))) /\
  convert_coordinate (s2t "05N10E") = convert_coordinate (s2t "05N010E") /\
  convert_coordinate (s2t "3030S01000W") =
    Ret (Some (mkFix (s2t "3030S01000W") (f64_of_Z (-10), fdiv (f64_of_Z (-61)) (f64_of_Z 2)))) /\
  map (fun d => convert_coordinate (s2t d)) ["0N010E"; "05N1000E"; "5N00E"; "1234567N010E"; "N010E"; "05N010EE"]%string =
  repeat (Ret None) 6.
Proof. split; [|split; [|split]]; vm_compute; reflexivity. Qed.

(** C23: designators that hold a decimal digit outside ASCII make the lookup panic, even when
    a fix of that name exists. *)
Theorem C23_refuted : exists dest i L d f, input_ok i /\ from_euroscope dest i = Ret L /\
  resolves_fix i d (Some f) /\ convert_designator dest L d = Panic.
Proof.
  set (d := [1636; 78; 48; 49; 50; 69]%N).
  exists ex_dest, (mkLocInput [mkFix d (pt 1 2)] [] [] [] [] [] [] []). eexists. exists d. eexists.
  split; [split; constructor|]. split; [reflexivity|].
  split; [apply rf_fix; reflexivity | vm_compute; reflexivity].
Qed.
Print Assumptions C23_refuted.

(** Nothing else does. *)
Theorem C23_panic_needs_foreign_digit : forall dest L d, convert_designator dest L d = Panic ->
  exists c, In c d /\ is_nd c = true /\ (128 <= c)%N.
Proof.
  intros dest L d E.
  destruct (Exists_dec (fun c => is_nd c = true /\ (128 <= c)%N) d) as [X|X].
  - intros c. destruct (is_nd c) eqn:N; [|right; intros [? _]; discriminate].
    destruct (128 <=? c)%N eqn:C; [left; split; [reflexivity | apply N.leb_le, C]|].
    right. intros [_ H]. apply N.leb_le in H. congruence.
  - apply Exists_exists in X. destruct X as [c [I [H1 H2]]]. eauto.
  - exfalso. destruct (convert_plain dest L d) as [o H]; [|congruence].
    intros c I N. apply N.lt_nge. intros G. apply X. apply Exists_exists. eauto.
Qed.
Print Assumptions C23_panic_needs_foreign_digit.

(** And apart from the panic the named element is found for every text. *)
Theorem C23_named_or_panic : forall dest i L d f, input_ok i -> from_euroscope dest i = Ret L ->
  resolves_fix i d (Some f) ->
  convert_designator dest L d = Ret (Some f) \/ convert_designator dest L d = Panic.
Proof. exact named_or_panic. Qed.
Print Assumptions C23_named_or_panic.

Example C23_nonvacuous :
  convert_designator ex_dest ex_L (s2t "TGO" ++ [1632; 1632; 1632; 48; 48; 48]%N) = Panic /\
  convert_designator ex_dest ex_L (s2t "TG" ++ [8364]%N) = Ret None.
Proof. split; vm_compute; reflexivity. Qed.

(** C24: [quantize] rounds to 1e-6 degrees. *)
Theorem C24_contains_nav_element : forall dest i L d p, from_euroscope dest i = Ret L ->
  contains_nav_element L d p = true <->
  (exists v, first_named n_des d (i_vors i) = Some v /\ quantize (n_pos v) = quantize p) \/
  (exists v, first_named n_des d (i_ndbs i) = Some v /\ quantize (n_pos v) = quantize p) \/
  (exists v, first_named f_des d (i_fixes i) = Some v /\ quantize (f_pos v) = quantize p).
Proof. intros dest i L d p E. apply contains_nav_spec. eapply from_euroscope_tables, E. Qed.
Print Assumptions C24_contains_nav_element.

(** An element of that name at that very position is missed when an earlier one has the name. *)
Theorem C24_all_elements_refuted : exists dest i L d p f, from_euroscope dest i = Ret L /\
  In f (i_fixes i) /\ f_des f = d /\ f_pos f = p /\ contains_nav_element L d p = false.
Proof.
  exists ex_dest, ex_loc, ex_L, (s2t "ABC"), (pt 3 4), (mkFix (s2t "ABC") (pt 3 4)).
  split; [vm_compute; reflexivity|]. split; [right; left; reflexivity|]. split; [reflexivity|].
  split; [reflexivity | vm_compute; reflexivity].
Qed.
Print Assumptions C24_all_elements_refuted.

Example C24_nonvacuous :
  contains_nav_element ex_L (s2t "ABC") (pt 1 2) = true /\ contains_nav_element ex_L (s2t "ABC") (pt 7 7) = true /\
  contains_nav_element ex_L (s2t "EDDF") (pt 9 50) = false.
Proof. split; [|split]; vm_compute; reflexivity. Qed.

(** C25 *)
Theorem C25_airports : forall dest i L d, input_ok i -> from_euroscope dest i = Ret L ->
  airport_entry i d (get d (l_airports L)).
Proof.
  intros dest i L d OK E. apply (get_airport i L d OK); [eapply from_euroscope_tables, E | reflexivity].
Qed.
Print Assumptions C25_airports.

Theorem C25_one_entry_each : forall dest i L, from_euroscope dest i = Ret L -> NoDup (keys (l_airports L)).
Proof. exact airport_keys. Qed.
Print Assumptions C25_one_entry_each.

Theorem C25_independent_of_hash_order : forall dest i i' L L' d, input_ok i -> reordered i i' ->
  from_euroscope dest i = Ret L -> from_euroscope dest i' = Ret L' ->
  get d (l_airports L) = get d (l_airports L').
Proof. exact airport_order. Qed.
Print Assumptions C25_independent_of_hash_order.

(** An airport known from navdata only has no runways, although the .sct file lists one for it. *)
Theorem C25_navdata_runways_refuted : exists dest i L d a r, input_ok i /\ from_euroscope dest i = Ret L /\
  get d (l_airports L) = Some a /\ In r (i_runways i) /\ r_ad r = d /\ ~ In r (ap_runways a).
Proof.
  exists ex_dest, ex_loc, ex_L, (s2t "LOWI"). eexists.
  exists (mkRunway (s2t "18", s2t "36") (180, 0)%N (pt 10 50, pt 11 51) (s2t "LOWI")).
  split; [exact ex_input_ok|]. split; [vm_compute; reflexivity|]. split; [vm_compute; reflexivity|].
  split; [right; left; reflexivity|]. split; [reflexivity|]. intros [].
Qed.
Print Assumptions C25_navdata_runways_refuted.

Example C25_nonvacuous :
  (get (s2t "LOWI") (l_airports ex_L) = Some (mkAirport (s2t "LOWI") (pt 11 47) (Some (s2t "Innsbruck")) (Some (s2t "Austria")) [])) /\
  option_map (fun a => (ap_name a, ap_country a, List.length (ap_runways a))) (get (s2t "EDDF") (l_airports ex_L)) =
    Some (Some (s2t "Frankfurt"), None, 2) /\
  get (s2t "KJFK") (l_airports ex_L) = None.
Proof. split; [|split]; vm_compute; reflexivity. Qed.

(** C26 *)
Theorem C26_sids_and_stars : forall dest i, input_ok i ->
  (forall x d, In x (i_procs i) -> In d (wpts_of x) -> plain_digits d) ->
  exists L, from_euroscope dest i = Ret L /\ forall ad name,
    Forall2 (converted dest i)
      (filter (fun p => eqb (ep_airport p) ad && eqb (ep_name p) name) (sids_of (i_procs i)))
      (stored (l_sids L) ad name) /\
    Forall2 (converted dest i)
      (filter (fun p => eqb (ep_airport p) ad && eqb (ep_name p) name) (stars_of (i_procs i)))
      (stored (l_stars L) ad name).
Proof.
  intros dest i OK P. destruct (from_euroscope_spec dest i OK) as [L [E [_ [S1 S2]]]].
  - apply Forall_forall. intros d I. apply in_flat_map in I. destruct I as [x [I1 I2]]. eauto.
  - exists L. split; [exact E|]. intros ad name. split; [apply S1 | apply S2].
Qed.
Print Assumptions C26_sids_and_stars.

Example C26_nonvacuous :
  map (fun q => (pr_runway q, map f_des (pr_wpts q))) (stored (l_sids ex_L) (s2t "EDDF") (s2t "TGO1A")) =
  [(Some (s2t "07L"), map s2t ["ABC"; "48N010E"; "TGO"]%string); (Some (s2t "18"), [s2t "TGO090012"])].
Proof. vm_compute; reflexivity. Qed.
