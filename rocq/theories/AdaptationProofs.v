(** Proofs about loading a profile (C60-C66). *)
From Coq Require Import Reals ZifyBool ZifyN ZifyNat.
From Flocq Require Import Core BinarySingleNaN.
From Verif Require Import Base Num Peg Float FloatReal DmsReal Paths Colours Settings Trees Decode SpecSectors SpecSectorIndex.
From Verif Require Prf PathProofs SctData SctParse EseParse AirwayTxt Airways SymbologyParse TopskyParse Icao Sectors SectorsProofs SectorsFromEse SectorIndex
  SectorIndexProofs Constraints Locations SpecLocations LocationsProofs LocationsResolve Maps MapsFiling SctItems SctItemsProofs SpecPrf.
From Verif Require Import Adaptation SpecAdaptation.
Local Open Scope string_scope.
Local Open Scope list_scope.

Lemma obind_ret {A B} (x : outcome A) (f : A -> outcome B) b : obind x f = Ret b -> exists a, x = Ret a /\ f a = Ret b.
Proof. destruct x; cbn; [eauto | discriminate..]. Qed.
Lemma obind_err {A B} (x : outcome A) (f : A -> outcome B) : obind x f = Err -> x = Err \/ exists a, x = Ret a /\ f a = Err.
Proof. destruct x; cbn; [eauto | auto | discriminate]. Qed.
Lemma unwrap_ret {A} (o : option A) a : unwrap o = Ret a -> o = Some a.
Proof. destruct o; cbn; congruence. Qed.
Lemma unwrap_err {A} (o : option A) : unwrap o <> Err.
Proof. destruct o; discriminate. Qed.

Lemma read_parse_ret {A} v p (parse : text -> outcome A) x : read_parse v p parse = Ret x <-> file_read v p parse x.
Proof.
  unfold read_parse, file_read. split.
  - intros H. apply obind_ret in H. destruct H as [q [-> H]]. destruct (read v q) as [b|] eqn:R; [|discriminate]. eauto 6.
  - intros [q [b [-> [R H]]]]. cbn. rewrite R. exact H.
Qed.
Definition not_err (p : outcome path) : Prop := p <> Err.
Lemma read_parse_err {A} v p (parse : text -> outcome A) : not_err p -> read_parse v p parse = Err <-> file_bad v p parse.
Proof.
  intros NE. unfold read_parse, file_bad. split.
  - intros H. apply obind_err in H. destruct H as [H|[q [-> H]]]; [contradiction|]. exists q. split; [reflexivity|].
    destruct (read v q) as [b|]; eauto.
  - intros [q [-> H]]. cbn. destruct H as [->|[b [-> H]]]; [reflexivity | exact H].
Qed.

(** the paths never fail with an error *)
Lemma join_not_err w r x : Prf.join_settings_path w r x <> Err.
Proof.
  unfold Prf.join_settings_path. destruct (strip _ _); [|discriminate]. destruct (parent _); discriminate.
Qed.
Lemma setting_not_err r k : Prf.setting r k <> Err.
Proof. apply unwrap_err. Qed.
Ltac path_not_err := intros H; apply obind_err in H; destruct H as [H|[? [_ H]]]; [exact (setting_not_err _ _ H)|];
  first [exact (join_not_err _ _ _ H) | apply obind_err in H; destruct H as [H|[? [_ H]]]; [exact (join_not_err _ _ _ H) | discriminate]].
Lemma paths_not_err w r : not_err (Prf.sct_path w r) /\ not_err (Prf.ese_path w r) /\ not_err (Prf.airways_path w r) /\ not_err (Prf.symbology_path w r) /\
  not_err (Prf.airports_path w r) /\ not_err (Prf.navdata_airports_path w r) /\ not_err (Prf.aircraft_path w r) /\ not_err (Prf.airlines_path w r).
Proof. repeat split; path_not_err. Qed.
Lemma find_plugin_not_err w r dll f it : Prf.find_plugin w r dll f it <> Err.
Proof.
  induction it as [|[k x] it IH]; [discriminate|]. cbn [Prf.find_plugin]. intros H. apply obind_err in H. destruct H as [H|[q [_ H]]]; [exact (join_not_err _ _ _ H)|].
  destruct (if eqb _ _ then f q else None); [discriminate | exact (IH H)].
Qed.
Lemma in_prf_dir_not_err r o : Prf.in_prf_dir r o <> Err.
Proof. unfold Prf.in_prf_dir. destruct o; [|discriminate]. destruct (parent _); discriminate. Qed.
Lemma topsky_dir_not_err v r : topsky_dir v r <> Err.
Proof.
  intros H. unfold topsky_dir, Prf.topsky_path in H. apply obind_err in H. destruct H as [H|[? [_ H]]];
    [exact (find_plugin_not_err _ _ _ _ _ H) | exact (in_prf_dir_not_err _ _ H)].
Qed.
Lemma squawks_file_not_err v r : squawks_file v r <> Err.
Proof.
  intros H. unfold squawks_file, Prf.squawks_path in H. apply obind_err in H. destruct H as [H|[? [_ H]]];
    [exact (find_plugin_not_err _ _ _ _ _ H) | exact (in_prf_dir_not_err _ _ H)].
Qed.

Lemma load_topsky_files v r : load_topsky v r =
  obind (topsky_dir v r) (fun o => match o with
    | None => Ret None
    | Some d => match topsky_files v d with Ret t => Ret (Some t) | Err => Ret None | Panic => Panic end
    end).
Proof.
  unfold load_topsky, topsky_dir, topsky_files. destruct (Prf.topsky_path _ _ _) as [[d|]| |]; reflexivity.
Qed.
Lemma load_topsky_ret v r o : load_topsky v r = Ret o <-> topsky_data v r o.
Proof.
  rewrite load_topsky_files. unfold topsky_data. split.
  - intros H. apply obind_ret in H. destruct H as [[d|] [E H]].
    + destruct (topsky_files v d) as [t| |] eqn:T; [|..]; try discriminate; injection H as <-; eauto.
    + injection H as <-. auto.
  - destruct o as [t|].
    + intros [d [-> E]]. cbn. rewrite E. reflexivity.
    + intros [->|[d [-> E]]]; [reflexivity|]. cbn. rewrite E. reflexivity.
Qed.
Lemma load_topsky_not_err v r : load_topsky v r <> Err.
Proof.
  rewrite load_topsky_files. intros H. apply obind_err in H. destruct H as [H|[[d|] [_ H]]]; [exact (topsky_dir_not_err _ _ H)| |discriminate].
  destruct (topsky_files v d); discriminate.
Qed.
Lemma load_squawks_ret v r o : load_squawks v r = Ret o <-> squawks_data v r o.
Proof.
  unfold load_squawks, squawks_data. fold (squawks_file v r). split.
  - intros H. apply obind_ret in H. destruct H as [[p|] [E H]]; injection H as <-; cbn [and_then].
    + destruct (read v p) as [b|] eqn:R; cbn [and_then]; [|eauto]. destruct (json v b) eqn:J; eauto 8.
    + auto.
  - destruct o as [l|].
    + intros [p [b [-> [R J]]]]. cbn. rewrite R. cbn. rewrite J. reflexivity.
    + intros [->|[p [-> H]]]; [reflexivity|]. cbn. destruct H as [->|[b [-> J]]]; [reflexivity|]. cbn. rewrite J. reflexivity.
Qed.
Lemma load_squawks_not_err v r : load_squawks v r <> Err.
Proof. unfold load_squawks. intros H. apply obind_err in H. destruct H as [H|[? [_ H]]]; [exact (squawks_file_not_err _ _ H) | discriminate]. Qed.

Lemma recent_not_err w r n : Prf.recent_path w r n <> Err.
Proof.
  unfold Prf.recent_path. destruct (get _ _); [|discriminate]. intros H. apply obind_err in H. destruct H as [H|[? [_ H]]]; [exact (join_not_err _ _ _ H) | discriminate].
Qed.
Lemma omap_not_err {A B} (f : A -> outcome B) l : (forall x, f x <> Err) -> omap f l <> Err.
Proof.
  intros N. induction l as [|x l IH]; [discriminate|]. cbn [omap]. intros H. apply obind_err in H. destruct H as [H|[? [_ H]]]; [exact (N _ H)|].
  apply obind_err in H. destruct H as [H|[? [_ H]]]; [exact (IH H) | discriminate].
Qed.
Definition the_settings (v : env) (r : Prf.prf) (y : SymbologyParse.symbology) (t : option TopskyParse.topsky) (q : option (list squawk)) : settings :=
  let ts := option_map TopskyParse.tk_settings t in
  mkSettings (Maps.mkMapsSettings (maps_font_size ts) (s2t "AUTO") (lit 1) (f64_of_Z 3, f64_of_Z 3))
    (line_settings_from (items_of y)) (label_settings_from (items_of y)) (vector_settings ts) (history_dots ts) (coopans_setting ts)
    (match q with Some l => special_use_codes l | None => [] end)
    (asr_files (fun i => match Prf.recent_path (cwd v) r i with Ret o => o | _ => None end)) default_coordination
    None vector_options dots_options.
Lemma settings_ret v r y t q st : settings_from v r y t q = Ret st -> st = the_settings v r y t q.
Proof. unfold settings_from. intros H. apply obind_ret in H. destruct H as [? [_ H]]. injection H as <-. reflexivity. Qed.
Lemma settings_not_err v r y t q : settings_from v r y t q <> Err.
Proof.
  unfold settings_from. intros H. apply obind_err in H. destruct H as [H|[? [_ H]]]; [exact (omap_not_err _ _ (recent_not_err _ _) H) | discriminate].
Qed.

(** conversions never fail with an error *)
Lemma conv_or_not_err a b : a <> Err -> b <> Err -> Locations.conv_or a b <> Err.
Proof. destruct a as [[|]| |], b as [[|]| |]; cbn; congruence. Qed.
Lemma convert_not_err dest L d : Locations.convert_designator dest L d <> Err.
Proof.
  unfold Locations.convert_designator. apply conv_or_not_err; [apply conv_or_not_err; [discriminate|]|].
  - unfold Locations.convert_coordinate. destruct (Locations.coord_captures d) as [[[[lat ns] lng] ew]|]; [|discriminate].
    destruct (Locations.normalise _ lat) as [x|]; [|discriminate]. destruct (Locations.normalise _ lng) as [y|]; [|discriminate].
    destruct (negb _); [discriminate|]. destruct (Locations.coord_value 2 x), (Locations.coord_value 3 y); discriminate.
  - unfold Locations.convert_range_bearing. destruct (Locations.rb_captures d) as [[[f b] g]|]; [|discriminate].
    destruct (Locations.parse_digits b), (Locations.parse_digits g); discriminate.
Qed.
Lemma resolve_not_err dest L l : Locations.resolve_wpts dest L l <> Err.
Proof.
  induction l as [|d l IH]; [discriminate|]. cbn [Locations.resolve_wpts]. pose proof (convert_not_err dest L d).
  destruct (Locations.convert_designator dest L d); [|contradiction|discriminate]. destruct (Locations.resolve_wpts dest L l); [discriminate|contradiction|discriminate].
Qed.
Lemma from_euroscope_fold_not_err dest ps : forall st, st <> Err -> fold_left (Locations.add_sid_star dest) ps st <> Err.
Proof.
  induction ps as [|p ps IH]; intros st N; [exact N|]. cbn [fold_left]. apply IH. destruct st as [L| |]; [|contradiction|discriminate].
  destruct p as [p|p]; cbn; unfold Locations.conv_proc; pose proof (resolve_not_err dest L (Locations.ep_wpts p));
    destruct (Locations.resolve_wpts dest L _); congruence.
Qed.
Lemma from_euroscope_not_err dest i : Locations.from_euroscope dest i <> Err.
Proof. apply from_euroscope_fold_not_err. discriminate. Qed.
Lemma all_return_not_err v L ls : all_return v L ls <> Err.
Proof. unfold all_return. destruct (forallb _ _); discriminate. Qed.

(** ** What a loaded adaptation consists of *)
Definition lookup_of (v : env) (F : files) (t : option TopskyParse.topsky) (n : text) : option colour :=
  let coopans := coopans_setting (option_map TopskyParse.tk_settings t) in
  colours_get (colours_of v (f_symbology F) (f_sct F) t coopans) n coopans.
Definition map_ctx (v : env) (F : files) (t : option TopskyParse.topsky) (L : Locations.locations) : Maps.ctx :=
  Maps.mkCtx (lookup_of v F t) (place v L)
    (Maps.mkMapsSettings (maps_font_size (option_map TopskyParse.tk_settings t)) (s2t "AUTO") (lit 1) (f64_of_Z 3, f64_of_Z 3)).
Definition items_ctx (v : env) (F : files) (t : option TopskyParse.topsky) (L : Locations.locations) : SctItems.sct_ctx :=
  SctItems.mkSctCtx (lookup_of v F t) (place v L)
    (sid_colour (colours_of v (f_symbology F) (f_sct F) t (coopans_setting (option_map TopskyParse.tk_settings t)))).
Definition ese_sectors_of (v : env) (e : EseParse.ese) :=
  Sectors.sectors_from_ese (order v SEseSectors _ (EseParse.e_sectors e)) (fun id => order v (SRing id) _) (ccw v) (order v SGroups _).
Definition maps_of (v : env) (F : files) (t : option TopskyParse.topsky) (L : Locations.locations) : outcome (list (text * Maps.folder)) :=
  match t with
  | Some x =>
    do _ <- all_return v L (map_locations (map_ctx v F t L) (TopskyParse.tk_maps x));
    unwrap (Maps.from_topsky (map_ctx v F t L) (TopskyParse.tk_overrides x) (TopskyParse.tk_maps x))
  | None => Ret []
  end.
Definition locations_of (v : env) (F : files) := Locations.from_euroscope (dest v) (loc_input_of v (f_sct F) (f_ese F) (f_airports F) (f_navdata F)).
Definition symbols_of (F : files) (t : option TopskyParse.topsky) : symbols :=
  symbols_from (option_map (fun t => map (fun '(k, x) => (k, snd x)) (TopskyParse.tk_symbols t)) t) (SymbologyParse.sg_symbols (f_symbology F)).
Definition styles_of (v : env) (t : option TopskyParse.topsky) :=
  line_styles_from_topsky (upper v) (option_map (fun t => order v SStyles _ (map (fun '(k, l) => (k, TopskyParse.ld_dashes l)) (TopskyParse.tk_styles t))) t).
Record made_of (v : env) (r : Prf.prf) (F : files) (t : option TopskyParse.topsky) (q : option (list squawk)) (a : adaptation) : Prop := {
  mo_files : files_read v r F;
  mo_topsky : topsky_data v r t;
  mo_squawks : squawks_data v r q;
  mo_name : ad_name a = SctData.in_name (SctData.sc_info (f_sct F));
  mo_points : locations_of v F = Ret (al_points (ad_locations a));
  mo_airways : al_airways (ad_locations a) = f_airways F;
  mo_positions : ad_positions a = from_ese_positions (EseParse.e_positions (f_ese F));
  mo_sectors : ese_sectors_of v (f_ese F) = Some (ad_volumes a, ad_sectors a);
  mo_constraints : Constraints.extract_constraints (EseParse.e_constraints (f_ese F)) = (ad_departure a, ad_destination a);
  mo_maps : maps_of v F t (al_points (ad_locations a)) = Ret (ad_maps a);
  mo_symbols : ad_symbols a = symbols_of F t;
  mo_colours : ad_colours a = colours_of v (f_symbology F) (f_sct F) t (coopans_setting (option_map TopskyParse.tk_settings t));
  mo_styles : ad_line_styles a = styles_of v t;
  mo_settings : ad_settings a = the_settings v r (f_symbology F) t q;
  mo_aircraft : ad_aircraft a = f_aircraft F;
  mo_airlines : ad_airlines a = f_airlines F;
  mo_items : SctItems.from_sct fmt6 (items_ctx v F t (al_points (ad_locations a))) (f_sct F) = Some (ad_sct_items a);
  mo_index : ad_index a = Some (tree_of v (ad_sectors a) (ad_volumes a)) }.

Tactic Notation "ret" ident(H) ident(x) ident(E) := apply obind_ret in H; destruct H as [x [E H]].
Lemma from_prf_ret v r a : from_prf v r = Ret a -> exists F t q, made_of v r F t q a.
Proof.
  intros H. unfold from_prf in H.
  ret H s ES. ret H e EE. ret H w EW. ret H vs EV. destruct vs as [vols secs]. apply unwrap_ret in EV.
  destruct (Constraints.extract_constraints (EseParse.e_constraints e)) as [dep des] eqn:EC.
  ret H y EY. ret H q EQ. ret H t ET. ret H st EST. ret H ic EI. ret H nv EN. ret H L EL. ret H u EU. ret H si ESI. apply unwrap_ret in ESI.
  ret H ac EA. ret H al EAL. ret H mp EM. injection H as <-.
  apply settings_ret in EST. subst st. cbn [the_settings se_coopans se_maps] in *.
  set (F := mkFiles s e w y ic nv ac al). exists F, t, q.
  constructor; cbn [ad_name ad_locations al_points al_airways ad_positions ad_volumes ad_sectors ad_departure ad_destination ad_maps ad_symbols ad_colours
    ad_line_styles ad_settings ad_aircraft ad_airlines ad_sct_items ad_index]; try reflexivity; try assumption.
  - constructor; apply read_parse_ret; assumption.
  - apply load_topsky_ret, ET.
  - apply load_squawks_ret, EQ.
Qed.

(** the converse *)
Ltac run E := rewrite E; cbn [obind].
Lemma from_prf_made v r F t q a : made_of v r F t q a -> (exists l, omap (Prf.recent_path (cwd v) r) [1; 2; 3; 4; 5; 6; 7; 8; 9]%N = Ret l) ->
  all_return v (al_points (ad_locations a)) (sct_locations (f_sct F)) = Ret tt -> from_prf v r = Ret a.
Proof.
  intros [M1 M2 M3 M4 M5 M6 M7 M8 M9 M10 M11 M12 M13 M14 M15 M16 M17 M18] [rl R] AR. unfold from_prf.
  destruct M1 as [R1 R2 R3 R4 R5 R6 R7 R8].
  apply read_parse_ret in R1, R2, R3, R4, R5, R6, R7, R8. apply load_topsky_ret in M2. apply load_squawks_ret in M3.
  run R1. run R2. run R3. unfold ese_sectors_of in M8. rewrite M8. cbn [unwrap obind]. rewrite M9. run R4. run M3. run M2.
  unfold settings_from. run R. cbn [se_coopans se_maps]. run R5. run R6. unfold locations_of in M5. run M5. run AR.
  unfold items_ctx, lookup_of in M17. cbv zeta in M17. rewrite M17. cbn [unwrap obind]. run R7. run R8. unfold maps_of, map_ctx, lookup_of in M10. cbv zeta in M10.
  run M10. f_equal. destruct a as [a1 [a2 a2'] a3 a4 a5 a6 a7 a8 a9 a10 a11 a12 a13 a14 a15 a16]. cbn in *. subst. reflexivity.
Qed.

Lemma from_prf_err v r : from_prf v r = Err -> some_file_bad v r.
Proof.
  intros H. unfold from_prf in H. unfold some_file_bad. destruct (paths_not_err (cwd v) r) as [P1 [P2 [P3 [P4 [P5 [P6 [P7 P8]]]]]]].
  apply obind_err in H. destruct H as [H|[s [ES H]]]; [apply read_parse_err in H; tauto|].
  apply obind_err in H. destruct H as [H|[e [EE H]]]; [apply read_parse_err in H; tauto|].
  apply obind_err in H. destruct H as [H|[w [EW H]]]; [apply read_parse_err in H; tauto|].
  apply obind_err in H. destruct H as [H|[[vols secs] [EV H]]]; [contradiction (unwrap_err _ H)|].
  destruct (Constraints.extract_constraints (EseParse.e_constraints e)) as [dep des] eqn:EC.
  apply obind_err in H. destruct H as [H|[y [EY H]]]; [apply read_parse_err in H; tauto|].
  apply obind_err in H. destruct H as [H|[q [EQ H]]]; [contradiction (load_squawks_not_err _ _ H)|].
  apply obind_err in H. destruct H as [H|[t [ET H]]]; [contradiction (load_topsky_not_err _ _ H)|].
  apply obind_err in H. destruct H as [H|[st [EST H]]]; [contradiction (settings_not_err _ _ _ _ _ H)|].
  apply obind_err in H. destruct H as [H|[ic [EI H]]]; [apply read_parse_err in H; tauto|].
  apply obind_err in H. destruct H as [H|[nv [EN H]]]; [apply read_parse_err in H; tauto|].
  apply obind_err in H. destruct H as [H|[L [EL H]]]; [contradiction (from_euroscope_not_err _ _ H)|].
  apply obind_err in H. destruct H as [H|[u [EU H]]]; [contradiction (all_return_not_err _ _ _ H)|].
  apply obind_err in H. destruct H as [H|[si [ESI H]]]; [contradiction (unwrap_err _ H)|].
  apply obind_err in H. destruct H as [H|[ac [EA H]]]; [apply read_parse_err in H; tauto|].
  apply obind_err in H. destruct H as [H|[al [EAL H]]]; [apply read_parse_err in H; tauto|].
  apply obind_err in H. destruct H as [H|[mp [EM H]]]; [|discriminate].
  destruct t as [t|]; [|discriminate]. apply obind_err in H. destruct H as [H|[u' [_ H]]]; [contradiction (all_return_not_err _ _ _ H) | contradiction (unwrap_err _ H)].
Qed.
Lemma read_not_bad {A} v p (parse : text -> outcome A) x : file_read v p parse x -> ~ file_bad v p parse.
Proof. intros [q [b [-> [R E]]]] [q' [E' H]]. injection E' as <-. destruct H as [H|[b' [R' H]]]; congruence. Qed.
Lemma bad_not_loaded v r a : some_file_bad v r -> from_prf v r <> Ret a.
Proof.
  intros B H. apply from_prf_ret in H. destruct H as [F [t [q M]]]. destruct (mo_files _ _ _ _ _ _ M) as [R1 R2 R3 R4 R5 R6 R7 R8].
  apply read_not_bad in R1, R2, R3, R4, R5, R6, R7, R8. unfold some_file_bad in B. tauto.
Qed.
