(** Property theorems: loading a profile into an adaptation (C60-C64, C67), overlays (C65) and adaptation.toml (C66).

    [v : env] stands for what is outside of the repository: the files, the working directory, the iteration order of hash maps and library
    functions.  The theorems hold for all of them, under the assumptions named in the hypotheses. *)
From Coq Require Import Reals.
From Flocq Require Import Core BinarySingleNaN.
From Verif Require Import Base Float Paths Colours Settings Trees Decode SpecSectors SpecSectorIndex.
From Verif Require SpecPrf SpecColours SpecSettings SpecLocations SettingsProofs LocationsResolve PropLocations Constraints Prf SctData SctParse EseParse AirwayTxt SymbologyParse TopskyParse Icao
  Sectors SectorIndex Locations Maps PathProofs.
From Verif Require Import Adaptation SpecAdaptation AdaptationProofs AdaptationLoads AdaptationContents AdaptationMore AdaptationExample.
Local Open Scope string_scope.
Local Open Scope list_scope.

(** C60: eight files are needed *)
Theorem C60_needs_all_files v r a : from_prf v r = Ret a -> exists F, files_read v r F.
Proof. intros H. destruct (from_prf_ret v r a H) as [F [t [q M]]]. exists F. exact (mo_files _ _ _ _ _ _ M). Qed.
Print Assumptions C60_needs_all_files.
Theorem C60_error_means_bad_file v r : from_prf v r = Err -> some_file_bad v r.
Proof. exact (from_prf_err v r). Qed.
Print Assumptions C60_error_means_bad_file.
Theorem C60_bad_file_no_result v r a : some_file_bad v r -> from_prf v r <> Ret a.
Proof. exact (bad_not_loaded v r a). Qed.
Print Assumptions C60_bad_file_no_result.
(** and enough, unless TopSky panics or a designator has foreign digits: *)
Theorem C60_loads v r F d : orders_ok v -> SpecPrf.directory (Prf.prf_path r) d -> files_read v r F ->
  (forall x, topsky_dir v r = Ret (Some x) -> topsky_files v x <> Panic) ->
  plain_ese (f_ese F) -> plain_sct (f_sct F) -> (forall t, topsky_data v r (Some t) -> plain_topsky t) ->
  exists a, from_prf v r = Ret a.
Proof. exact (loads v r F d). Qed.
Print Assumptions C60_loads.
(** The example of AdaptationExample.v meets the hypotheses; without one of the files it is an error. *)
Example C60_nonvacuous : (exists a, from_prf ex_env ex_prf = Ret a /\ ad_name a = s2t "AeroNav") /\
  orders_ok ex_env /\ SpecPrf.directory (Prf.prf_path ex_prf) (pth "/w") /\ files_read ex_env ex_prf ex_F /\
  (forall x, topsky_dir ex_env ex_prf = Ret (Some x) -> topsky_files ex_env x <> Panic) /\
  plain_ese (f_ese ex_F) /\ plain_sct (f_sct ex_F) /\ (forall t, topsky_data ex_env ex_prf (Some t) -> plain_topsky t) /\
  (exists t, topsky_data ex_env ex_prf (Some t) /\ List.length (TopskyParse.tk_maps t) = 2%nat) /\
  let bad := with_files ex_env (without ["/w/ICAO_Airlines.txt"]) in from_prf bad ex_prf = Err /\ some_file_bad bad ex_prf.
Proof.
  destruct ex_topsky_eq as [TD [TF [NP NE]]].
  split; [eexists; split; [vm_compute; reflexivity | vm_compute; reflexivity]|].
  split; [exact ex_orders|]. split; [exact ex_dir|]. split; [exact ex_files_read|].
  split; [intros x E; rewrite TD in E; assert (pth "/w/TopSky" = x) as <- by congruence; rewrite TF; exact NP|].
  split; [exact ex_plain_ese|]. split; [exact ex_plain_sct|].
  split; [intros t [d [E X]]; rewrite TD in E; assert (pth "/w/TopSky" = d) as <- by congruence; rewrite TF in X; exact (ex_plain_topsky t X)|].
  split. { destruct ex_topsky as [t| |] eqn:E; [|congruence..]. exists t. split; [exists (pth "/w/TopSky"); auto|]. vm_compute in E. injection E as <-. reflexivity. }
  cbv zeta. split; [vm_compute; reflexivity|]. do 7 right. eexists. split; [vm_compute; reflexivity|]. left. vm_compute. reflexivity.
Qed.

(** C61: without TopSky *)
Theorem C61_without_topsky v r a : orders_ok v -> from_prf v r = Ret a -> topsky_data v r None ->
  ad_maps a = [] /\
  (forall n, symbols_get (ad_symbols a) n = None) /\
  (forall F, files_read v r F -> forall k,
     (forall s, get (SpecSettings.symbology_type k) (SymbologyParse.sg_symbols (f_symbology F)) = Some s -> SpecSettings.symbol_field k (ad_symbols a) = s) /\
     (get (SpecSettings.symbology_type k) (SymbologyParse.sg_symbols (f_symbology F)) = None -> k <> SpecSettings.KVor ->
        SpecSettings.symbol_field k (ad_symbols a) = SpecSettings.symbol_field k symbols_default)) /\
  (forall k d, get k (ad_line_styles a) = Some d <-> SpecSettings.builtin_style k d) /\
  (forall F, files_read v r F -> forall n, exists d, SpecColours.builtin_default true n d /\
     colours_get (ad_colours a) n true = SpecColours.first_some [get n (SctData.sc_colours (f_sct F)); d]) /\
  se_coopans (ad_settings a) = true /\ Maps.st_font (se_maps (ad_settings a)) = f32_of_Z 12 /\
  se_vector (ad_settings a) = (false, f32_of_Z 1) /\ se_dots (ad_settings a) = (false, 6%N).
Proof. exact (without_topsky v r a). Qed.
Print Assumptions C61_without_topsky.
(** without squawks.json: no special use codes; with it, those of the file *)
Theorem C61_squawks v r a q : orders_ok v -> from_prf v r = Ret a -> squawks_data v r q ->
  forall k m, get k (se_codes (ad_settings a)) = Some m <->
    exists l pre x post, q = Some l /\ l = pre ++ x :: post /\ SpecSettings.covers x k /\ sq_msg x = m /\ forall x', In x' post -> ~ SpecSettings.covers x' k.
Proof. exact (squawks_codes v r a q). Qed.
Print Assumptions C61_squawks.
Example C61_nonvacuous :
  let v := with_files ex_env (without ["/w/TopSky/TopSkyMaps.txt"]) in
  topsky_data v ex_prf None /\ topsky_data (with_files ex_env (without ["/w/TopSky/TopSkySettings.txt"])) ex_prf None /\
  (exists a, from_prf v ex_prf = Ret a /\ colours_get (ad_colours a) (s2t "COLOR_APP") true = Some (mkColour 0 0 255 255) /\
     get (s2t "7000") (se_codes (ad_settings a)) = Some (s2t "VFR")) /\
  (exists a, from_prf ex_env ex_prf = Ret a /\ colours_get (ad_colours a) (s2t "Own") false = Some (mkColour 30 31 32 255) /\
     se_coopans (ad_settings a) = false /\ ad_maps a <> []) /\
  squawks_data ex_env ex_prf (Some [mkSquawk (Some (s2t "7000")) None (s2t "VFR")]).
Proof.
  cbv zeta. split; [right; eexists; split; [vm_compute; reflexivity | vm_compute; reflexivity]|]. split; [right; eexists; split; [vm_compute; reflexivity | vm_compute; reflexivity]|].
  split; [eexists; split; [vm_compute; reflexivity|]; split; vm_compute; reflexivity|].
  split; [eexists; split; [vm_compute; reflexivity|]; split; [vm_compute; reflexivity|]; split; [vm_compute; reflexivity | vm_compute; discriminate]|].
  eexists _, _. split; [vm_compute; reflexivity|]. split; vm_compute; reflexivity.
Qed.
(** TopSky files that are errors are ignored, but there are some that take everything else with them. *)
Theorem C61_ignored_refuted : exists v r F, orders_ok v /\ files_read v r F /\ plain_ese (f_ese F) /\ plain_sct (f_sct F) /\
  (exists a, from_prf (with_files v (fun p => if eqb p (pth "/w/TopSky/TopSkyMaps.txt") then None else read v p)) r = Ret a) /\ from_prf v r = Panic.
Proof. exact ignored_refuted. Qed.
Print Assumptions C61_ignored_refuted.

(** C62: only the files the profile names matter, *)
Theorem C62_only_named_files v rd r : same_file v rd (Prf.sct_path (cwd v) r) -> same_file v rd (Prf.ese_path (cwd v) r) ->
  same_file v rd (Prf.airways_path (cwd v) r) -> same_file v rd (Prf.symbology_path (cwd v) r) ->
  same_file v rd (Prf.airports_path (cwd v) r) -> same_file v rd (Prf.navdata_airports_path (cwd v) r) ->
  same_file v rd (Prf.aircraft_path (cwd v) r) -> same_file v rd (Prf.airlines_path (cwd v) r) ->
  same_topsky v rd r -> same_squawks v rd r -> from_prf (with_files v rd) r = from_prf v r.
Proof. exact (from_prf_same v rd r). Qed.
Print Assumptions C62_only_named_files.
(** and each of them for some parts only. *)
Theorem C62_parts v rd r a a' : from_prf v r = Ret a -> from_prf (with_files v rd) r = Ret a' ->
  (same_file v rd (Prf.sct_path (cwd v) r) -> ad_name a' = ad_name a) /\
  (same_file v rd (Prf.ese_path (cwd v) r) -> ad_positions a' = ad_positions a /\ ad_volumes a' = ad_volumes a /\ ad_sectors a' = ad_sectors a /\
     ad_departure a' = ad_departure a /\ ad_destination a' = ad_destination a /\ ad_index a' = ad_index a) /\
  (same_file v rd (Prf.airways_path (cwd v) r) -> al_airways (ad_locations a') = al_airways (ad_locations a)) /\
  (same_file v rd (Prf.aircraft_path (cwd v) r) -> ad_aircraft a' = ad_aircraft a) /\
  (same_file v rd (Prf.airlines_path (cwd v) r) -> ad_airlines a' = ad_airlines a) /\
  (same_file v rd (Prf.sct_path (cwd v) r) -> same_file v rd (Prf.ese_path (cwd v) r) -> same_file v rd (Prf.airports_path (cwd v) r) ->
     same_file v rd (Prf.navdata_airports_path (cwd v) r) -> al_points (ad_locations a') = al_points (ad_locations a)) /\
  (same_topsky v rd r -> ad_line_styles a' = ad_line_styles a) /\
  (same_topsky v rd r -> same_file v rd (Prf.symbology_path (cwd v) r) -> ad_symbols a' = ad_symbols a) /\
  (same_topsky v rd r -> same_file v rd (Prf.symbology_path (cwd v) r) -> same_squawks v rd r -> ad_settings a' = ad_settings a) /\
  (same_topsky v rd r -> same_file v rd (Prf.symbology_path (cwd v) r) -> same_file v rd (Prf.sct_path (cwd v) r) -> ad_colours a' = ad_colours a).
Proof. exact (parts_same v rd r a a'). Qed.
Print Assumptions C62_parts.
Example C62_nonvacuous :
  let rd := without ["/w/readme.txt"; "/w/adaptation.toml"] in let rd' := without ["/w/TopSky/TopSkyMaps.txt"] in
  rd (pth "/w/adaptation.toml") <> read ex_env (pth "/w/adaptation.toml") /\
  same_file ex_env rd (Prf.sct_path (cwd ex_env) ex_prf) /\ same_topsky ex_env rd ex_prf /\ same_squawks ex_env rd ex_prf /\
  same_file ex_env rd' (Prf.ese_path (cwd ex_env) ex_prf) /\ ~ same_topsky ex_env rd' ex_prf /\
  exists a a', from_prf ex_env ex_prf = Ret a /\ from_prf (with_files ex_env rd') ex_prf = Ret a' /\ ad_maps a <> ad_maps a'.
Proof.
  destruct ex_topsky_eq as [TD _]. cbv zeta.
  split; [vm_compute; discriminate|]. split; [intros q E; vm_compute in E; injection E as <-; reflexivity|].
  split; [intros d n E I; rewrite TD in E; assert (pth "/w/TopSky" = d) as <- by congruence; repeat (destruct I as [<-|I]; [vm_compute; reflexivity|]); destruct I|].
  split; [intros p E; vm_compute in E; injection E as <-; vm_compute; reflexivity|].
  split; [intros q E; vm_compute in E; injection E as <-; reflexivity|].
  split; [intros S; specialize (S (pth "/w/TopSky") "TopSkyMaps.txt" TD (or_intror (or_intror (or_introl eq_refl)))); vm_compute in S; discriminate|].
  eexists _, _. split; [vm_compute; reflexivity|]. split; [vm_compute; reflexivity | vm_compute; discriminate].
Qed.

(** C63: sectors of the .ese file, found in the loaded adaptation *)
Theorem C63_find_sector v r a F contains p level : orders_ok v -> load_ok (load v) -> contains_ok contains -> ccw_ok v ->
  from_prf v r = Ret a -> files_read v r F -> levels_ok (f_ese F) -> f32_ok level ->
  match find_sector v contains a p level with
  | Some id => (exists vid s, covers contains (f_ese F) a p level vid s /\ in_sector a id vid) /\
               forall id' vid s, covers contains (f_ese F) a p level vid s -> in_sector a id' vid -> alpha_le id id'
  | None => forall vid s, ~ covers contains (f_ese F) a p level vid s
  end.
Proof. exact (loaded_find v r a F contains p level). Qed.
Print Assumptions C63_find_sector.
Theorem C63_volumes_at v r a F contains p : orders_ok v -> load_ok (load v) -> contains_ok contains -> ccw_ok v ->
  from_prf v r = Ret a -> files_read v r F -> forall id vol,
  In (id, vol) (volumes_at v contains a p) <->
  exists vid s, valid_entry (EseParse.e_sectors (f_ese F)) vid s /\ Sectors.es_owner s <> [] /\ in_sector a id vid /\
    get vid (ad_volumes a) = Some vol /\ contains (Sectors.v_border vol) p = true.
Proof. exact (loaded_at v r a F contains p). Qed.
Print Assumptions C63_volumes_at.
Example C63_nonvacuous : orders_ok ex_env /\ load_ok (load ex_env) /\ contains_ok ex_contains /\ ccw_ok ex_env /\ files_read ex_env ex_prf ex_F /\
  levels_ok (f_ese ex_F) /\ f32_ok ex_level /\ exists a, from_prf ex_env ex_prf = Ret a /\ find_sector ex_env ex_contains a ex_point ex_level = Some (s2t "AAA") /\
  find_sector ex_env ex_contains a ex_point (f32_of_Z 9500) = Some (s2t "CCC") /\ find_sector ex_env ex_contains a ex_point (f32_of_Z 24500) = None /\
  map fst (volumes_at ex_env ex_contains a ex_point) = [s2t "AAA"; s2t "CCC"].
Proof.
  split; [exact ex_orders|]. split; [exact ex_load_ok|]. split; [exact ex_contains_ok|]. split; [exact ex_ccw|]. split; [exact ex_files_read|].
  split; [exact ex_levels|]. split; [exact ex_level_ok|]. eexists. split; [vm_compute; reflexivity|].
  split; [vm_compute; reflexivity|]. split; [vm_compute; reflexivity|]. split; vm_compute; reflexivity.
Qed.

(** C64: the same files give other answers on another day: the name of a sector is that of one of its definitions, whichever comes first in the
    hash map, *)
Theorem C64_same_answer_refuted : exists v ld o r contains p level a a',
  orders_ok v /\ orders_ok (with_orders v ld o) /\ load_ok (load v) /\ load_ok ld /\ contains_ok contains /\ ccw_ok v /\ f32_ok level /\
  from_prf v r = Ret a /\ from_prf (with_orders v ld o) r = Ret a' /\
  find_sector v contains a p level <> find_sector (with_orders v ld o) contains a' p level.
Proof. exact same_answer_refuted. Qed.
Print Assumptions C64_same_answer_refuted.
(** although the definitions are put together in the same way, and the rest is the same, unless the profile names a plugin twice (see C53). *)
Theorem C64_same_parts v ld o r a a' : orders_ok v -> orders_ok (with_orders v ld o) ->
  topsky_dir (with_orders v ld o) r = topsky_dir v r -> squawks_file (with_orders v ld o) r = squawks_file v r ->
  from_prf v r = Ret a -> from_prf (with_orders v ld o) r = Ret a' ->
  (forall x y, together a x y <-> together a' x y) /\
  (forall id, option_map (fun w => (Sectors.v_lower w, Sectors.v_upper w)) (get id (ad_volumes a)) =
              option_map (fun w => (Sectors.v_lower w, Sectors.v_upper w)) (get id (ad_volumes a'))) /\
  ad_name a = ad_name a' /\ al_airways (ad_locations a) = al_airways (ad_locations a') /\
  ad_departure a = ad_departure a' /\ ad_destination a = ad_destination a' /\ ad_aircraft a = ad_aircraft a' /\ ad_airlines a = ad_airlines a' /\
  (forall id, get id (ad_positions a) = get id (ad_positions a')) /\
  (forall id, get id (Locations.l_airports (al_points (ad_locations a))) = get id (Locations.l_airports (al_points (ad_locations a')))) /\
  se_coopans (ad_settings a) = se_coopans (ad_settings a') /\ se_asr (ad_settings a) = se_asr (ad_settings a') /\
  (forall k, get k (se_codes (ad_settings a)) = get k (se_codes (ad_settings a'))) /\
  (forall n, colours_get (ad_colours a) n (se_coopans (ad_settings a)) = colours_get (ad_colours a') n (se_coopans (ad_settings a'))).
Proof. exact (same_parts v ld o r a a'). Qed.
Print Assumptions C64_same_parts.
(** Sector definitions belong together exactly if owners and runways are the same. *)
Theorem C64_together v r a F : orders_ok v -> from_prf v r = Ret a -> files_read v r F -> forall x y,
  together a x y <-> exists s s', valid_entry (EseParse.e_sectors (f_ese F)) x s /\ valid_entry (EseParse.e_sectors (f_ese F)) y s' /\
    Sectors.es_owner s = Sectors.es_owner s' /\ Sectors.es_runways s = Sectors.es_runways s'.
Proof. exact (loaded_together v r a F). Qed.
Print Assumptions C64_together.
Example C64_nonvacuous : topsky_dir rev_env ex_prf = topsky_dir ex_env ex_prf /\ squawks_file rev_env ex_prf = squawks_file ex_env ex_prf /\
  exists a a', from_prf ex_env ex_prf = Ret a /\ from_prf rev_env ex_prf = Ret a' /\ ad_sectors a <> ad_sectors a' /\
    together a (s2t "AAA") (s2t "BBB") /\ together a' (s2t "AAA") (s2t "BBB") /\ ~ together a (s2t "AAA") (s2t "CCC").
Proof.
  split; [vm_compute; reflexivity|]. split; [vm_compute; reflexivity|]. eexists _, _. split; [vm_compute; reflexivity|]. split; [vm_compute; reflexivity|].
  split; [vm_compute; discriminate|].
  split; [exists (s2t "AAA"); split; (eexists; split; [left; reflexivity | cbn; auto])|].
  split; [exists (s2t "BBB"); split; (eexists; split; [right; left; reflexivity | cbn; auto])|].
  intros [id [[sc [I X]] [sc' [I' X']]]]. cbn in I, I'. destruct I as [E|[E|[]]], I' as [E'|[E'|[]]]; pose proof (f_equal fst E) as Y1; pose proof (f_equal fst E') as Y2; cbn in Y1, Y2;
    pose proof (f_equal snd E) as Z1; pose proof (f_equal snd E') as Z2; cbn in Z1, Z2; rewrite <- Z1 in X; rewrite <- Z2 in X'; cbn in X, X'; rewrite <- Y1 in Y2; intuition discriminate.
Qed.

(** C65 *)
Theorem C65_no_overlays v b r : from_prf_with_overlays v b r [] = from_prf v r.
Proof. unfold from_prf_with_overlays. destruct (from_prf v r); reflexivity. Qed.
Print Assumptions C65_no_overlays.
Theorem C65_overlays v b a l : l <> [] ->
  (forall a', apply_jsonnet_overlays v b a l = Ret a' -> overlaid b a l a') /\
  (forall a0, overlaid b a l a0 -> exists a', apply_jsonnet_overlays v b a l = Ret a' /\ same_data a' a0) /\
  apply_jsonnet_overlays v b a l <> Panic.
Proof. exact (overlays_ok v b a l). Qed.
Print Assumptions C65_overlays.
(** The index is that of the sectors and volumes with the overlays. *)
Theorem C65_index_is_new v b a l a' contains p level : l <> [] -> apply_jsonnet_overlays v b a l = Ret a' ->
  orders_ok v -> load_ok (load v) -> contains_ok contains -> data_ok (ad_sectors a', ad_volumes a') -> f32_ok level ->
  (forall id x, indexed (ad_sectors a', ad_volumes a') id x -> (Sectors.v_lower x < 16777216)%N /\ (Sectors.v_upper x < 16777216)%N) ->
  match find_sector v contains a' p level with
  | Some id => candidate contains (ad_sectors a', ad_volumes a') p level id /\
               forall id', candidate contains (ad_sectors a', ad_volumes a') p level id' -> alpha_le id id'
  | None => forall id, ~ candidate contains (ad_sectors a', ad_volumes a') p level id
  end.
Proof. exact (overlaid_find v b a l a' contains p level). Qed.
Print Assumptions C65_index_is_new.
Example C65_nonvacuous : exists a a', from_prf ex_env ex_prf = Ret a /\ let l := [pth "/w/a.jsonnet"; pth "/o/b.jsonnet"] in
  from_prf_with_overlays ex_env ex_libs ex_prf l = Ret a' /\ overlaid ex_libs a l a' /\ ad_sectors a' = [] /\ ad_sectors a <> [] /\
  data_ok (ad_sectors a', ad_volumes a') /\ find_sector ex_env ex_contains a ex_point ex_level = Some (s2t "AAA") /\
  find_sector ex_env ex_contains a' ex_point ex_level = None /\
  from_prf_with_overlays ex_env ex_libs ex_prf (rev l) = Err.
Proof.
  destruct (from_prf ex_env ex_prf) as [a| |] eqn:E; [|vm_compute in E; discriminate..]. exists a, (rebuild_sector_index ex_env (no_sectors a)). split; [reflexivity|]. cbv zeta.
  assert (H : apply_jsonnet_overlays ex_env ex_libs a [pth "/w/a.jsonnet"; pth "/o/b.jsonnet"] = Ret (rebuild_sector_index ex_env (no_sectors a))).
  { apply apply_ret; [discriminate|]. split; [|reflexivity]. exists (s2t "{json}"). eexists. exists (s2t "{merged}"), (no_sectors a).
    split; [reflexivity|]. split; [apply program_eq|]. split; [vm_compute; reflexivity|]. split; [cbn [ex_libs of_json]; rewrite E; reflexivity | repeat split]. }
  unfold from_prf_with_overlays. rewrite E. cbn [obind]. split; [exact H|].
  split; [apply (C65_overlays ex_env ex_libs a); [discriminate | exact H]|]. split; [reflexivity|].
  assert (A : exists b, from_prf ex_env ex_prf = Ret b /\ ad_sectors b <> [] /\ find_sector ex_env ex_contains b ex_point ex_level = Some (s2t "AAA") /\
    data_ok ([], ad_volumes b)).
  { eexists. split; [vm_compute; reflexivity|]. split; [vm_compute; discriminate|]. split; [vm_compute; reflexivity|].
    intros vid w p G I. apply get_In in G. cbn in G. destruct G as [G|[G|[G|[]]]]; injection G as _ <-; cbn in I;
      repeat (destruct I as [<-|I]; [split; intros N; vm_compute in N; discriminate|]); destruct I. }
  destruct A as [b [EB [A1 [A2 A3]]]]. assert (b = a) as -> by congruence. split; [exact A1|]. split; [exact A3|]. split; [exact A2|].
  split; [vm_compute; reflexivity|]. vm_compute. reflexivity.
Qed.

(** C66 *)
Theorem C66_setup v b f p os : setup_parse v b f = Ret (p, os) <->
  exists bytes t ts d, read v f = Some bytes /\ toml b bytes = Some (t, ts) /\ SpecPrf.directory f d /\ target b d t p /\ Forall2 (target b d) ts os.
Proof. exact (setup_iff v b f p os). Qed.
Print Assumptions C66_setup.
Theorem C66_setup_no_panic v b f d : SpecPrf.directory f d -> setup_parse v b f <> Panic.
Proof. exact (setup_not_panic v b f d). Qed.
Print Assumptions C66_setup_no_panic.
Theorem C66_loads v b f a : from_adaptation_toml v b f = Ret a <->
  exists p os bytes r a0, setup_parse v b f = Ret (p, os) /\ read v p = Some bytes /\ Prf.prf_parse (canonicalize b p) (read_to_string bytes) = Ret r /\
    from_prf v r = Ret a0 /\ apply_jsonnet_overlays v b a0 os = Ret a.
Proof. exact (toml_loads v b f a). Qed.
Print Assumptions C66_loads.
(** The working directory does not matter, for a profile whose paths start with a separator. *)
Theorem C66_working_directory v c r : orders_ok v -> self_contained r -> from_prf (with_cwd v c) r = from_prf v r.
Proof. exact (from_prf_cwd v c r). Qed.
Print Assumptions C66_working_directory.
Theorem C66_setup_working_directory v c b f : setup_parse (with_cwd v c) b f = setup_parse v b f.
Proof. reflexivity. Qed.
Print Assumptions C66_setup_working_directory.
Example C66_nonvacuous : setup_parse ex_env ex_libs (pth "/w/adaptation.toml") = Ret (pth "/w/x.prf", [pth "/w/a.jsonnet"; pth "/o/b.jsonnet"]) /\
  (exists a, from_adaptation_toml ex_env ex_libs (pth "/w/adaptation.toml") = Ret a /\ ad_sectors a = [] /\ ad_volumes a <> []) /\
  self_contained ex_prf /\ cwd ex_env <> pth "/w" /\ SpecPrf.directory (pth "/w/adaptation.toml") (pth "/w").
Proof.
  split; [vm_compute; reflexivity|]. split; [eexists; split; [vm_compute; reflexivity|]; split; [reflexivity | discriminate]|].
  split; [intros k x I; vm_compute in I; repeat (destruct I as [E|I]; [injection E as <- <-; eexists; left; reflexivity|]); destruct I|].
  split; [vm_compute; discriminate|]. split; [reflexivity|]. exists (s2t "adaptation.toml"). reflexivity.
Qed.

(** C67 *)
Theorem C67_contents v r a : orders_ok v -> from_prf v r = Ret a ->
  exists F t q, files_read v r F /\ topsky_data v r t /\ squawks_data v r q /\ contents v r F t q a.
Proof. exact (loaded_contents v r a). Qed.
Print Assumptions C67_contents.
(** Airports and designators, end to end *)
Theorem C67_places v r a F : orders_ok v -> from_prf v r = Ret a -> files_read v r F ->
  exists i, input_matches F i /\
    (forall d, SpecLocations.airport_entry i d (get d (Locations.l_airports (al_points (ad_locations a))))) /\
    (forall d, SpecLocations.plain_digits d -> forall o,
       Locations.convert_designator (dest v) (al_points (ad_locations a)) d = Ret o <-> SpecLocations.resolves (dest v) i d o).
Proof. exact (loaded_places v r a F). Qed.
Print Assumptions C67_places.
Example C67_nonvacuous : exists a, from_prf ex_env ex_prf = Ret a /\
  map (fun x => (fst x, Locations.ap_name (snd x))) (Locations.l_airports (al_points (ad_locations a))) =
    [(s2t "EDDM", Some (s2t "MUNICH")); (s2t "EDDB", Some (s2t "BERLIN BRANDENBURG"))] /\
  map fst (ad_positions a) = [s2t "EDDF"] /\ map fst (ad_aircraft a) = [s2t "EUFI"] /\ map fst (ad_airlines a) = [s2t "DLH"] /\
  se_asr (ad_settings a) = [pth "/w/a.asr"] /\
  (exists o, Locations.convert_designator (dest ex_env) (al_points (ad_locations a)) (s2t "NUB") = Ret (Some o)).
Proof.
  eexists. split; [vm_compute; reflexivity|]. split; [vm_compute; reflexivity|]. split; [vm_compute; reflexivity|]. split; [vm_compute; reflexivity|].
  split; [vm_compute; reflexivity|]. split; [vm_compute; reflexivity|]. eexists. vm_compute. reflexivity.
Qed.
