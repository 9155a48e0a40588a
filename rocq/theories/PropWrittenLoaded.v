(** C87: what is written in the files of a profile is what the loaded adaptation has.  Specification: SpecTableText.v, SpecEseText.v, SpecTopskyText.v,
    SpecSettingsText.v, SpecColours.v, SpecAdaptation.v. *)
From Verif Require Import Base Float Paths Decode Colours Settings Trees SpecText SpecFields SpecTableText TableFiles KeyedProofs.
From Verif Require Import Adaptation SpecAdaptation AdaptationProofs AdaptationMore AdaptationExample.
From Verif Require SpecColours SctData Icao EseParse SpecEseText EseFiles TopskyParse SpecTopskyText TopskyTextLoads SpecSettingsText SettingsText Prf PropTableText PropSettingsText PropTopskyText PropEseText.
Local Open Scope string_scope.
Local Open Scope list_scope.

(** The file at the path [p] has the text [t]. *)
Definition file_text (v : env) (p : outcome path) (t : text) : Prop := exists q b, p = Ret q /\ read v q = Some b /\ read_to_string b = t.
Lemma file_text_read {A} v p t (parse : text -> outcome A) x y : file_text v p t -> file_read v p parse x -> parse t = Ret y -> x = y.
Proof. intros [q [b [P [R <-]]]] [q' [b' [P' [R' E']]]] E. rewrite P in P'. injection P' as <-. rewrite R in R'. injection R' as <-. congruence. Qed.

(** Airlines and aircraft types: the first line of a designator counts. *)
Theorem C87_airlines v r a ls t : from_prf v r = Ret a -> ls <> [] -> Forall good_airline ls -> layout icao_space remarks (map airline_text ls) t ->
  file_text v (Prf.airlines_path (cwd v) r) t -> first_counts (map (fun a => (Icao.al_designator a, a)) ls) (ad_airlines a).
Proof.
  intros H N G L FT. destruct (from_prf_ret v r a H) as [F [tk [q M]]]. destruct (airlines_text_reads ls t N G L) as [m [E C]].
  rewrite (mo_airlines _ _ _ _ _ _ M), (file_text_read _ _ _ _ _ _ FT (fr_airlines _ _ _ (mo_files _ _ _ _ _ _ M)) E). exact C.
Qed.
Print Assumptions C87_airlines.
Theorem C87_aircraft v r a ls defs t : from_prf v r = Ret a -> ls <> [] -> Forall2 reads_aircraft_line ls defs -> layout icao_space remarks (map aircraft_text ls) t ->
  file_text v (Prf.aircraft_path (cwd v) r) t -> first_counts (List.concat defs) (ad_aircraft a).
Proof.
  intros H N G L FT. destruct (from_prf_ret v r a H) as [F [tk [q M]]]. destruct (PropTableText.C79_aircraft ls defs t N G L) as [m [E C]].
  rewrite (mo_aircraft _ _ _ _ _ _ M), (file_text_read _ _ _ _ _ _ FT (fr_aircraft _ _ _ (mo_files _ _ _ _ _ _ M)) E). exact C.
Qed.
Print Assumptions C87_aircraft.
(** Positions: the last line of an identifier in the last section of positions counts. *)
Theorem C87_positions v r a l t : orders_ok v -> from_prf v r = Ret a -> l <> [] -> Forall SpecEseText.good_section l -> SpecEseText.ese_text l t ->
  file_text v (Prf.ese_path (cwd v) r) t ->
  exists ps, Forall2 SpecEseText.reads_position (SpecEseText.positions_in l) ps /\
    forall id, match get id (rev (map (fun p => (EseParse.po_ident p, p)) ps)) with
      | Some p => exists x, get id (ad_positions a) = Some x /\ ps_id x = EseParse.po_ident p /\ ps_name x = EseParse.po_name p /\
          ps_frequency x = EseParse.po_freq p /\ ps_prefix x = EseParse.po_prefix p /\ ps_suffix x = EseParse.po_suffix p /\ ps_points x = EseParse.po_points p
      | None => get id (ad_positions a) = None
      end.
Proof.
  intros O H N G L FT. destruct (loaded_contents v r a O H) as [F [tk [q [FR [_ [_ C]]]]]]. destruct (EseFiles.ese_text_reads l t N G L) as [e [E [[ps [FP GP]] _]]].
  exists ps. split; [exact FP|]. intros id. rewrite <- GP, <- (file_text_read _ _ _ _ _ _ FT (fr_ese _ _ _ FR) E). exact (ct_positions _ _ _ _ _ _ C id).
Qed.
Print Assumptions C87_positions.

(** The TopSky files of the profile: the settings [es] (and the sections [ss]) and the maps [ms], which say [ds]; if there is a file of symbols, it is written, too. *)
Definition topsky_written (v : env) (r : Prf.prf) es ss ms ds : Prop := exists d, topsky_dir v r = Ret (Some d) /\
  let file n := mkPath (rooted d) (comps d ++ [s2t n]) in
  (exists t, Forall SpecSettingsText.well_written es /\ Forall SpecSettingsText.section_written ss /\
     SpecSettingsText.settings_layout (SpecSettingsText.settings_lines es ss) t /\ file_text v (Ret (file "TopSkySettings.txt")) t) /\
  (exists t, ms <> [] /\ Forall2 (SpecTopskyText.reads_entry (upper v)) ms ds /\ SpecTopskyText.ordered ms /\ SpecTopskyText.maps_layout ms t /\
     file_text v (Ret (file "TopSkyMaps.txt")) t) /\
  (read v (file "TopSkySymbols.txt") = None \/
   exists t l sy, l <> [] /\ Forall2 (fun '(name, ds) s => SpecTopskyText.reads_drawing name ds s) l sy /\ SpecTopskyText.symbols_layout l t /\ file_text v (Ret (file "TopSkySymbols.txt")) t).
Lemma topsky_written_data v r es ss ms ds : topsky_written v r es ss ms ds -> exists t, topsky_data v r (Some t) /\
  (forall n, get n (TopskyParse.tk_colours t) =
     match get n (rev (SpecTopskyText.colours_of ds)) with Some c => Some c | None => get n (rev (SpecSettingsText.colours_said es)) end) /\
  (forall n, get n (TopskyParse.tk_settings t) = get n (rev (SpecSettingsText.values_said es))) /\
  TopskyParse.tk_maps t = SpecTopskyText.maps_of ds /\ TopskyParse.tk_overrides t = SpecTopskyText.overrides_of ds.
Proof.
  intros [d [D [[t1 [W [WS [L1 [q1 [b1 [P1 [R1 E1]]]]]]]] [[t2 [N [F2 [OR [L2 [q2 [b2 [P2 [R2 E2]]]]]]]]] Y]]]].
  assert (RI : forall x y : path, Ret x = Ret y -> x = y) by (intros x y X; congruence). apply RI in P1. apply RI in P2. subst q1 q2.
  assert (SY : exists m, match read v (mkPath (rooted d) (comps d ++ [s2t "TopSkySymbols.txt"])) with
    | Some b => TopskyParse.parse_topsky_symbols (read_to_string b) | None => Ret [] end = Ret m).
  { destruct Y as [-> | [t [l [sy [NL [FL [LL [q [b [P [R E]]]]]]]]]]]; [eauto|]. apply RI in P. subst q. rewrite R, E, (TopskyTextLoads.symbols_text_reads l sy t NL FL LL). eauto. }
  destruct SY as [m SY]. eexists. split.
  { exists d. split; [exact D|]. unfold topsky_files, TopskyParse.parse_topsky. cbv zeta. rewrite R1, E1, (SettingsText.settings_text_reads es ss t1 W WS L1). cbn [obind].
    rewrite SY. cbn [obind]. rewrite R2, E2, (TopskyTextLoads.maps_text_reads (upper v) ms ds t2 N F2 OR L2). cbn [obind]. reflexivity. }
  cbn [TopskyParse.tk_colours TopskyParse.tk_settings TopskyParse.tk_maps TopskyParse.tk_overrides TopskyParse.tm_colours TopskyParse.tm_maps TopskyParse.tm_overrides].
  split; [|split; [intros n; apply get_of_list | split; reflexivity]].
  intros n. rewrite get_put_all, get_rev_nodup by apply NoDup_of_list. rewrite !get_of_list. reflexivity.
Qed.
Definition colour_of (o : option (text * colour)) : option colour := match o with Some c => Some (snd c) | None => None end.
(** The colour of a name is that of the last line of the maps file that defines it, else the last one of the settings file, else of the .sct file, else it is built in;
    COOPANS, on which the built-in ones depend, is off if and only if the last setting of that name is 0. *)
Theorem C87_colours v r a es ss ms ds sct : orders_ok v -> from_prf v r = Ret a -> topsky_written v r es ss ms ds -> file_read v (Prf.sct_path (cwd v) r) SctParse.parse_sct sct ->
  (se_coopans (ad_settings a) = false <-> get (s2t "Setup_COOPANS") (rev (SpecSettingsText.values_said es)) = Some (s2t "0")) /\
  forall n, exists d, SpecColours.builtin_default (se_coopans (ad_settings a)) n d /\
    colours_get (ad_colours a) n (se_coopans (ad_settings a)) =
    SpecColours.first_some [colour_of (get n (rev (SpecTopskyText.colours_of ds))); colour_of (get n (rev (SpecSettingsText.colours_said es))); get n (SctData.sc_colours sct); d].
Proof.
  intros O H W FS. destruct (loaded_contents v r a O H) as [F [tk [q [FR [TD [_ C]]]]]]. destruct (topsky_written_data v r es ss ms ds W) as [t [TD' [GC [GS _]]]].
  pose proof (topsky_data_det v r _ _ TD TD') as ->. rewrite (sm_coopans _ _ _ _ _ _ (ct_settings _ _ _ _ _ _ C)). split.
  - cbn [topsky_settings]. unfold coopans_setting. cbn [and_then]. rewrite GS. destruct (get (s2t "Setup_COOPANS") _) as [x|]; cbn [option_map unwrap_or]; [|split; discriminate].
    rewrite negb_false_iff, eqb_true. split; [intros ->; reflexivity | intros E; injection E as ->; reflexivity].
  - intros n. destruct (ct_lookup _ _ _ _ _ _ C n) as [d [B E]]. exists d. split; [exact B|]. rewrite E, GC.
    assert (SE : f_sct F = sct). { destruct (fr_sct _ _ _ FR) as [p [b [P [R X]]]], FS as [p' [b' [P' [R' X']]]]. rewrite P in P'. injection P' as <-. rewrite R in R'. injection R' as <-. congruence. }
    rewrite SE. destruct (get n (rev (SpecTopskyText.colours_of ds))) as [[]|]; [reflexivity|]. destruct (get n (rev (SpecSettingsText.colours_said es))) as [[]|]; reflexivity.
Qed.
Print Assumptions C87_colours.

(** The profile of AdaptationExample.v with the files of the properties C78, C79, C82 and C84 *)
Definition written_files : list (path * list N) := [
  (pth "/w/ICAO_Airlines.txt", PropTableText.ex_file (map airline_text PropTableText.ex_airlines));
  (pth "/w/ICAO_Aircraft.txt", PropTableText.ex_file (map aircraft_text PropTableText.ex_aircraft));
  (pth "/w/X.ese", PropEseText.ex_text); (pth "/w/TopSky/TopSkySettings.txt", PropSettingsText.settings_example_text);
  (pth "/w/TopSky/TopSkyMaps.txt", PropTopskyText.topsky_text)].
Definition written_env : env :=
  mkEnv (cwd ex_env) (read_from (written_files ++ ex_files)) (fun w => w) (json ex_env) (dest ex_env) (ccw ex_env) (load ex_env) (order ex_env).
Example C87_nonvacuous : exists a, from_prf written_env ex_prf = Ret a /\ orders_ok written_env /\
  file_text written_env (Prf.airlines_path (cwd written_env) ex_prf) (PropTableText.ex_file (map airline_text PropTableText.ex_airlines)) /\
  file_text written_env (Prf.aircraft_path (cwd written_env) ex_prf) (PropTableText.ex_file (map aircraft_text PropTableText.ex_aircraft)) /\
  file_text written_env (Prf.ese_path (cwd written_env) ex_prf) PropEseText.ex_text /\
  (exists ds, topsky_written written_env ex_prf PropSettingsText.settings_example PropSettingsText.settings_sections PropTopskyText.topsky_entries ds) /\
  (exists sct, file_read written_env (Prf.sct_path (cwd written_env) ex_prf) SctParse.parse_sct sct) /\
  colours_get (ad_colours a) (s2t "A") (se_coopans (ad_settings a)) = Some (mkColour 1 2 255 255) /\
  option_map Icao.al_name (get (s2t "DLH") (ad_airlines a)) = Some (s2t "Lufthansa").
Proof.
  assert (TX : forall p q t, p = Ret q -> read written_env q = Some t -> read_to_string t = t -> file_text written_env p t) by (intros p q t P R E; exists q, t; auto).
  destruct (from_prf written_env ex_prf) as [a| |] eqn:E; [|vm_compute in E; discriminate..]. exists a. split; [reflexivity|]. split; [exact ex_orders|].
  split; [eapply TX; vm_compute; reflexivity|]. split; [eapply TX; vm_compute; reflexivity|]. split; [eapply TX; vm_compute; reflexivity|].
  split. { destruct PropTopskyText.C82_nonvacuous as [N [[ds F2] [OR L2]]]. destruct PropSettingsText.C84_nonvacuous as [W [WS [L1 _]]]. exists ds, (pth "/w/TopSky"). split; [vm_compute; reflexivity|].
    split; [exists PropSettingsText.settings_example_text; split; [exact W|]; split; [exact WS|]; split; [exact L1|]; eapply TX; vm_compute; reflexivity|].
    split; [exists PropTopskyText.topsky_text; split; [exact N|]; split; [exact F2|]; split; [exact OR|]; split; [exact L2|]; eapply TX; vm_compute; reflexivity|]. left. vm_compute. reflexivity. }
  split; [eexists _, _, _; split; [vm_compute; reflexivity|]; split; [vm_compute; reflexivity|]; vm_compute; reflexivity|].
  assert (X : match from_prf written_env ex_prf with
    | Ret a => colours_get (ad_colours a) (s2t "A") (se_coopans (ad_settings a)) = Some (mkColour 1 2 255 255) /\ option_map Icao.al_name (get (s2t "DLH") (ad_airlines a)) = Some (s2t "Lufthansa")
    | _ => False end) by (vm_compute; split; reflexivity).
  rewrite E in X. exact X.
Qed.
