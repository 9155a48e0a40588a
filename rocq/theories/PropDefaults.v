(** C77: what a profile leaves unsaid, against [Adaptation::default()].  Specification: SpecDefaults.v, SpecSettings.v, SpecColours.v, SpecAdaptation.v, SpecJson.v. *)
From Verif Require Import Base Float Paths Colours Settings Trees SpecSettings SpecColours Adaptation SpecAdaptation AdaptationExample Defaults SpecDefaults DefaultsProofs.
From Verif Require Import Json SpecJson JsonAdaptation JsonMore JsonExample SpecSectorIndex SectorIndexProofs.
From Verif Require Prf SymbologyParse TopskyParse Sectors SectorIndex PropAdaptation.
Local Open Scope string_scope.
Local Open Scope list_scope.

(** An item the symbology does not have looks as in the default adaptation. *)
Theorem C77_items v r a y : from_prf v r = Ret a -> file_read v (Prf.symbology_path (cwd v) r) SymbologyParse.parse_symbology y ->
  (forall f k1 k2, In (f, (k1, k2)) own_map_key -> f <> "high_airway_name" -> unsaid y k1 k2 ->
     same_field f (col_map (ad_colours a)) (col_map (ad_colours adaptation_default))) /\
  (forall f k, In (f, k) sector_keys -> unsaid y "Sector" k ->
     same_field f (col_sector (ad_colours a)) (col_sector (ad_colours adaptation_default))) /\
  (forall k, unsaid y (fst (line_item k)) (snd (line_item k)) ->
     line_field k (se_lines (ad_settings a)) = line_field k (se_lines (ad_settings adaptation_default))) /\
  (forall k, unsaid y (label_folder k) "name" ->
     fst (label_field k (se_labels (ad_settings a))) = fst (label_field k (se_labels (ad_settings adaptation_default)))) /\
  (forall k, topsky_data v r None -> undrawn y (symbology_type k) -> k <> KVor ->
     symbol_field k (ad_symbols a) = symbol_field k (ad_symbols adaptation_default)).
Proof.
  intros H R. split; [intros f k1 k2; exact (map_colours_kept v r a y f k1 k2 H R)|]. split; [intros f k; exact (sector_colours_kept v r a y f k H R)|].
  split; [intros k; exact (lines_kept v r a y k H R)|].
  split; [intros k U; rewrite (labels_kept v r a y k H R U); destruct k; reflexivity | intros k T; exact (symbols_kept v r a y k H R T)].
Qed.
Print Assumptions C77_items.
(** Without TopSky (and squawks.json) these settings are the default ones. *)
Theorem C77_settings v r a : from_prf v r = Ret a -> topsky_data v r None ->
  let s := ad_settings a in let d := ad_settings adaptation_default in
  se_maps s = se_maps d /\ se_vector s = se_vector d /\ se_dots s = se_dots d /\ se_coordination s = se_coordination d /\ se_font s = se_font d /\
  se_vector_options s = se_vector_options d /\ se_dots_options s = se_dots_options d /\ (squawks_data v r None -> se_codes s = se_codes d).
Proof. intros H T. pose proof (settings_kept v r a H T) as S. cbv zeta in *. tauto. Qed.
Print Assumptions C77_settings.
(** The default adaptation is written as JSON and read back as it is; it has no sector anywhere, and of the colours the built-in ones only. *)
Theorem C77_default_survives nm : faithful nm -> of_value nm (to_value nm adaptation_default) = Some adaptation_default.
Proof. intros F. apply (read_back nm adaptation_default F). apply checked_ok. vm_compute. reflexivity. Qed.
Print Assumptions C77_default_survives.
Theorem C77_default_empty v contains : orders_ok v -> load_ok (load v) -> forall p level n b,
  find_sector v contains adaptation_default p level = None /\ volumes_at v contains adaptation_default p = [] /\
  builtin_default b n (colours_get (ad_colours adaptation_default) n b).
Proof.
  intros O L p level n b.
  assert (E : SectorIndex.leaves (index_of v adaptation_default) = []).
  { unfold index_of, tree_of, SectorIndex.build_tree. cbn. rewrite (Permutation_nil (Permutation_sym (O SIndex _ []))). cbn.
    exact (Permutation_nil (Permutation_sym (L []))). }
  destruct (empty_index contains (index_of v adaptation_default) p level E) as [A B]. split; [exact A|]. split; [exact B|].
  exact (ColoursProofs.default_colours_get b n).
Qed.
Print Assumptions C77_default_empty.

(** ** Where the two differ *)
(** Labels: 3.0, but 3.0 times 3.5 after loading *)
Theorem C77_label_size_refuted v r a y k : from_prf v r = Ret a -> file_read v (Prf.symbology_path (cwd v) r) SymbologyParse.parse_symbology y ->
  unsaid y (label_folder k) "name" ->
  snd (label_field k (se_labels (ad_settings a))) = f32_lit 105 1 /\ snd (label_field k (se_labels (ad_settings adaptation_default))) = f32_lit 3 0 /\
  f32_lit 105 1 <> f32_lit 3 0.
Proof.
  intros H R U. rewrite (labels_kept v r a y k H R U). split; [reflexivity|]. split; [destruct k; vm_compute; reflexivity | vm_compute; discriminate].
Qed.
Print Assumptions C77_label_size_refuted.
(** COOPANS is on without TopSky, and off by default. *)
Theorem C77_coopans_refuted v r a : from_prf v r = Ret a -> topsky_data v r None ->
  se_coopans (ad_settings a) = true /\ se_coopans (ad_settings adaptation_default) = false.
Proof. intros H T. split; [exact (proj2 (proj2 (proj2 (proj2 (proj2 (proj2 (proj2 (proj2 (settings_kept v r a H T))))))))) | reflexivity]. Qed.
Print Assumptions C77_coopans_refuted.
(** No track or user-interface colour that TopSky does not define is the default one: the constants of the defaults are never reached. *)
Theorem C77_track_colours_refuted v r a : orders_ok v -> from_prf v r = Ret a ->
  (forall f n c, In (f, (n, c)) track_names -> (forall t x, topsky_data v r (Some t) -> ~ In (s2t n, x) (TopskyParse.tk_colours t)) ->
     other_field f (col_track (ad_colours a)) (col_track (ad_colours adaptation_default))) /\
  (forall f n c, In (f, (n, c)) ui_names -> (forall t x, topsky_data v r (Some t) -> ~ In (s2t n, x) (TopskyParse.tk_colours t)) ->
     other_field f (col_ui (ad_colours a)) (col_ui (ad_colours adaptation_default))).
Proof.
  intros O H. destruct (track_other v r a O H) as [A B]. rewrite Forall_forall in A, B.
  split; intros f n c I; [exact (A _ I) | exact (B _ I)].
Qed.
Print Assumptions C77_track_colours_refuted.
(** The default line settings name a style, SOLID, which the default adaptation does not have; every loaded one has it. *)
Theorem C77_solid_refuted v r a k : orders_ok v -> from_prf v r = Ret a ->
  let s := ls_style (line_field k (se_lines (ad_settings adaptation_default))) in
  s = s2t "SOLID" /\ get s (ad_line_styles adaptation_default) = None /\ get s (ad_line_styles a) = Some None.
Proof.
  intros O H. cbv zeta. split; [destruct k; reflexivity|]. split; [reflexivity|].
  replace (ls_style _) with (s2t "SOLID") by (destruct k; reflexivity). exact (solid_defined v r a H).
Qed.
Print Assumptions C77_solid_refuted.

(** The example profile, its map file taken away: its symbology has a SID line and no STAR line. *)
Definition bare_env : env := with_files ex_env (without ["/w/TopSky/TopSkyMaps.txt"]).
Definition bare : adaptation.
Proof. let x := eval vm_compute in (from_prf bare_env ex_prf) in match x with Ret ?a => exact a end. Defined.
Definition bare_symbology : SymbologyParse.symbology.
Proof. let x := eval vm_compute in (SymbologyParse.parse_symbology (Decode.read_to_string ex_symbology)) in match x with Ret ?a => exact a end. Defined.
Example C77_nonvacuous : from_prf bare_env ex_prf = Ret bare /\
  file_read bare_env (Prf.symbology_path (cwd bare_env) ex_prf) SymbologyParse.parse_symbology bare_symbology /\ topsky_data bare_env ex_prf None /\
  orders_ok bare_env /\ unsaid bare_symbology "Stars" "line" /\ unsaid bare_symbology "VORs" "name" /\ undrawn bare_symbology StAirport /\
  ~ unsaid bare_symbology "Sids" "line" /\ ~ same_field "sid" (col_map (ad_colours bare)) (col_map (ad_colours adaptation_default)) /\
  li_sid (se_lines (ad_settings bare)) <> li_sid (se_lines (ad_settings adaptation_default)) /\ faithful ex_numerals.
Proof.
  split; [vm_compute; reflexivity|]. split; [exists (pth "/w/Symbology.txt"), ex_symbology; split; [vm_compute; reflexivity|]; split; vm_compute; reflexivity|].
  split; [right; exists (pth "/w/TopSky"); split; vm_compute; reflexivity|]. split; [exact ex_orders|].
  split; [intros i I; cbn in I; repeat (destruct I as [E|I]; [discriminate E|]); destruct I|].
  split; [intros i I; cbn in I; repeat (destruct I as [E|I]; [discriminate E|]); destruct I|].
  split; [intros i I; cbn in I; repeat (destruct I as [E|I]; [discriminate E|]); destruct I|].
  split; [intros U; cbv [bare_symbology unsaid SymbologyParse.sg_items] in U; eapply U; (left; reflexivity) || (right; left; reflexivity)|].
  split; [intros [c [A B]]; vm_compute in A, B; congruence|]. split; [vm_compute; discriminate | exact ex_faithful].
Qed.
