(** Proofs for C77. *)
From Verif Require Import Base Float Paths Colours Settings Trees SpecSettings SettingsProofs SpecColours ColoursProofs Adaptation SpecAdaptation AdaptationProofs AdaptationMore Defaults SpecDefaults.
From Verif Require Prf SymbologyParse TopskyParse SectorIndex.
From Verif Require Import SectorIndexProofs.
Local Open Scope string_scope.
Local Open Scope list_scope.

Lemma unsaid_item y k1 k2 : unsaid y k1 k2 -> get (s2t k1, s2t k2) (items_of y) = None.
Proof.
  intros U. destruct (get _ (items_of y)) eqn:G; [exfalso | reflexivity]. apply get_In in G. unfold items_of in G. apply in_map_iff in G.
  destruct G as [[k i'] [E I]]. injection E as -> _. exact (U _ I).
Qed.
Lemma unsaid_colour y k1 k2 : unsaid y k1 k2 -> get (s2t k1, s2t k2) (item_colours y) = None.
Proof.
  intros U. destruct (get _ (item_colours y)) eqn:G; [exfalso | reflexivity]. apply get_In in G. unfold item_colours in G. apply in_map_iff in G.
  destruct G as [[k i'] [E I]]. injection E as -> _. exact (U _ I).
Qed.
Lemma undrawn_get y t : undrawn y t -> get t (SymbologyParse.sg_symbols y) = None.
Proof. intros U. destruct (get t _) eqn:G; [|reflexivity]. apply get_In in G. destruct (U _ G). Qed.

Lemma loaded_from v r a y : from_prf v r = Ret a -> file_read v (Prf.symbology_path (cwd v) r) SymbologyParse.parse_symbology y ->
  exists F t q, made_of v r F t q a /\ f_symbology F = y.
Proof.
  intros H [p [b [E1 [E2 E3]]]]. destruct (from_prf_ret _ _ _ H) as [F [t [q M]]]. exists F, t, q. split; [exact M|].
  destruct (fr_symbology _ _ _ (mo_files _ _ _ _ _ _ M)) as [p' [b' [Q1 [Q2 Q3]]]]. congruence.
Qed.
Lemma loaded_without v r a : from_prf v r = Ret a -> topsky_data v r None -> exists F q, made_of v r F None q a.
Proof.
  intros H T. destruct (from_prf_ret _ _ _ H) as [F [t [q M]]]. exists F, q.
  assert (t = None) as <- by exact (topsky_data_det _ _ _ _ (mo_topsky _ _ _ _ _ _ M) T). exact M.
Qed.

Lemma default_map_black f k : In (f, k) own_map_key -> get f map_colours_default = Some black.
Proof. intros I. cbn in I. repeat (destruct I as [E|I]; [injection E as <- <-; reflexivity|]). destruct I. Qed.
Lemma map_colours_kept v r a y f k1 k2 : from_prf v r = Ret a -> file_read v (Prf.symbology_path (cwd v) r) SymbologyParse.parse_symbology y ->
  In (f, (k1, k2)) own_map_key -> f <> "high_airway_name" -> unsaid y k1 k2 -> same_field f (col_map (ad_colours a)) (col_map (ad_colours adaptation_default)).
Proof.
  intros H R I N U. destruct (loaded_from _ _ _ _ H R) as [F [t [q [M <-]]]]. exists black. split; [|exact (default_map_black _ _ I)].
  rewrite (mo_colours _ _ _ _ _ _ M). unfold colours_of, colours_from_euroscope. cbn [col_map]. rewrite (map_colour_own _ _ _ _ I N), (unsaid_colour _ _ _ U). reflexivity.
Qed.
Lemma sector_colours_kept v r a y f k : from_prf v r = Ret a -> file_read v (Prf.symbology_path (cwd v) r) SymbologyParse.parse_symbology y ->
  In (f, k) sector_keys -> unsaid y "Sector" k -> same_field f (col_sector (ad_colours a)) (col_sector (ad_colours adaptation_default)).
Proof.
  intros H R I U. destruct (loaded_from _ _ _ _ H R) as [F [t [q [M <-]]]]. exists (from_rgb 200 200 200). apply unsaid_colour in U.
  rewrite (mo_colours _ _ _ _ _ _ M). unfold colours_of, colours_from_euroscope, sector_colours. cbn [col_sector]. destruct I as [E|[E|[]]]; injection E as <- <-.
  - split; [|reflexivity]. unfold from_symbology at 1. rewrite U. reflexivity.
  - split; [|reflexivity]. unfold from_symbology at 2. rewrite U. reflexivity.
Qed.
Lemma lines_kept v r a y k : from_prf v r = Ret a -> file_read v (Prf.symbology_path (cwd v) r) SymbologyParse.parse_symbology y ->
  unsaid y (fst (line_item k)) (snd (line_item k)) -> line_field k (se_lines (ad_settings a)) = line_field k (se_lines (ad_settings adaptation_default)).
Proof.
  intros H R U. destruct (loaded_from _ _ _ _ H R) as [F [t [q [M <-]]]]. rewrite (mo_settings _ _ _ _ _ _ M). unfold the_settings. cbn [se_lines].
  rewrite (proj2 (line_settings_spec _ k) (unsaid_item _ _ _ U)). destruct k; reflexivity.
Qed.
Lemma labels_kept v r a y k : from_prf v r = Ret a -> file_read v (Prf.symbology_path (cwd v) r) SymbologyParse.parse_symbology y ->
  unsaid y (label_folder k) "name" ->
  label_field k (se_labels (ad_settings a)) = ((HCenter, VCenter), f32_lit 105 1).
Proof.
  intros H R U. destruct (loaded_from _ _ _ _ H R) as [F [t [q [M <-]]]]. rewrite (mo_settings _ _ _ _ _ _ M). unfold the_settings. cbn [se_labels].
  exact (proj2 (label_settings_spec _ k) (unsaid_item _ _ _ U)).
Qed.
Lemma symbols_kept v r a y k : from_prf v r = Ret a -> file_read v (Prf.symbology_path (cwd v) r) SymbologyParse.parse_symbology y -> topsky_data v r None ->
  undrawn y (symbology_type k) -> k <> KVor -> symbol_field k (ad_symbols a) = symbol_field k (ad_symbols adaptation_default).
Proof.
  intros H R T U N. destruct (loaded_from _ _ _ _ H R) as [F [t [q [M <-]]]].
  assert (t = None) as -> by exact (topsky_data_det _ _ _ _ (mo_topsky _ _ _ _ _ _ M) T).
  rewrite (mo_symbols _ _ _ _ _ _ M). apply (proj2 (proj2 (symbols_table _ _ k))); [discriminate | exact (undrawn_get _ _ U) | exact N].
Qed.
Lemma settings_kept v r a : from_prf v r = Ret a -> topsky_data v r None ->
  let s := ad_settings a in let d := ad_settings adaptation_default in
  se_maps s = se_maps d /\ se_vector s = se_vector d /\ se_dots s = se_dots d /\ se_coordination s = se_coordination d /\ se_font s = se_font d /\
  se_vector_options s = se_vector_options d /\ se_dots_options s = se_dots_options d /\ (squawks_data v r None -> se_codes s = se_codes d) /\
  se_coopans s = true.
Proof.
  intros H T. destruct (loaded_without _ _ _ H T) as [F [q M]]. cbv zeta. rewrite (mo_settings _ _ _ _ _ _ M). repeat (split; [reflexivity|]).
  split; [|reflexivity]. intros Q. pose proof (squawks_data_det _ _ _ _ (mo_squawks _ _ _ _ _ _ M) Q) as ->. reflexivity.
Qed.
(** the TopSky data of the profile, if it has any, does not define the colour [n] *)
Lemma undefined_get (v : env) t n : (forall c, ~ In (s2t n, c) (TopskyParse.tk_colours t)) -> orders_ok v ->
  get (s2t n) (of_list (order v STopskyColours _ (map (fun '(k, c) => (k, snd c)) (TopskyParse.tk_colours t)))) = None.
Proof.
  intros U O. rewrite get_of_list. destruct (get _ _) eqn:G; [exfalso | reflexivity]. apply get_In in G. apply in_rev in G.
  apply (Permutation_in _ (O _ _ _)) in G. apply in_map_iff in G. destruct G as [[k c'] [E I]]. injection E as -> _. exact (U _ I).
Qed.
Lemma track_other v r a : orders_ok v -> from_prf v r = Ret a ->
  Forall (fun '(f, (n, _)) => (forall t c, topsky_data v r (Some t) -> ~ In (s2t n, c) (TopskyParse.tk_colours t)) ->
            other_field f (col_track (ad_colours a)) (col_track (ad_colours adaptation_default))) track_names /\
  Forall (fun '(f, (n, _)) => (forall t c, topsky_data v r (Some t) -> ~ In (s2t n, c) (TopskyParse.tk_colours t)) ->
            other_field f (col_ui (ad_colours a)) (col_ui (ad_colours adaptation_default))) ui_names.
Proof.
  intros O H. destruct (from_prf_ret _ _ _ H) as [F [t [q M]]]. rewrite (mo_colours _ _ _ _ _ _ M). unfold colours_of, colours_from_euroscope. cbn [col_track col_ui].
  set (tc := match option_map _ t with Some _ => _ | None => _ end). generalize (coopans_setting (option_map TopskyParse.tk_settings t)). intros b.
  assert (A : forall n, (forall t c, topsky_data v r (Some t) -> ~ In (s2t n, c) (TopskyParse.tk_colours t)) -> get (s2t n) tc = None).
  { intros n U. unfold tc. pose proof (mo_topsky _ _ _ _ _ _ M) as T. destruct t as [t|]; [|reflexivity]. apply undefined_get; [|exact O]. intros c. exact (U t c T). }
  clearbody tc.
  split; repeat (constructor; [intros U; apply A in U; unfold track_colours, ui_colours; destruct b;
    (eexists _, _; split; [cbn [get]; unfold topsky_or; rewrite ?U; vm_compute; reflexivity|]; split; [vm_compute; reflexivity | discriminate])|]); constructor.
Qed.

Lemma solid_defined v r a : from_prf v r = Ret a -> get (s2t "SOLID") (ad_line_styles a) = Some None.
Proof.
  intros H. destruct (from_prf_ret _ _ _ H) as [F [t [q M]]]. rewrite (mo_styles _ _ _ _ _ _ M). apply styles_builtin. constructor.
Qed.
Lemma select_leaves test t : incl (SectorIndex.select test t) (SectorIndex.leaves t).
Proof.
  induction t as [e|kids IH] using rtree_ind'.
  - cbn. destruct (test _); [apply incl_refl | intros x []].
  - cbn [SectorIndex.select]. destruct (test _); [|intros x []]. intros x I. cbn [SectorIndex.leaves]. rewrite in_flat_map in *. destruct I as [k [K I]]. exists k.
    split; [exact K | exact (IH k K x I)].
Qed.
Lemma empty_index contains t p level : SectorIndex.leaves t = [] ->
  SectorIndex.find_sector contains t p level = None /\ SectorIndex.volumes_at contains t p = [].
Proof.
  intros E. pose proof (select_leaves (SectorIndex.box_contains p) t) as S. rewrite E in S. apply incl_l_nil in S.
  unfold SectorIndex.find_sector, SectorIndex.volumes_at. rewrite S. split; reflexivity.
Qed.
