(** C89: the settings, symbols, colours and line styles of a loaded profile are those written in its symbology file and in its TopSky files.
    Specification: SpecSymbologyText.v, SpecSettingsText.v, SpecTopskyText.v, SpecSettings.v, SpecColours.v, SpecAdaptation.v. *)
From Verif Require Import Base Num Float FloatParse Paths Decode Colours SpecColours Settings SpecSettings Trees SpecText SpecFields KeyedProofs SymbologyParse SpecSymbologyText.
From Verif Require Import Adaptation SpecAdaptation AdaptationProofs AdaptationMore AdaptationExample PropWrittenLoaded PropWrittenLoads.
From Verif Require Maps SctParse TopskyParse SpecTopskyText TopskyTextLoads SpecSettingsText SettingsText SymbologyText Prf PropSettings PropColours PropSymbologyText PropTopskyText PropSettingsText.
Local Open Scope string_scope.
Local Open Scope list_scope.

(** The symbology file says the items [os] and the symbols [ss]. *)
Definition symbology_written (v : env) (r : Prf.prf) (os : list ((text * text) * sitem)) (ss : list (symbol_type * symbol)) : Prop :=
  exists items io symbols so clip t, items <> [] /\ symbols <> [] /\ Forall2 reads_item_line items io /\ Forall2 reads_symbol_lines symbols so /\ whole clip /\
    layout symbology_space [] (symbology_lines items symbols clip) t /\ file_text v (Prf.symbology_path (cwd v) r) t /\ os = List.concat io /\ ss = List.concat so.
(** the last line of the item *)
Definition last_item (os : list ((text * text) * sitem)) (folder name : string) : option sitem := get (s2t folder, s2t name) (rev os).

Lemma symbology_loaded v r F os ss : files_read v r F -> symbology_written v r os ss ->
  (forall k, get k (sg_items (f_symbology F)) = get k (rev os)) /\ (forall k, get k (sg_symbols (f_symbology F)) = get k (rev ss)).
Proof.
  intros FR [items [io [symbols [so [clip [t [N1 [N2 [G1 [G2 [W [L [FT [-> ->]]]]]]]]]]]]]].
  destruct (PropSymbologyText.C80_symbology items io symbols so clip t N1 N2 G1 G2 W L) as [s [E C]].
  rewrite (file_text_read _ _ _ _ _ _ FT (fr_symbology _ _ _ FR) E). exact C.
Qed.

(** Lines: the weight and the style of their item, else a solid line of width 1; *)
Theorem C89_lines v r a os ss k : orders_ok v -> from_prf v r = Ret a -> symbology_written v r os ss ->
  line_field k (se_lines (ad_settings a)) =
  match last_item os (fst (line_item k)) (snd (line_item k)) with Some i => mkLineStyle (si_weight i) (si_style i) | None => mkLineStyle 1 (s2t "SOLID") end.
Proof.
  intros O H W. destruct (loaded_contents v r a O H) as [F [t [q [FR [_ [_ C]]]]]]. destruct (symbology_loaded v r F os ss FR W) as [I _].
  destruct (sm_lines _ _ _ _ _ _ (ct_settings _ _ _ _ _ _ C)) as [its [IT ->]]. pose proof (IT (s2t (fst (line_item k)), s2t (snd (line_item k)))) as G. rewrite I in G.
  unfold last_item. destruct (PropSettings.C49_line_settings its k) as [A B]. destruct (get _ (rev os)) as [i|].
  - destruct (A _ G) as [X Y]. cbn [it_weight it_style] in X, Y. rewrite <- X, <- Y. destruct (line_field k _). reflexivity.
  - exact (B G).
Qed.
Print Assumptions C89_lines.
(** labels: the alignment and 3.5 times the size of their item, else centred and 10.5; *)
Theorem C89_labels v r a os ss k : orders_ok v -> from_prf v r = Ret a -> symbology_written v r os ss ->
  label_field k (se_labels (ad_settings a)) =
  match last_item os (label_folder k) "name" with Some i => (si_align i, SFmul 24 128 (si_size i) (f32_lit 35 1)) | None => ((HCenter, VCenter), f32_lit 105 1) end.
Proof.
  intros O H W. destruct (loaded_contents v r a O H) as [F [t [q [FR [_ [_ C]]]]]]. destruct (symbology_loaded v r F os ss FR W) as [I _].
  destruct (sm_labels _ _ _ _ _ _ (ct_settings _ _ _ _ _ _ C)) as [its [IT ->]]. pose proof (IT (s2t (label_folder k), s2t "name")) as G. rewrite I in G.
  unfold last_item. destruct (PropSettings.C49_label_settings its k) as [A B]. destruct (get _ (rev os)) as [i|]; [exact (A _ G) | exact (B G)].
Qed.
Print Assumptions C89_labels.
(** the colours of maps: that of their item, else black; the name of high airways has the one of their line (C36). *)
Theorem C89_map_colours v r a os ss f k1 k2 : orders_ok v -> from_prf v r = Ret a -> symbology_written v r os ss -> In (f, (k1, k2)) own_map_key ->
  get f (col_map (ad_colours a)) = Some (match last_item os k1 (if String.eqb f "high_airway_name" then "line" else k2) with Some i => si_colour i | None => black end).
Proof.
  intros O H W K. destruct (loaded_contents v r a O H) as [F [t [q [FR [_ [_ C]]]]]]. destruct (symbology_loaded v r F os ss FR W) as [I _].
  destruct (ct_colours _ _ _ _ _ _ C) as [its [so [ts [IT [_ [-> _]]]]]]. cbn [colours_from_euroscope col_map]. unfold last_item.
  assert (X : forall k, get k its = option_map si_colour (get k (rev os))). { intros k. rewrite IT, I. destruct (get k (rev os)); reflexivity. }
  destruct (String.eqb f "high_airway_name") eqn:Q.
  - apply String.eqb_eq in Q. subst f. rewrite PropColours.C36_high_airway_name_actual, X.
    assert (k1 = "High airways") as -> by (cbn in K; repeat (destruct K as [K|K]; [first [discriminate K | injection K as <- <-; reflexivity]|]); contradiction).
    destruct (get _ (rev os)); reflexivity.
  - apply String.eqb_neq in Q. rewrite (PropColours.C36_map_colours_own_item its f k1 k2 K Q), X. destruct (get _ (rev os)); reflexivity.
Qed.
Print Assumptions C89_map_colours.

(** If there is a TopSkySymbols.txt, it says the symbols [sy]. *)
Definition symbols_written (v : env) (r : Prf.prf) (sy : list TopskyParse.symbol_def) : Prop :=
  forall d, topsky_dir v r = Ret (Some d) -> let f := mkPath (rooted d) (comps d ++ [s2t "TopSkySymbols.txt"]) in
  (read v f = None /\ sy = []) \/
  exists t l, l <> [] /\ Forall2 (fun '(name, ds) s => SpecTopskyText.reads_drawing name ds s) l sy /\ SpecTopskyText.symbols_layout l t /\ file_text v (Ret f) t.
(** all symbols, those of the maps file behind *)
Definition all_symbols (sy : list TopskyParse.symbol_def) ds : list (text * TopskyParse.symbol_def) := map (fun s => (fst s, s)) sy ++ SpecTopskyText.symbols_of ds.

Lemma topsky_said v r es st ms ds sy : topsky_written v r es st ms ds -> symbols_written v r sy -> exists t, topsky_data v r (Some t) /\
  (forall n, get n (TopskyParse.tk_symbols t) = get n (rev (all_symbols sy ds))) /\
  NoDup (keys (TopskyParse.tk_styles t)) /\ (forall n, get n (TopskyParse.tk_styles t) = get n (rev (SpecTopskyText.styles_of ds))) /\
  (forall n, get n (TopskyParse.tk_settings t) = get n (rev (SpecSettingsText.values_said es))).
Proof.
  intros [d [D [[t1 [W [WS [L1 [q1 [b1 [P1 [R1 E1]]]]]]]] [[t2 [N [F2 [OR [L2 [q2 [b2 [P2 [R2 E2]]]]]]]]] _]]]] S.
  assert (RI : forall x y : path, Ret x = Ret y -> x = y) by (intros x y X; congruence). apply RI in P1. apply RI in P2. subst q1 q2.
  assert (SY : exists m, match read v (mkPath (rooted d) (comps d ++ [s2t "TopSkySymbols.txt"])) with
    | Some b => TopskyParse.parse_topsky_symbols (read_to_string b) | None => Ret [] end = Ret m /\ forall n, get n m = get n (rev (map (fun s => (fst s, s)) sy))).
  { destruct (S d D) as [[-> ->] | [t [l [NL [FL [LL [q [b [P [R E]]]]]]]]]]; [eexists; split; reflexivity|]. apply RI in P. subst q.
    rewrite R, E, (TopskyTextLoads.symbols_text_reads l sy t NL FL LL). eexists. split; [reflexivity|]. intros n. apply get_of_list. }
  destruct SY as [m [SY GM]]. eexists. split.
  { exists d. split; [exact D|]. unfold topsky_files, TopskyParse.parse_topsky. cbv zeta. rewrite R1, E1, (SettingsText.settings_text_reads es st t1 W WS L1). cbn [obind].
    rewrite SY. cbn [obind]. rewrite R2, E2, (TopskyTextLoads.maps_text_reads (upper v) ms ds t2 N F2 OR L2). cbn [obind]. reflexivity. }
  cbn [TopskyParse.tk_symbols TopskyParse.tk_settings TopskyParse.tk_styles TopskyParse.tm_symbols TopskyParse.tm_styles].
  split; [|split; [apply NoDup_of_list | split; intros n; apply get_of_list]].
  intros n. rewrite get_put_all, get_rev_nodup by apply NoDup_of_list. rewrite get_of_list, GM. unfold all_symbols. rewrite rev_app_distr, get_app. reflexivity.
Qed.

(** Symbols: that of its name in the TopSky files, else that of its type in the symbology file, else the built-in one, which for VORs is the one of NDBs (C35). *)
Theorem C89_symbols v r a os ss es st ms ds sy : orders_ok v -> from_prf v r = Ret a -> symbology_written v r os ss -> topsky_written v r es st ms ds -> symbols_written v r sy ->
  (forall n, symbols_get (ad_symbols a) n = option_map snd (get n (rev (all_symbols sy ds)))) /\
  forall k, symbol_field k (ad_symbols a) =
    match get (s2t (topsky_name k)) (rev (all_symbols sy ds)), get (symbology_type k) (rev ss) with
    | Some s, _ => snd s
    | None, Some s => s
    | None, None => symbol_field (match k with KVor => KNdb | _ => k end) symbols_default
    end.
Proof.
  intros O H W TW SW. destruct (loaded_contents v r a O H) as [F [tk [q [FR [TD [_ C]]]]]]. destruct (symbology_loaded v r F os ss FR W) as [_ I].
  destruct (topsky_said v r es st ms ds sy TW SW) as [t [TD' [GY _]]]. pose proof (topsky_data_det v r _ _ TD TD') as ->.
  destruct (ct_symbols _ _ _ _ _ _ C) as [l [-> [m [-> GM]]]].
  assert (X : forall n, get n m = option_map snd (get n (rev (all_symbols sy ds)))). { intros n. rewrite GM, GY. destruct (get n _); reflexivity. }
  split; [exact X|]. intros k. destruct (PropSettings.C35_symbol_fallback (Some m) (sg_symbols (f_symbology F)) k) as [A [B D]]. specialize (X (s2t (topsky_name k))). specialize (I (symbology_type k)).
  destruct (get (s2t (topsky_name k)) (rev (all_symbols sy ds))) as [s|]; [apply (A m); [reflexivity | exact X]|].
  assert (Y : forall l, Some m = Some l -> get (s2t (topsky_name k)) l = None) by (intros l E; injection E as <-; exact X).
  destruct (get (symbology_type k) (rev ss)) as [s|]; [exact (B s Y I)|].
  destruct k; try (apply D; [exact Y | exact I | discriminate]). exact (proj1 (PropSettings.C35_vor_default_refuted (Some m) _ Y I)).
Qed.
Print Assumptions C89_symbols.

(** What a setting says: the value of its last line, if it is a number, else the default *)
Definition said {T} (parse : text -> option T) (es : list (text * text)) (key : string) (d : T) : T :=
  match get (s2t key) (rev es) with Some w => match parse w with Some x => x | None => d end | None => d end.
(** The font size of maps, the history dots and the track vectors; zero dots and vectors of no length mean that they are off. *)
Theorem C89_topsky_settings v r a es st ms ds : orders_ok v -> from_prf v r = Ret a -> topsky_written v r es st ms ds ->
  let vs := SpecSettingsText.values_said es in
  Maps.st_font (se_maps (ad_settings a)) = said parse_f32 vs "Maps_FontSize" (f32_of_Z 12) /\
  (let n := said parse_u32 vs "Track_HistoryDots" 6%N in se_dots (ad_settings a) = if N.eqb n 0 then (false, 6%N) else (true, n)) /\
  (let x := said parse_f32 vs "Track_PredictionLine" (f32_of_Z 1) in se_vector (ad_settings a) = match x with S754_zero _ => (false, f32_of_Z 1) | _ => (true, x) end).
Proof.
  intros O H TW vs. destruct (loaded_contents v r a O H) as [F [tk [q [FR [TD [_ C]]]]]].
  destruct (topsky_written_data v r es st ms ds TW) as [t [TD' [_ [GS _]]]]. pose proof (topsky_data_det v r _ _ TD TD') as ->.
  pose proof (ct_settings _ _ _ _ _ _ C) as SM. rewrite (sm_font _ _ _ _ _ _ SM), (sm_dots _ _ _ _ _ _ SM), (sm_vector _ _ _ _ _ _ SM).
  cbn [topsky_settings]. unfold maps_font_size, history_dots, vector_settings, parse_with_default, said. rewrite !GS. fold vs.
  split; [destruct (get _ (rev vs)) as [w|]; [cbn [and_then]; destruct (parse_f32 w); reflexivity | reflexivity]|]. split.
  - destruct (get _ (rev vs)) as [w|]; [cbn [and_then]; destruct (parse_u32 w) as [[|p]|]; reflexivity | reflexivity].
  - destruct (get _ (rev vs)) as [w|]; [cbn [and_then]; destruct (parse_f32 w) as [[]|]; reflexivity | reflexivity].
Qed.
Print Assumptions C89_topsky_settings.

(** Line styles: the built-in ones, and those of the maps file under their names in upper case, if no two names differ in case only (C34). *)
Theorem C89_line_styles v r a es st ms ds sy : orders_ok v -> from_prf v r = Ret a -> topsky_written v r es st ms ds -> symbols_written v r sy ->
  (forall x y, In x (keys (SpecTopskyText.styles_of ds)) -> In y (keys (SpecTopskyText.styles_of ds)) -> upper v x = upper v y -> x = y) ->
  (forall k d, builtin_style k d -> get k (ad_line_styles a) = Some d) /\
  forall k d, ~ builtin_name k -> (get k (ad_line_styles a) = Some d <->
    exists n l, get n (rev (SpecTopskyText.styles_of ds)) = Some l /\ upper v n = k /\ dashes_ok (TopskyParse.ld_dashes l) d).
Proof.
  intros O H TW SW U. destruct (loaded_contents v r a O H) as [F [tk [q [FR [TD [_ C]]]]]].
  destruct (topsky_said v r es st ms ds sy TW SW) as [t [TD' [_ [ND [GL _]]]]]. pose proof (topsky_data_det v r _ _ TD TD') as ->.
  destruct (ct_styles _ _ _ _ _ _ C) as [o [-> [m [-> P]]]]. split; [intros k d B; exact (PropSettings.C34_builtin_styles_fixed _ _ _ _ B)|].
  assert (NM : NoDup (keys m)).
  { apply (Permutation_NoDup (l := keys (TopskyParse.tk_styles t))); [|exact ND]. symmetry. unfold keys. etransitivity; [apply Permutation_map; exact P|]. rewrite map_map. reflexivity. }
  assert (IN : forall n l, In (n, l) m <-> exists x, get n (rev (SpecTopskyText.styles_of ds)) = Some x /\ TopskyParse.ld_dashes x = l).
  { intros n l. split.
    - intros I. apply (Permutation_in _ P) in I. apply in_map_iff in I. destruct I as [[n' x] [E I]]. cbn [fst snd] in E. injection E as <- <-. exists x. split; [|reflexivity].
      rewrite <- GL. apply In_get; assumption.
    - intros [x [G <-]]. rewrite <- GL in G. apply get_In in G. apply (Permutation_in _ (Permutation_sym P)). apply in_map_iff. exists (n, x). auto. }
  intros k d NB. rewrite (PropSettings.C34_custom_styles _ _ _ _ NB). split.
  - intros [pre [n [l [post [-> [E [K _]]]]]]]. destruct (proj1 (IN n l)) as [x [G <-]]; [apply in_or_app; right; left; reflexivity|]. exists n, x. auto.
  - intros [n [l [G [E K]]]]. assert (I : In (n, TopskyParse.ld_dashes l) m) by (apply IN; eauto). apply in_split in I. destruct I as [pre [post ->]].
    exists pre, n, (TopskyParse.ld_dashes l), post. split; [reflexivity|]. split; [exact E|]. split; [exact K|]. intros [n' l'] J Q. cbn [fst] in Q.
    destruct (proj1 (IN n' l')) as [x [G' _]]; [apply in_or_app; right; right; exact J|].
    assert (KEY : forall n x, get n (rev (SpecTopskyText.styles_of ds)) = Some x -> In n (keys (SpecTopskyText.styles_of ds))).
    { intros z y Z. apply get_Some_key in Z. unfold keys in *. rewrite map_rev in Z. apply in_rev in Z. exact Z. }
    assert (n' = n) as -> by (apply U; [exact (KEY _ _ G') | exact (KEY _ _ G) | congruence]).
    unfold keys in NM. rewrite map_app in NM. cbn [map fst] in NM. apply NoDup_remove_2 in NM. apply NM. apply in_or_app. right. apply (in_map fst) in J. exact J.
Qed.
Print Assumptions C89_line_styles.

(** The profile of C88 *)
Example C89_nonvacuous : exists a os ss ds, orders_ok all_env /\ from_prf all_env ex_prf = Ret a /\ symbology_written all_env ex_prf os ss /\
  topsky_written all_env ex_prf PropSettingsText.settings_example PropSettingsText.settings_sections PropTopskyText.topsky_entries ds /\ symbols_written all_env ex_prf [] /\
  (forall x y, In x (keys (SpecTopskyText.styles_of ds)) -> In y (keys (SpecTopskyText.styles_of ds)) -> upper all_env x = upper all_env y -> x = y) /\
  last_item os "Airports" "symbol" <> None /\ get StAirport (rev ss) <> None /\
  get "airport_symbol" (col_map (ad_colours a)) = Some (mkColour 255 0 0 255) /\ sy_airport (ad_symbols a) <> sy_airport symbols_default /\
  get (s2t "S") (ad_line_styles a) = Some (Some [d_ 3 4]) /\ (exists s, symbols_get (ad_symbols a) (s2t "Dot") = Some s).
Proof.
  destruct (from_prf all_env ex_prf) as [a| |] eqn:E; [|vm_compute in E; discriminate..].
  destruct C88_nonvacuous as [O [_ [_ [_ [_ [_ [ds [TW _]]]]]]]]. destruct PropSymbologyText.C80_nonvacuous as [[os [GI [_ GA]]] [GS LY]].
  eexists a, (List.concat os), _, ds. split; [exact O|]. split; [reflexivity|]. split.
  { eexists _, os, _, _, (s2t "5"), _. split; [|split; [|split; [exact GI|]; split; [exact GS|]; split; [|split; [exact LY|]; split; [|split; [reflexivity|]; reflexivity]]]]; [discriminate | discriminate| |].
    - exists [], (s2t "5"). split; [reflexivity|]. split; [tauto|]. split; [discriminate|]. repeat constructor.
    - eexists _, _. split; [vm_compute; reflexivity|]. split; [vm_compute; reflexivity|]. vm_compute; reflexivity. }
  split; [exact TW|]. split. { intros d D. left. split; [|reflexivity]. assert (X : topsky_dir all_env ex_prf = Ret (Some (pth "/w/TopSky"))) by (vm_compute; reflexivity). rewrite X in D. injection D as <-. vm_compute. reflexivity. }
  split; [intros x y _ _ Q; exact Q|]. split; [unfold last_item; rewrite GA; discriminate|]. split; [vm_compute; discriminate|].
  assert (X : match from_prf all_env ex_prf with
    | Ret a => get "airport_symbol" (col_map (ad_colours a)) = Some (mkColour 255 0 0 255) /\ sy_airport (ad_symbols a) <> sy_airport symbols_default /\
        get (s2t "S") (ad_line_styles a) = Some (Some [d_ 3 4]) /\ (exists s, symbols_get (ad_symbols a) (s2t "Dot") = Some s)
    | _ => False end) by (vm_compute; split; [reflexivity|]; split; [discriminate|]; split; [reflexivity | eexists; reflexivity]).
  rewrite E in X. exact X.
Qed.
