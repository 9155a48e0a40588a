(** Proofs about what a loaded adaptation consists of and which file each part comes from (C61, C62, C67). *)
From Verif Require Import Base Num Peg Float Paths Colours Settings Trees Decode SpecSectors SpecSectorIndex.
From Verif Require SpecColours ColoursProofs Prf SctData SctParse EseParse AirwayTxt Airways SymbologyParse TopskyParse Icao Sectors SectorIndex Constraints
  Locations SpecLocations Maps SctItems SpecPrf.
From Verif Require Import Adaptation SpecAdaptation AdaptationProofs AdaptationLoads.
Local Open Scope string_scope.
Local Open Scope list_scope.

Lemma get_map_val {K V W} `{EqDec K} (f : V -> W) (m : list (K * V)) k :
  get k (map (fun '(a, x) => (a, f x)) m) = match get k m with Some x => Some (f x) | None => None end.
Proof. induction m as [|[a x] m IH]; [reflexivity|]. cbn. destruct (eq_dec k a); [reflexivity | exact IH]. Qed.
Lemma get_order {V W} v s (f : V -> W) (m : list (text * V)) d : orders_ok v -> NoDup (keys m) ->
  get d (order v s _ (map (fun '(a, x) => (a, f x)) m)) = match get d m with Some x => Some (f x) | None => None end.
Proof.
  intros O N. rewrite <- get_map_val. symmetry. apply get_perm; [rewrite (keys_map_val (fun _ => f)); exact N | apply Permutation_sym, O].
Qed.
Lemma nodup_order {V W} v s (f : V -> W) (m : list (text * V)) : orders_ok v -> NoDup (keys m) ->
  NoDup (keys (order v s _ (map (fun '(a, x) => (a, f x)) m))).
Proof.
  intros O N. apply (NoDup_keys_perm (map (fun '(a, x) => (a, f x)) m)); [apply Permutation_sym, O | rewrite (keys_map_val (fun _ => f)); exact N].
Qed.
Lemma settings_option {A} (t : option A) {B} (f : A -> B) : option_map f t = match t with Some x => Some (f x) | None => None end.
Proof. reflexivity. Qed.

Lemma made_lookup v F t q r a : orders_ok v -> made_of v r F t q a -> forall n, exists d, SpecColours.builtin_default (coopans_setting (topsky_settings t)) n d /\
  colours_get (ad_colours a) n (coopans_setting (topsky_settings t)) =
  SpecColours.first_some [match t with
                          | Some x => match get n (TopskyParse.tk_colours x) with Some c => Some (snd c) | None => None end
                          | None => None
                          end; get n (SctData.sc_colours (f_sct F)); d].
Proof.
  intros O M n. rewrite (mo_colours _ _ _ _ _ _ M). unfold colours_of.
  destruct (fr_sct _ _ _ (mo_files _ _ _ _ _ _ M)) as [p [b [_ [_ PS]]]]. apply sct_colours_nodup in PS.
  pose proof (mo_topsky _ _ _ _ _ _ M) as T. destruct t as [x|]; cbn [option_map].
  - destruct T as [dir [_ E]]. apply topsky_colours_nodup in E.
    destruct (ColoursProofs.colours_lookup (item_colours (f_symbology F)) (SctData.sc_colours (f_sct F)) (order v SSctColours _ (SctData.sc_colours (f_sct F)))
      (map (fun '(k, c) => (k, snd c)) (TopskyParse.tk_colours x))
      (order v STopskyColours _ (map (fun '(k, c) => (k, snd c)) (TopskyParse.tk_colours x))) (coopans_setting (topsky_settings (Some x))) n PS)
      as [d [D G]].
    + apply Permutation_sym, O.
    + rewrite (keys_map_val (fun _ => snd)). exact E.
    + apply Permutation_sym, O.
    + exists d. split; [exact D|]. rewrite (get_map_val snd) in G. exact G.
  - destruct (ColoursProofs.colours_lookup_no_topsky (item_colours (f_symbology F)) (SctData.sc_colours (f_sct F)) (order v SSctColours _ (SctData.sc_colours (f_sct F)))
      (coopans_setting (topsky_settings None)) n PS) as [d [D G]].
    + apply Permutation_sym, O.
    + exists d. split; [exact D|]. exact G.
Qed.

Lemma made_contents v r F t q a : orders_ok v -> from_prf v r = Ret a -> made_of v r F t q a -> contents v r F t q a.
Proof.
  intros O LD M. destruct (made_sectors v r F t q a O M) as [ND OK]. pose proof (made_lookup v F t q r a O M) as LK.
  destruct M as [M1 M2 M3 M4 M5 M6 M7 M8 M9 M10 M11 M12 M13 M14 M15 M16 M17 M18].
  assert (CP : se_coopans (ad_settings a) = coopans_setting (topsky_settings t)) by (rewrite M14; destruct t; reflexivity).
  assert (CS : coopans_setting (option_map TopskyParse.tk_settings t) = coopans_setting (topsky_settings t)) by (destruct t; reflexivity).
  assert (FI : finds v a (lookup_of v F t) (place v (al_points (ad_locations a)))).
  { split.
    - intros n. unfold lookup_of. cbv zeta. rewrite CS, <- CP, M12, CS, <- CP. reflexivity.
    - intros l o E. unfold place. rewrite E. reflexivity. }
  destruct (fr_airports _ _ _ M1) as [pa [ba [_ [_ NA]]]]. apply airports_nodup in NA.
  destruct (fr_navdata _ _ _ M1) as [pn [bn [_ [_ NN]]]]. apply navdata_nodup in NN.
  constructor; try assumption.
  - eexists. split; [|split; [|exact M5]].
    + constructor; cbn; try reflexivity.
      * induction (SctData.sc_airports (f_sct F)) as [|x l IH]; constructor; [cbn; auto | exact IH].
      * intros d. apply (get_order v SNavdata (fun n => Locations.mkNavdata (Icao.nd_name n) (Icao.nd_location n))); assumption.
      * intros d. apply (get_order v SIcao (fun n => Locations.mkIcao (Icao.ia_name n) (Icao.ia_country n))); assumption.
      * induction (EseParse.e_procs (f_ese F)) as [|x l IH]; constructor; [destruct x; cbn; auto | exact IH].
    + split; cbn.
      * apply (nodup_order v SNavdata (fun n => Locations.mkNavdata (Icao.nd_name n) (Icao.nd_location n))); assumption.
      * apply (nodup_order v SIcao (fun n => Locations.mkIcao (Icao.ia_name n) (Icao.ia_country n))); assumption.
  - intros id. rewrite M7. unfold from_ese_positions.
    rewrite (get_map_val (fun p => mkPosition (EseParse.po_ident p) (EseParse.po_name p) (EseParse.po_freq p) (EseParse.po_prefix p)
                              (EseParse.po_suffix p) (EseParse.po_points p))).
    destruct (get id (EseParse.e_positions (f_ese F))) as [p|]; [|reflexivity]. eexists. split; [reflexivity|]. cbn. auto 8.
  - destruct t as [x|]; cbn [maps_of] in M10; [|injection M10 as M10; auto].
    ret M10 u EU. apply unwrap_ret in M10. exists (map_ctx v F (Some x) (al_points (ad_locations a))). split; [exact FI|]. split; [|exact M10].
    rewrite M14. reflexivity.
  - eexists. split; [exact M11|]. destruct t as [x|]; cbn [option_map]; [|reflexivity]. eexists. split; [reflexivity|]. intros n. apply (get_map_val snd).
  - rewrite CS in M12. eexists _, _, _. split; [|split; [|split; [exact M12|]]].
    + intros k. apply (get_map_val SymbologyParse.si_colour).
    + apply O.
    + destruct t as [x|]; cbn [option_map]; [|reflexivity]. destruct M2 as [dir [_ E]]. apply topsky_colours_nodup in E.
      eexists. split; [reflexivity|]. split; [apply (nodup_order v STopskyColours snd); assumption|]. intros n. apply (get_order v STopskyColours snd); assumption.
  - eexists. split; [exact M13|]. destruct t as [x|]; cbn [option_map]; [|reflexivity]. eexists. split; [reflexivity|].
    eapply Permutation_trans; [apply O|]. erewrite map_ext; [apply Permutation_refl|]. intros [k l]. reflexivity.
  - rewrite M14. constructor; cbn; try (destruct t; reflexivity).
    + auto.
    + auto 6.
    + split; [reflexivity|split; reflexivity].
    + exists (items_of (f_symbology F)). split; [|reflexivity]. intros k.
      apply (get_map_val (fun i => mkItem (SymbologyParse.si_size i) (SymbologyParse.si_style i) (SymbologyParse.si_weight i) (SymbologyParse.si_align i))).
    + exists (items_of (f_symbology F)). split; [|reflexivity]. intros k.
      apply (get_map_val (fun i => mkItem (SymbologyParse.si_size i) (SymbologyParse.si_style i) (SymbologyParse.si_weight i) (SymbologyParse.si_align i))).
    + intros k. destruct q; reflexivity.
    + exists (fun i => match Prf.recent_path (cwd v) r i with Ret o => o | _ => None end). split; [|reflexivity].
      intros n Hn. unfold from_prf in LD.
      ret LD s ES. ret LD e EE. ret LD w EW. ret LD vs EV. destruct vs as [vols secs].
      destruct (Constraints.extract_constraints (EseParse.e_constraints e)) as [dep des].
      ret LD y EY. ret LD q' EQ. ret LD t' ET. ret LD st EST. clear LD. unfold settings_from in EST. ret EST l EL.
      assert (I : In n [1; 2; 3; 4; 5; 6; 7; 8; 9]%N) by (cbn; lia).
      clear - EL I. revert l EL I. generalize [1; 2; 3; 4; 5; 6; 7; 8; 9]%N as ns. induction ns as [|m ns IH]; intros l EL I; [destruct I|].
      cbn [omap] in EL. ret EL o EO. ret EL l' EL'. destruct I as [->|I]; [rewrite EO; reflexivity | exact (IH _ EL' I)].
  - exists (items_ctx v F t (al_points (ad_locations a))). split; [exact FI|]. split; [|exact M17].
    rewrite M12. reflexivity.
Qed.

(** ** Same files, same parts *)
Lemma file_read_fun {A} v rd p (parse : text -> outcome A) x y : same_file v rd p -> file_read v p parse x -> file_read (with_files v rd) p parse y -> x = y.
Proof.
  intros S [q [b [E [R P]]]] [q' [b' [E' [R' P']]]]. rewrite E in E'. injection E' as <-. cbn in R'. rewrite (S q E) in R'. congruence.
Qed.
Lemma topsky_files_same v rd r d : same_topsky v rd r -> topsky_dir v r = Ret (Some d) -> topsky_files (with_files v rd) d = topsky_files v d.
Proof.
  intros S E. unfold topsky_files. cbn [with_files read upper]. rewrite !(S d _ E) by (cbn; tauto). reflexivity.
Qed.
Lemma topsky_data_fun v rd r x y : same_topsky v rd r -> topsky_data v r x -> topsky_data (with_files v rd) r y -> x = y.
Proof.
  intros S X Y. change (topsky_dir (with_files v rd) r) with (topsky_dir v r) in Y.
  assert (Z : forall d, topsky_dir v r = Ret (Some d) -> topsky_files (with_files v rd) d = topsky_files v d) by (intros d; apply topsky_files_same, S).
  destruct x as [x|], y as [y|]; cbn [topsky_data] in X, Y; change (topsky_dir (with_files v rd) r) with (topsky_dir v r) in Y.
  - destruct X as [d [E X]], Y as [d' [E' Y]]. rewrite (Z _ E') in Y. congruence.
  - destruct X as [d [E X]], Y as [Y|[d' [E' Y]]]; [congruence|]. rewrite (Z _ E') in Y. congruence.
  - destruct Y as [d [E Y]], X as [X|[d' [E' X]]]; [congruence|]. rewrite (Z _ E) in Y. congruence.
  - reflexivity.
Qed.
Lemma squawks_data_fun v rd r x y : same_squawks v rd r -> squawks_data v r x -> squawks_data (with_files v rd) r y -> x = y.
Proof.
  intros S X Y. destruct x as [x|], y as [y|]; cbn [squawks_data] in X, Y; change (squawks_file (with_files v rd) r) with (squawks_file v r) in Y; cbn [with_files read json] in Y.
  - destruct X as [p [b [E [R J]]]], Y as [p' [b' [E' [R' J']]]]. rewrite (S _ E') in R'. congruence.
  - destruct X as [p [b [E [R J]]]], Y as [Y|[p' [E' Y]]]; [congruence|]. rewrite (S _ E') in Y. assert (p' = p) as -> by congruence.
    destruct Y as [Y|[b' [R' J']]]; congruence.
  - destruct Y as [p [b [E [R J]]]], X as [X|[p' [E' X]]]; [congruence|]. rewrite (S _ E) in R. assert (p' = p) as -> by congruence.
    destruct X as [X|[b' [R' J']]]; congruence.
  - reflexivity.
Qed.
Lemma read_parse_same {A} v rd p (parse : text -> outcome A) : same_file v rd p -> read_parse (with_files v rd) p parse = read_parse v p parse.
Proof. intros S. unfold read_parse. destruct p as [q| |]; [|reflexivity..]. cbn. rewrite (S q eq_refl). reflexivity. Qed.

Lemma from_prf_same v rd r : same_file v rd (Prf.sct_path (cwd v) r) -> same_file v rd (Prf.ese_path (cwd v) r) ->
  same_file v rd (Prf.airways_path (cwd v) r) -> same_file v rd (Prf.symbology_path (cwd v) r) ->
  same_file v rd (Prf.airports_path (cwd v) r) -> same_file v rd (Prf.navdata_airports_path (cwd v) r) ->
  same_file v rd (Prf.aircraft_path (cwd v) r) -> same_file v rd (Prf.airlines_path (cwd v) r) ->
  same_topsky v rd r -> same_squawks v rd r -> from_prf (with_files v rd) r = from_prf v r.
Proof.
  intros S1 S2 S3 S4 S5 S6 S7 S8 ST SQ. unfold from_prf.
  assert (LQ : load_squawks (with_files v rd) r = load_squawks v r).
  { unfold load_squawks. change (Prf.squawks_path (cwd (with_files v rd)) r _) with (squawks_file v r). fold (squawks_file v r).
    destruct (squawks_file v r) as [[p|]| |] eqn:E; cbn; try reflexivity. rewrite (SQ p E). reflexivity. }
  assert (LT : load_topsky (with_files v rd) r = load_topsky v r).
  { rewrite !load_topsky_files. change (topsky_dir (with_files v rd) r) with (topsky_dir v r). destruct (topsky_dir v r) as [[d|]| |] eqn:E; try reflexivity.
    cbn [obind]. rewrite (topsky_files_same v rd r d ST E). reflexivity. }
  rewrite LQ, LT. cbn [with_files cwd]. rewrite !read_parse_same by assumption. reflexivity.
Qed.

Lemma parts_same v rd r a a' : from_prf v r = Ret a -> from_prf (with_files v rd) r = Ret a' ->
  (same_file v rd (Prf.sct_path (cwd v) r) -> ad_name a' = ad_name a) /\
  (same_file v rd (Prf.ese_path (cwd v) r) -> ad_positions a' = ad_positions a /\ ad_volumes a' = ad_volumes a /\ ad_sectors a' = ad_sectors a /\
     ad_departure a' = ad_departure a /\ ad_destination a' = ad_destination a /\ ad_index a' = ad_index a) /\
  (same_file v rd (Prf.airways_path (cwd v) r) -> al_airways (ad_locations a') = al_airways (ad_locations a)) /\
  (same_file v rd (Prf.aircraft_path (cwd v) r) -> ad_aircraft a' = ad_aircraft a) /\
  (same_file v rd (Prf.airlines_path (cwd v) r) -> ad_airlines a' = ad_airlines a) /\
  (same_file v rd (Prf.sct_path (cwd v) r) -> same_file v rd (Prf.ese_path (cwd v) r) -> same_file v rd (Prf.airports_path (cwd v) r) ->
     same_file v rd (Prf.navdata_airports_path (cwd v) r) -> al_points (ad_locations a') = al_points (ad_locations a)) /\
  (same_topsky v rd r -> ad_line_styles a' = ad_line_styles a) /\
  (same_topsky v rd r -> same_file v rd (Prf.symbology_path (cwd v) r) -> ad_symbols a' = ad_symbols a) /\
  (same_topsky v rd r -> same_file v rd (Prf.symbology_path (cwd v) r) -> same_squawks v rd r -> ad_settings a' = ad_settings a) /\
  (same_topsky v rd r -> same_file v rd (Prf.symbology_path (cwd v) r) -> same_file v rd (Prf.sct_path (cwd v) r) -> ad_colours a' = ad_colours a).
Proof.
  intros H H'. apply from_prf_ret in H. destruct H as [F [t [q M]]]. apply from_prf_ret in H'. destruct H' as [F' [t' [q' M']]].
  destruct M as [M1 M2 M3 M4 M5 M6 M7 M8 M9 M10 M11 M12 M13 M14 M15 M16 M17 M18], M' as [N1 N2 N3 N4 N5 N6 N7 N8 N9 N10 N11 N12 N13 N14 N15 N16 N17 N18].
  destruct M1 as [R1 R2 R3 R4 R5 R6 R7 R8], N1 as [Q1 Q2 Q3 Q4 Q5 Q6 Q7 Q8]. cbn [with_files cwd] in *.
  assert (E1 := fun S => file_read_fun _ _ _ _ _ _ S R1 Q1). assert (E2 := fun S => file_read_fun _ _ _ _ _ _ S R2 Q2).
  assert (E3 := fun S => file_read_fun _ _ _ _ _ _ S R3 Q3). assert (E4 := fun S => file_read_fun _ _ _ _ _ _ S R4 Q4).
  assert (E5 := fun S => file_read_fun _ _ _ _ _ _ S R5 Q5). assert (E6 := fun S => file_read_fun _ _ _ _ _ _ S R6 Q6).
  assert (E7 := fun S => file_read_fun _ _ _ _ _ _ S R7 Q7). assert (E8 := fun S => file_read_fun _ _ _ _ _ _ S R8 Q8).
  assert (ET := fun S => topsky_data_fun _ _ _ _ _ S M2 N2). assert (EQ := fun S => squawks_data_fun _ _ _ _ _ S M3 N3).
  repeat apply conj.
  - intros S. rewrite N4, M4, (E1 S). reflexivity.
  - intros S. rewrite <- (E2 S) in *. change (ese_sectors_of (with_files v rd) (f_ese F)) with (ese_sectors_of v (f_ese F)) in N8.
    rewrite M8 in N8. rewrite M9 in N9. injection N8 as V1 V2. injection N9 as D1 D2. rewrite N7, M7, N18, M18, V1, V2, D1, D2. auto 10.
  - intros S. rewrite N6, M6, (E3 S). reflexivity.
  - intros S. rewrite N15, M15, (E7 S). reflexivity.
  - intros S. rewrite N16, M16, (E8 S). reflexivity.
  - intros S1 S2 S5 S6. unfold locations_of in *. cbn [with_files dest] in N5. unfold loc_input_of in *. cbn [with_files order] in N5.
    rewrite <- (E1 S1), <- (E2 S2), <- (E5 S5), <- (E6 S6) in N5. congruence.
  - intros S. rewrite N13, M13, (ET S). reflexivity.
  - intros S S4. rewrite N11, M11, (ET S). unfold symbols_of. rewrite (E4 S4). reflexivity.
  - intros S S4 SQ. rewrite N14, M14, (ET S), (EQ SQ), (E4 S4). reflexivity.
  - intros S S4 S1. rewrite N12, M12, (ET S), (E4 S4), (E1 S1). reflexivity.
Qed.
