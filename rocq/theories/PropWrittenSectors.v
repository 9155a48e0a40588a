(** C90: the sectors, coordination points and maps of a loaded profile are those written in its .ese file and in its TopSky maps.
    Specification: SpecEseText.v, SpecSectors.v, SpecSectorIndex.v, SpecConstraints.v, SpecTopskyText.v, SpecMaps.v, SpecAdaptation.v. *)
From Coq Require Import Reals.
From Flocq Require Import Core BinarySingleNaN.
From Verif Require Import Base Float Paths Decode Colours Settings Trees SpecText SpecFields SpecTableText KeyedProofs SpecSectors SpecSectorIndex.
From Verif Require Import Adaptation SpecAdaptation AdaptationProofs AdaptationMore AdaptationExample PropWrittenLoaded PropWrittenLoads.
From Verif Require Num Dms Icao SctData SctParse Locations SpecLocations PropTableText Sectors Constraints SpecConstraints EseParse SpecEseText TopskyParse SpecTopskyText Maps SpecMaps Prf PropConstraints PropMaps PropEseText PropAdaptation PropTopskyText PropSettingsText.
Local Open Scope string_scope.
Local Open Scope list_scope.

(** The .ese file says the sections [l]. *)
Definition ese_written (v : env) (r : Prf.prf) (l : list SpecEseText.section) : Prop :=
  exists t, l <> [] /\ Forall SpecEseText.good_section l /\ SpecEseText.ese_text l t /\ file_text v (Prf.ese_path (cwd v) r) t.
(** [sectors] are the sectors of the sections, with their borders made of the sector lines. *)
Definition sectors_in (l : list SpecEseText.section) (sectors : list (text * Sectors.ese_sector)) : Prop :=
  exists lines, SpecEseText.collects SpecEseText.reads_line (SpecEseText.airspace_in l) lines /\
    SpecEseText.collects (SpecEseText.reads_sector lines) (SpecEseText.airspace_in l) sectors.
Definition last_sector (sectors : list (text * Sectors.ese_sector)) (id : text) (s : Sectors.ese_sector) : Prop := get id (rev sectors) = Some s.

Lemma ese_loaded v r F l : files_read v r F -> ese_written v r l -> SpecEseText.ese_reads l (f_ese F).
Proof.
  intros FR [t [N [G [L FT]]]]. destruct (PropEseText.C78_ese_text l t N G L) as [e [E R]]. rewrite (file_text_read _ _ _ _ _ _ FT (fr_ese _ _ _ FR) E). exact R.
Qed.

(** Coordination points: those with a climb level at departure, the others with a descent level at destination; of those with the same text of fields the last one. *)
Theorem C90_constraints v r a l : orders_ok v -> from_prf v r = Ret a -> ese_written v r l ->
  exists cs, SpecEseText.collects SpecEseText.reads_cop (SpecEseText.airspace_in l) cs /\ forall k c,
    (get k (ad_departure a) = Some c <-> SpecConstraints.last_with SpecConstraints.departure k cs c) /\
    (get k (ad_destination a) = Some c <-> SpecConstraints.last_with SpecConstraints.destination k cs c).
Proof.
  intros O H W. destruct (loaded_contents v r a O H) as [F [tk [q [FR [_ [_ C]]]]]]. destruct (ese_loaded v r F l FR W) as [_ [_ [R _]]].
  exists (EseParse.e_constraints (f_ese F)). split; [exact R|]. intros k c. pose proof (ct_constraints _ _ _ _ _ _ C) as E.
  pose proof (PropConstraints.C27_departure_constraints (EseParse.e_constraints (f_ese F)) k c) as D1.
  pose proof (PropConstraints.C27_destination_constraints (EseParse.e_constraints (f_ese F)) k c) as D2. rewrite E in D1, D2. auto.
Qed.
Print Assumptions C90_constraints.

Lemma sectors_loaded v r a l : orders_ok v -> from_prf v r = Ret a -> ese_written v r l ->
  exists F sectors, files_read v r F /\ sectors_in l sectors /\ sectors_ok (EseParse.e_sectors (f_ese F)) (ccw v) (ad_volumes a) (ad_sectors a) /\
    forall id s, In (id, s) (EseParse.e_sectors (f_ese F)) <-> last_sector sectors id s.
Proof.
  intros O H W. destruct (loaded_contents v r a O H) as [F [tk [q [FR [_ [_ C]]]]]]. destruct (ese_loaded v r F l FR W) as [_ [[lines [sectors [CL [CS G]]]] _]].
  destruct (loaded_sectors v r a F O H FR) as [ND [OK _]]. exists F, sectors. split; [exact FR|]. split; [exists lines; auto|]. split; [exact OK|].
  intros id s. unfold last_sector. rewrite <- G. split; [apply In_get; exact ND | apply get_In].
Qed.
(** Volumes: one for the last sector of each name whose border closes, with its limits and the ring of its border; each of them is in exactly one sector of the adaptation,
    together with exactly those that have the same owners and active runways. *)
Theorem C90_sectors v r a l : orders_ok v -> from_prf v r = Ret a -> ese_written v r l ->
  exists sectors, sectors_in l sectors /\ let valid id s := last_sector sectors id s /\ closed_connected_border (border_segments s) in
    (forall id, match get id (ad_volumes a) with
       | Some vol => exists s ring, valid id s /\ vol = Sectors.mkVolume id (Sectors.es_bottom s) (Sectors.es_top s) (ccw v (map Sectors.dequantize ring)) /\
           uses_each_once ring (border_segments s) /\ closed ring
       | None => forall s, ~ valid id s
       end) /\
    (forall id s, valid id s -> exists k, in_sector a k id /\ forall k', in_sector a k' id -> k' = k) /\
    (forall k sc, In (k, sc) (ad_sectors a) -> NoDup (Sectors.sc_volumes sc) /\ In k (Sectors.sc_volumes sc) /\ exists rw, Sectors.sc_filter sc = [rw] /\
       forall id, In id (Sectors.sc_volumes sc) <-> exists s, valid id s /\ Sectors.es_owner s = Sectors.sc_priority sc /\ Sectors.es_runways s = rw).
Proof.
  intros O H W. destruct (sectors_loaded v r a l O H W) as [F [sectors [FR [SI [OK IN]]]]]. exists sectors. split; [exact SI|]. cbv zeta.
  assert (V : forall id s, valid_entry (EseParse.e_sectors (f_ese F)) id s <-> last_sector sectors id s /\ closed_connected_border (border_segments s)).
  { intros id s. unfold valid_entry. rewrite IN. reflexivity. }
  split; [|split].
  - intros id. pose proof (so_volumes _ _ _ _ OK id) as X. destruct (get id (ad_volumes a)) as [vol|].
    + destruct X as [s [ring [A B]]]. exists s, ring. split; [apply V; exact A | exact B].
    + intros s Q. apply (X s), V, Q.
  - intros id s Q. apply V in Q. destruct (so_every _ _ _ _ OK id s Q) as [k [sc [A B]]]. exists k. split; [exists sc; auto|]. intros k' [sc' [A' B']]. exact (so_once _ _ _ _ OK k' sc' k sc id A' A B' B).
  - intros k sc A. destruct (so_members _ _ _ _ OK k sc A) as [ND [rw [E M]]]. split; [exact ND|]. split; [apply (so_named _ _ _ _ OK k sc A)|]. exists rw. split; [exact E|].
    intros id. rewrite M. split; intros [s [Q R]]; exists s; (split; [apply V; exact Q | exact R]).
Qed.
Print Assumptions C90_sectors.

(** The last sector definition [vid] is in force for the point and the level. *)
Definition in_force contains sectors (a : adaptation) (p : point) (level : spec_float) (vid : text) (s : Sectors.ese_sector) : Prop :=
  last_sector sectors vid s /\ closed_connected_border (border_segments s) /\ Sectors.es_owner s <> [] /\
  (exists vol, get vid (ad_volumes a) = Some vol /\ contains (Sectors.v_border vol) p = true) /\
  (IZR (Z.of_N (Sectors.es_bottom s)) <= SF2R radix2 level < IZR (Z.of_N (Sectors.es_top s)))%R.
(** The sector at a point and level: the first by name of those that a written definition in force there belongs to, if there is one. *)
Theorem C90_find_sector v r a l contains p level : orders_ok v -> load_ok (load v) -> contains_ok contains -> ccw_ok v ->
  from_prf v r = Ret a -> ese_written v r l -> f32_ok level ->
  exists sectors, sectors_in l sectors /\
    ((forall vid s, last_sector sectors vid s -> (Sectors.es_bottom s < 16777216)%N /\ (Sectors.es_top s < 16777216)%N) ->
     match find_sector v contains a p level with
     | Some id => (exists vid s, in_force contains sectors a p level vid s /\ in_sector a id vid) /\
                  forall id' vid s, in_force contains sectors a p level vid s -> in_sector a id' vid -> alpha_le id id'
     | None => forall vid s, ~ in_force contains sectors a p level vid s
     end).
Proof.
  intros O LO CO CW H W FO. destruct (sectors_loaded v r a l O H W) as [F [sectors [FR [SI [OK IN]]]]]. exists sectors. split; [exact SI|]. intros LV.
  assert (LK : levels_ok (f_ese F)) by (intros vid s I; apply (LV vid s), IN, I).
  assert (V : forall vid s, covers contains (f_ese F) a p level vid s <-> in_force contains sectors a p level vid s).
  { intros vid s. unfold covers, in_force, valid_entry. rewrite IN. tauto. }
  pose proof (PropAdaptation.C63_find_sector v r a F contains p level O LO CO CW H FR LK FO) as X. destruct (find_sector v contains a p level) as [id|].
  - destruct X as [[vid [s [A B]]] D]. split; [exists vid, s; split; [apply V; exact A | exact B]|]. intros id' vid' s' Q. apply (D id' vid' s'), V, Q.
  - intros vid s Q. apply (X vid s), V, Q.
Qed.
Print Assumptions C90_find_sector.

(** Maps: every written map with a colour that is defined is there once, drawn with the colours and places of the adaptation, in its folder and under its name or, if that is taken,
    its name with the first free number; folders are hidden exactly if they are AUTO or overridden as a whole. *)
Theorem C90_maps v r a es st ms ds : orders_ok v -> from_prf v r = Ret a -> topsky_written v r es st ms ds ->
  exists c maps names, finds v a (Maps.lookup c) (Maps.conv_loc c) /\ Maps.sets_ c = se_maps (ad_settings a) /\
    SpecMaps.converted c (SpecTopskyText.maps_of ds) maps /\ SpecMaps.filing [] maps names /\
    Permutation (SpecMaps.all_maps (ad_maps a)) (SpecMaps.named_maps maps names) /\ NoDup (map fst (SpecMaps.all_maps (ad_maps a))) /\ NoDup (keys (ad_maps a)) /\
    forall f fo, get f (ad_maps a) = Some fo ->
      Maps.fo_name fo = f /\ (Maps.fo_hidden fo = true <-> f = s2t "AUTO" \/ In (f, None) (SpecTopskyText.overrides_of ds)) /\ Maps.fo_maps fo <> [].
Proof.
  intros O H TW. destruct (loaded_contents v r a O H) as [F [tk [q [FR [TD [_ C]]]]]].
  destruct (topsky_written_data v r es st ms ds TW) as [t [TD' [_ [_ [TM TO]]]]]. pose proof (topsky_data_det v r _ _ TD TD') as ->.
  destruct (ct_maps _ _ _ _ _ _ C) as [c [FI [SE E]]]. rewrite TM, TO in E.
  destruct (PropMaps.C28_all_maps_filed c (SpecTopskyText.overrides_of ds) (SpecTopskyText.maps_of ds)) as [folders [maps [names [E' [A [B [P [N1 [N2 HD]]]]]]]]].
  rewrite E in E'. injection E' as <-. exists c, maps, names. split; [exact FI|]. split; [exact SE|]. split; [exact A|]. split; [exact B|]. split; [exact P|]. split; [exact N1|]. split; [exact N2|].
  intros f fo G. destruct (HD f fo G) as [X [Y Z]]. split; [exact X|]. split; [|exact Z]. rewrite Y, SE, (proj1 (sm_maps _ _ _ _ _ _ (ct_settings _ _ _ _ _ _ C))). reflexivity.
Qed.
Print Assumptions C90_maps.

(** Airports: those of the .sct file and of the navdata file, with the position of the last line of the .sct file and its runways, or that of the first line of the navdata file;
    the name is that of the first line of the navdata file, else of the file of airports, the country that of the latter. *)
Theorem C90_airports v r a s ls ln an : orders_ok v -> from_prf v r = Ret a -> file_read v (Prf.sct_path (cwd v) r) SctParse.parse_sct s ->
  (exists t, ls <> [] /\ Forall good_airport ls /\ layout icao_space remarks (map airport_text ls) t /\ file_text v (Prf.airports_path (cwd v) r) t) ->
  (exists t, Forall2 reads_navdata_line ln an /\ navdata_layout (map navdata_text ln) t /\ file_text v (Prf.navdata_airports_path (cwd v) r) t) ->
  let icao d := get d (map (fun x => (Icao.ia_designator x, x)) ls) in let nav d := get d (map (fun x => (Icao.nd_designator x, x)) an) in
  let known d := In d (map SctData.sap_des (SctData.sc_airports s)) in
  forall d, match get d (Locations.l_airports (al_points (ad_locations a))) with
    | None => ~ known d /\ nav d = None
    | Some x => Locations.ap_des x = d /\
        Locations.ap_name x = match nav d with Some n => Some (Icao.nd_name n) | None => option_map Icao.ia_name (icao d) end /\
        Locations.ap_country x = option_map Icao.ia_country (icao d) /\
        ((exists pre y post, SctData.sc_airports s = pre ++ y :: post /\ SctData.sap_des y = d /\ (forall z, In z post -> SctData.sap_des z <> d) /\
            Locations.ap_pos x = SctData.sap_pos y /\ Locations.ap_runways x = filter (fun w => eqb (Locations.r_ad w) d) (SctData.sc_runways s)) \/
         (~ known d /\ exists n, nav d = Some n /\ Locations.ap_pos x = Icao.nd_location n /\ Locations.ap_runways x = []))
    end.
Proof.
  intros O H FS [tp [NP [GP [LP FP]]]] [tn [GN [LN FN]]] icao nav known d. destruct (loaded_contents v r a O H) as [F [tk [q [FR _]]]].
  destruct (PropTableText.C79_airports ls tp NP GP LP) as [mp [MP CP]]. destruct (PropTableText.C79_navdata ln an tn GN LN) as [mn [MN CN]].
  pose proof (file_text_read _ _ _ _ _ _ FP (fr_airports _ _ _ FR) MP) as EP. pose proof (file_text_read _ _ _ _ _ _ FN (fr_navdata _ _ _ FR) MN) as EN.
  assert (ES : f_sct F = s). { destruct (fr_sct _ _ _ FR) as [p [b [P [R X]]]], FS as [p' [b' [P' [R' X']]]]. rewrite P in P'. injection P' as <-. rewrite R in R'. injection R' as <-. congruence. }
  destruct (PropAdaptation.C67_places v r a F O H FR) as [i [IM [AE _]]]. specialize (AE d). unfold SpecLocations.airport_entry in AE.
  pose proof (im_navdata _ _ IM d) as GNV. rewrite EN, (CN d) in GNV. fold (nav d) in GNV. pose proof (im_icao _ _ IM d) as GIC. rewrite EP, (CP d) in GIC. fold (icao d) in GIC.
  pose proof (im_airports _ _ IM) as FA. rewrite ES in FA. pose proof (im_runways _ _ IM) as RW. rewrite ES in RW.
  assert (KN : SpecLocations.in_sct i d <-> known d).
  { unfold SpecLocations.in_sct, known. replace (map Locations.sa_des (Locations.i_airports i)) with (map SctData.sap_des (SctData.sc_airports s)); [reflexivity|].
    induction FA as [|x y l l' [E _] _ IH]; [reflexivity|]. cbn [map]. rewrite IH, E. reflexivity. }
  destruct (get d (Locations.l_airports (al_points (ad_locations a)))) as [x|].
  - destruct AE as [D [P [N C]]]. split; [exact D|]. rewrite GNV, GIC in N. rewrite GIC in C.
    split; [rewrite N; destruct (nav d); [reflexivity|]; destruct (icao d); reflexivity|]. split; [rewrite C; destruct (icao d); reflexivity|].
    destruct P as [[y [L [PP PR]]] | [NK [n [G [PP PR]]]]].
    + left. destruct L as [pre [post [E [Q1 Q2]]]]. rewrite E in FA. apply Forall2_app_inv_l in FA. destruct FA as [pre' [l' [_ [F2 ES']]]]. inversion F2 as [|? y' ? post' [A B] F3]; subst.
      exists pre', y', post'. split; [exact ES'|]. split; [congruence|]. split; [|split; [congruence | rewrite PR, RW; reflexivity]].
      intros z Z. clear - F3 Q2 Z. induction F3 as [|u w l l' [U _] F3 IH]; [contradiction|]. destruct Z as [<-|Z]; [rewrite <- U; intros Q; apply Q2; left; exact Q | apply IH; [|exact Z]; intros K; apply Q2; right; exact K].
    + right. split; [rewrite <- KN; exact NK|]. rewrite GNV in G. destruct (nav d) as [m|]; [|discriminate G]. injection G as <-. exists m. auto.
  - destruct AE as [A B]. split; [rewrite <- KN; exact A|]. destruct (nav d) as [m|]; [|reflexivity]. contradiction B. apply get_Some_key in GNV. exact GNV.
Qed.
Print Assumptions C90_airports.
Example C90_airports_nonvacuous : exists a, orders_ok all_env /\ from_prf all_env ex_prf = Ret a /\ (exists s, file_read all_env (Prf.sct_path (cwd all_env) ex_prf) SctParse.parse_sct s) /\
  (exists t, PropTableText.ex_airports <> [] /\ Forall good_airport PropTableText.ex_airports /\ layout icao_space remarks (map airport_text PropTableText.ex_airports) t /\
     file_text all_env (Prf.airports_path (cwd all_env) ex_prf) t) /\
  (exists t, Forall2 reads_navdata_line PropTableText.ex_navdata [PropTableText.ex_berlin] /\ navdata_layout (map navdata_text PropTableText.ex_navdata) t /\
     file_text all_env (Prf.navdata_airports_path (cwd all_env) ex_prf) t) /\
  map (fun x => (fst x, Locations.ap_name (snd x), Locations.ap_country (snd x))) (Locations.l_airports (al_points (ad_locations a))) =
    [(s2t "EDDM", Some (s2t "Munich"), Some (s2t "Germany")); (s2t "EDDB", Some (s2t "BERLIN BRANDENBURG "), None)].
Proof.
  assert (TX : forall p q t, p = Ret q -> read all_env q = Some t -> read_to_string t = t -> file_text all_env p t) by (intros p q t P R E; exists q, t; auto).
  destruct PropTableText.C79_nonvacuous as [_ [[GP LP] [_ [GN LN]]]]. destruct (from_prf all_env ex_prf) as [a| |] eqn:E; [|vm_compute in E; discriminate..]. exists a.
  split; [exact ex_orders|]. split; [reflexivity|]. split; [eexists _, _, _; split; [vm_compute; reflexivity|]; split; [vm_compute; reflexivity|]; vm_compute; reflexivity|].
  split; [eexists; split; [discriminate|]; split; [exact GP|]; split; [exact LP|]; eapply TX; vm_compute; reflexivity|].
  split; [eexists; split; [exact GN|]; split; [exact LN|]; eapply TX; vm_compute; reflexivity|].
  assert (X : match from_prf all_env ex_prf with
    | Ret a => map (fun x => (fst x, Locations.ap_name (snd x), Locations.ap_country (snd x))) (Locations.l_airports (al_points (ad_locations a))) =
        [(s2t "EDDM", Some (s2t "Munich"), Some (s2t "Germany")); (s2t "EDDB", Some (s2t "BERLIN BRANDENBURG "), None)]
    | _ => False end) by (vm_compute; reflexivity).
  rewrite E in X. exact X.
Qed.

(** A triangle with an owner, from the ground to 9500 feet, and a coordination point *)
Definition corner (la lo : string) : SpecEseText.dms * SpecEseText.dms :=
  (SpecEseText.mkDms (s2t "N") (s2t la) (s2t "00") (s2t "00.000"), SpecEseText.mkDms (s2t "E") (s2t lo) (s2t "00") (s2t "00.000")).
Definition triangle : list SpecEseText.section := [
  SpecEseText.Airspace [
    SpecEseText.Sectorline (s2t "1") [SpecEseText.Corner (corner "048" "011"); SpecEseText.Corner (corner "049" "011"); SpecEseText.Corner (corner "049" "012"); SpecEseText.Corner (corner "048" "011")];
    SpecEseText.Sector (s2t "AAA") (s2t "0") (s2t "9500") [SpecEseText.Owner (s2t "MGN") [s2t "FIS"]; SpecEseText.Border (s2t "1") []];
    SpecEseText.Copx false (SpecEseText.mkCop None None (Some (s2t "ABC")) None None (s2t "AAA") (s2t "BBB") (Some (s2t "8000")) None (s2t "Climb")) ]].
Definition triangle_env : env := with_files all_env (fun p => if path_eqb p (pth "/w/X.ese") then Some (PropEseText.ex_layout true (flat_map SpecEseText.section_lines triangle)) else read all_env p).
Example C90_nonvacuous : exists a, orders_ok triangle_env /\ load_ok (load triangle_env) /\ contains_ok ex_contains /\ ccw_ok triangle_env /\ f32_ok ex_level /\
  from_prf triangle_env ex_prf = Ret a /\ ese_written triangle_env ex_prf triangle /\
  (forall sectors, sectors_in triangle sectors -> forall vid s, last_sector sectors vid s -> (Sectors.es_bottom s < 16777216)%N /\ (Sectors.es_top s < 16777216)%N) /\
  (exists ds, topsky_written triangle_env ex_prf PropSettingsText.settings_example PropSettingsText.settings_sections PropTopskyText.topsky_entries ds) /\
  find_sector triangle_env ex_contains a ex_point ex_level = Some (s2t "AAA") /\ find_sector triangle_env ex_contains a ex_point (f32_of_Z 9500) = None /\
  List.length (ad_departure a) = 1%nat /\ List.length (SpecMaps.all_maps (ad_maps a)) = 1%nat.
Proof.
  assert (W : forall w, forallb (fun c => negb (existsb (N.eqb c) [58; 10; 13; 32; 9; 59]%N)) w = true -> SpecEseText.words w).
  { intros w F. rewrite forallb_forall in F. assert (X : forall c, In c w -> ~ In c [58; 10; 13; 32; 9; 59]%N).
    { intros c I Q. specialize (F c I). apply negb_true_iff in F. assert (existsb (N.eqb c) [58; 10; 13; 32; 9; 59]%N = true); [|congruence].
      apply existsb_exists. exists c. split; [exact Q | apply N.eqb_refl]. }
    split; [split; [|split]|].
    - apply Forall_forall. intros c I. pose proof (X c I). cbn in *. intuition congruence.
    - intros c v ->. pose proof (X c (or_introl eq_refl)) as Y. destruct (is_blank c) eqn:E; [|reflexivity]. unfold is_blank in E. apply orb_prop in E. contradiction Y. cbn. destruct E as [E|E]; apply N.eqb_eq in E; intuition congruence.
    - intros v c ->. pose proof (X c (in_or_app v [c] c (or_intror (or_introl eq_refl)))) as Y. destruct (is_blank c) eqn:E; [|reflexivity]. unfold is_blank in E. apply orb_prop in E. contradiction Y. cbn. destruct E as [E|E]; apply N.eqb_eq in E; intuition congruence.
    - intros v ->. pose proof (X 59%N (or_introl eq_refl)) as Y. apply Y. cbn. tauto. }
  assert (DG : forall w, forallb is_digit w = true -> w <> [] -> digits w). { intros w F N. split; [exact N|]. apply Forall_forall, forallb_forall, F. }
  assert (WH : forall w, forallb is_digit w = true -> w <> [] -> whole w). { intros w F N. exists [], w. split; [reflexivity|]. split; [auto | apply DG; assumption]. }
  assert (NM : forall a b, forallb is_digit a = true -> forallb is_digit b = true -> a <> [] -> b <> [] -> numeral (a ++ s2t "." ++ b)).
  { intros a b A B NA NB. exists [], (a ++ s2t "." ++ b). split; [reflexivity|]. split; [auto|]. apply numeral_point; [apply (DG a A NA) | apply (DG b B NB)]. }
  assert (PL : forall la lo, In (la, lo) [("048", "011"); ("049", "011"); ("049", "012")] -> exists p, SpecEseText.reads_place (corner la lo) p).
  { intros la lo I. repeat (destruct I as [E|I]; [injection E as <- <-|]); try contradiction;
    (eexists; eexists (_, _, _, _), (_, _, _, _); split; [|split; [|reflexivity]];
      (split; [instantiate (1 := Dms.Pos); cbn; tauto|]; split; [apply DG; [reflexivity | discriminate]|]; split; [apply DG; [reflexivity | discriminate]|];
       split; [apply (NM (s2t "00") (s2t "000")); (reflexivity || discriminate)|]; repeat split; vm_compute; reflexivity)). }
  assert (EW : ese_written triangle_env ex_prf triangle).
  { exists (PropEseText.ex_layout true (flat_map SpecEseText.section_lines triangle)). split; [discriminate|]. split; [|split].
    - apply Forall_cons; [|apply Forall_nil]. split; [|split].
      + apply Forall_cons; [|apply Forall_cons; [|apply Forall_cons; [|apply Forall_nil]]]; cbn [SpecEseText.good_airspace].
        * split; [apply W; reflexivity|]. repeat (apply Forall_cons; [apply PL; cbn; tauto|]). apply Forall_nil.
        * split; [apply W; reflexivity|]. split; [apply WH; (reflexivity || discriminate)|]. split; [apply WH; (reflexivity || discriminate)|].
          apply Forall_cons; [repeat (apply Forall_cons; [apply W; reflexivity|]); apply Forall_nil|]. apply Forall_cons; [repeat (apply Forall_cons; [apply W; reflexivity|]); apply Forall_nil|]. apply Forall_nil.
        * split; [intros w; discriminate|]. split; [intros w; discriminate|].
          split; [intros w E; injection E as <-; split; [apply W; reflexivity | discriminate]|]. split; [intros w; discriminate|]. split; [intros w; discriminate|].
          split; [|split]; apply W; reflexivity.
      + repeat constructor; try (exists []; reflexivity). eexists. eexists (Sectors.mkEseSector _ _ _ _ _ _ _ _). split; [reflexivity|].
        cbn [Sectors.es_id Sectors.es_bottom Sectors.es_top Sectors.es_border Sectors.es_owner Sectors.es_dep Sectors.es_arr Sectors.es_runways].
        split; [reflexivity|]. split; [vm_compute; reflexivity|]. split; [vm_compute; reflexivity|]. repeat split; reflexivity.
      + repeat constructor; try (exists []; reflexivity). eexists. eexists (Constraints.mkConstraint _ _ _ _ _ _ _ _ _ _ _). split; [reflexivity|].
        cbn [Constraints.c_prev Constraints.c_dep Constraints.c_fix Constraints.c_next Constraints.c_arr Constraints.c_exit Constraints.c_entry Constraints.c_climb Constraints.c_descent Constraints.c_desc Constraints.c_timing
          SpecEseText.k_prev SpecEseText.k_dep SpecEseText.k_fix SpecEseText.k_next SpecEseText.k_arr SpecEseText.k_exit SpecEseText.k_entry SpecEseText.k_climb SpecEseText.k_descent SpecEseText.k_desc].
        repeat (split; [reflexivity|]). split; [instantiate (1 := Some 8000%N); split; [apply WH; (reflexivity || discriminate) | vm_compute; reflexivity]|]. split; [instantiate (1 := None); exact I|]. split; reflexivity.
    - assert (LA : forall ls odd, laid SpecEseText.ese_space [s2t ";"] ls (PropEseText.ex_layout odd ls)).
      { induction ls as [|l ls IH]; intros odd; [constructor|]. destruct odd; cbn [PropEseText.ex_layout].
        - apply laid_cons; [repeat constructor | right; reflexivity | | repeat constructor | apply IH].
          apply idles_cons; [|left; reflexivity | constructor]. right. exists (s2t " "), (s2t ";"), (s2t " remark"). split; [reflexivity|]. split; [repeat constructor|]. split; [left; reflexivity | repeat constructor; discriminate].
        - apply laid_cons; [constructor | left; reflexivity | constructor | constructor | apply IH]. }
      exists [], [], (PropEseText.ex_layout true (flat_map SpecEseText.section_lines triangle)). split; [reflexivity|]. split; [constructor|]. split; [constructor | apply LA].
    - eexists _, _. split; [vm_compute; reflexivity|]. split; [vm_compute; reflexivity | vm_compute; reflexivity]. }
  destruct (from_prf triangle_env ex_prf) as [a| |] eqn:E; [|vm_compute in E; discriminate..]. exists a.
  split; [exact ex_orders|]. split; [exact ex_load_ok|]. split; [exact ex_contains_ok|]. split; [exact ex_ccw|]. split; [exact ex_level_ok|]. split; [reflexivity|]. split; [exact EW|]. split.
  { intros sectors [lines [_ [rs [F ->]]]] vid s L. apply get_In, in_rev in L.
    inversion F as [|? o1 ? rs1 R1 F1]; subst. inversion F1 as [|? o2 ? rs2 R2 F2]; subst. inversion F2 as [|? o3 ? rs3 R3 F3]; subst. inversion F3; subst.
    cbn in R1, R3. subst o1 o3. destruct R2 as [x [-> [_ [B [T _]]]]]. cbn in L. destruct L as [L|[]]. injection L as _ <-. revert B T. generalize (Sectors.es_bottom x) (Sectors.es_top x). intros b t B T. vm_compute in B. vm_compute in T. injection B as <-. injection T as <-. split; reflexivity. }
  split.
  { destruct C88_nonvacuous as [_ [_ [_ [_ [_ [_ [ds [TW _]]]]]]]]. exists ds. destruct TW as [d [D [[t1 [W1 [W2 [L1 X1]]]] [[t2 [N [F2 [OR [L2 X2]]]]] _]]]].
    assert (DD : topsky_dir all_env ex_prf = Ret (Some (pth "/w/TopSky"))) by (vm_compute; reflexivity). rewrite DD in D. injection D as <-. exists (pth "/w/TopSky"). split; [vm_compute; reflexivity|].
    assert (TR : forall f t, path_eqb f (pth "/w/X.ese") = false -> file_text all_env (Ret f) t -> file_text triangle_env (Ret f) t).
    { intros f t Q [q [b [P [R X]]]]. exists q, b. split; [exact P|]. split; [|exact X]. injection P as <-. unfold triangle_env, with_files. cbn [read]. rewrite Q. exact R. }
    split; [exists t1; split; [exact W1|]; split; [exact W2|]; split; [exact L1|]; apply TR; [vm_compute; reflexivity | exact X1]|].
    split; [exists t2; split; [exact N|]; split; [exact F2|]; split; [exact OR|]; split; [exact L2|]; apply TR; [vm_compute; reflexivity | exact X2]|]. left. vm_compute. reflexivity. }
  assert (X : match from_prf triangle_env ex_prf with
    | Ret a => find_sector triangle_env ex_contains a ex_point ex_level = Some (s2t "AAA") /\ find_sector triangle_env ex_contains a ex_point (f32_of_Z 9500) = None /\
        List.length (ad_departure a) = 1%nat /\ List.length (SpecMaps.all_maps (ad_maps a)) = 1%nat
    | _ => False end) by (vm_compute; repeat split; reflexivity).
  rewrite E in X. exact X.
Qed.
