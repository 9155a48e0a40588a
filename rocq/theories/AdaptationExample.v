(** A small profile with all of its files: the example beside the theorems of PropAdaptation.v *)
From Verif Require Import Base Num Float Unicode Paths Settings Trees Decode SpecSectorIndex.
From Verif Require Prf SpecPrf SctData SctParse EseParse AirwayTxt Airways SymbologyParse TopskyParse Icao SpecLocations Locations Maps SectorIndex.
From Verif Require Import Adaptation SpecAdaptation.
Local Open Scope string_scope.
Local Open Scope list_scope.

Definition crlf (l : list string) : list N := flat_map (fun s => s2t s ++ [13; 10]%N) l.
Definition ex_prf_text : text := crlf [
  "Settings	sector	\X.sct"; "Settings	airways	\airway.txt"; "Settings	SettingsfileSYMBOLOGY	\Symbology.txt"; "Settings	airports	\ICAO_Airports.txt";
  "Settings	airportcoords	\airports.txt"; "Settings	aircraft	\ICAO_Aircraft.txt"; "Settings	airlines	\ICAO_Airlines.txt";
  "Plugins	Plugin0	\TopSky\TopSky.dll"; "Plugins	Plugin1	\Squawks\Squawks.dll"; "RecentFiles	Recent1	\a.asr"].
Definition ex_sct : list N := crlf [
  "#define COLOR_APP 16711680"; "#define Own 1"; "[INFO]"; "AeroNav"; "AERO_NAV"; "ZZZZ"; "N048.08.12.527"; "E011.33.47.512"; "60"; "39"; "-2.9"; "1.0";
  "[VOR]"; "NUB 115.750 N049.30.10.508 E011.02.06.000"; "[FIXES]"; "ABC N048.10.00.000 W011.00.00.000";
  "[AIRPORT]"; "EDDM 000.000 N048.21.13.618 E011.47.09.909 D"; "[RUNWAY]"; "08L 26R 080 260 N048.21.46.164 E011.46.03.158 N048.22.02.504 E011.49.15.910 EDDM";
  "[SID]"; "EDDM SID 26L ABC N048.10.00.000 E011.00.00.000 N048.10.30.000 E011.10.00.000 COLOR_APP"].
(** two sectors of the same owner, side by side, and one on top *)
Definition ex_ese : list N := crlf [
  "[POSITIONS]"; "EDDF_ATIS:EDDF ATIS:118.020:EDDF:ATIS:EDDF:ATIS:-:-::"; "[SIDSSTARS]"; "SID:EDDM:26R:NUB1B:NUB ABC";
  "[AIRSPACE]"; "SECTORLINE:1"; "COORD:N048.00.00.000:E011.00.00.000"; "COORD:N049.00.00.000:E011.00.00.000"; "COORD:N049.00.00.000:E012.00.00.000";
  "COORD:N048.00.00.000:E012.00.00.000"; "COORD:N048.00.00.000:E011.00.00.000"; "SECTORLINE:2"; "COORD:N049.00.00.000:E011.00.00.000"; "COORD:N050.00.00.000:E011.00.00.000";
  "COORD:N049.00.00.000:E012.00.00.000"; "COORD:N049.00.00.000:E011.00.00.000"; "SECTOR:AAA:0:9500"; "OWNER:MGN:FIS"; "BORDER:1"; "SECTOR:BBB:0:9500"; "OWNER:MGN:FIS"; "BORDER:2";
  "SECTOR:CCC:9500:24500"; "OWNER:ZUG"; "BORDER:1"; "COPX:*:*:NUB:*:*:AAA:CCC:*:25000:NUB"].
Definition ex_airways : list N := flat_map (fun l => match map s2t l with [] => [] | x :: l => x ++ flat_map (fun s => 9%N :: s) l end ++ [13; 10]%N) [
  ["AKINI"; "49.1"; "11.4"; "14"; "L603"; "B"; "TALAL"; "49.2"; "10.4"; "24500"; "Y"; "0"; "0"; "0"; "0"; "N"]].
Definition ex_symbology : list N := crlf ["SYMBOLOGY"; "SYMBOLSIZE"; "Sids:line:32768:2.0:3:2:7"; "Fixes:name:255:4.0:0:0:7"; "SYMBOL:3"; "SYMBOLITEM:MOVETO -3 -3"; "m_ClipArea:0"; "END"].
Definition ex_airports : list N := crlf ["EDDM	MUNICH	Germany"; "EBOS	OOSTENDE	Belgium"].
Definition ex_navdata : list N := crlf ["EDDB    52.3622470    13.5006720    BERLIN BRANDENBURG"].
Definition ex_aircraft : list N := crlf ["EUFI	ML2J	ALENIA	Eurofighter 2000, Typhoon"].
Definition ex_airlines : list N := crlf ["DLH	LUFTHANSA	LUFTHANSA	Germany"].
Definition ex_ts_settings : list N := crlf ["Color_Background=1,2,3"; "Setup_COOPANS=0"; "Maps_FontSize=15"].
Definition ex_ts_maps : list N := crlf [
  "COLORDEF:Own:30:31:32"; "LINESTYLEDEF:Dots:a:b:1,2,3"; "SYMBOLDEF:VOR"; "MOVETO:0:1"; "MAP:One"; "FOLDER:Fixes"; "COLOR:Own"; "SYMBOL:VOR:NUB"; "MAP:Two"; "FOLDER:Fixes"; "COLOR:COLOR_APP"; "TEXT:ABC:Hello"].

Definition ex_files : list (path * list N) := [
  (pth "/w/x.prf", ex_prf_text); (pth "/w/X.sct", ex_sct); (pth "/w/X.ese", ex_ese); (pth "/w/airway.txt", ex_airways); (pth "/w/Symbology.txt", ex_symbology);
  (pth "/w/ICAO_Airports.txt", ex_airports); (pth "/w/airports.txt", ex_navdata); (pth "/w/ICAO_Aircraft.txt", ex_aircraft);
  (pth "/w/ICAO_Airlines.txt", ex_airlines); (pth "/w/TopSky/TopSkySettings.txt", ex_ts_settings); (pth "/w/TopSky/TopSkyMaps.txt", ex_ts_maps);
  (pth "/w/Squawks/squawks.json", s2t "json"); (pth "/w/adaptation.toml", s2t "toml")].
Definition path_eqb (p q : path) : bool := Bool.eqb (rooted p) (rooted q) && eqb (comps p) (comps q).
Definition read_from (l : list (path * list N)) (p : path) : option (list N) := option_map snd (find (fun x => path_eqb (fst x) p) l).
Definition ex_prf : Prf.prf := match Prf.prf_parse (Some (pth "/w/x.prf")) ex_prf_text with Ret r => r | _ => Prf.mkPrf [] (pth "/") end.

Definition ex_upper (s : text) : text := map (fun c => if (andb (97 <=? c) (c <=? 122))%N then (c - 32)%N else c) s.
Definition ex_json (b : list N) : option (list squawk) := if eqb b (s2t "json") then Some [mkSquawk (Some (s2t "7000")) None (s2t "VFR")] else None.
Definition ex_load (l : list SectorIndex.entry) : SectorIndex.rtree := SectorIndex.RNode (map SectorIndex.RLeaf l).
Definition ex_env : env :=
  mkEnv (pth "/home") (read_from ex_files) ex_upper ex_json (fun p _ _ => p) (fun l => l) ex_load (fun _ _ l => l).
(** the same with the sectors of the .ese file the other way round *)
Definition rev_env : env :=
  mkEnv (pth "/home") (read_from ex_files) ex_upper ex_json (fun p _ _ => p) (fun l => l) ex_load
    (fun s _ l => match s with SEseSectors => rev l | _ => l end).
(** a containment test: the bounding box *)
Definition ex_contains (b : list point) (p : point) : bool :=
  existsb (fun u => SectorIndex.fle (px u) (px p)) b && existsb (fun u => SectorIndex.fle (px p) (px u)) b &&
  existsb (fun u => SectorIndex.fle (py u) (py p)) b && existsb (fun u => SectorIndex.fle (py p) (py u)) b.
Definition ex_point : point := (f64_of_dec false 115 1, f64_of_dec false 485 1).
Definition ex_level : spec_float := f32_of_Z 5000.


(** ** The assumptions hold *)
Lemma ex_orders : orders_ok ex_env.
Proof. intros x A l. reflexivity. Qed.
Lemma rev_orders : orders_ok rev_env.
Proof. intros x A l. destruct x; cbn; try reflexivity. apply Permutation_sym, Permutation_rev. Qed.
Lemma ex_load_ok : load_ok ex_load.
Proof. intros l. unfold ex_load. induction l as [|x l IH]; [constructor|]. cbn in *. constructor. exact IH. Qed.
Lemma ex_contains_ok : contains_ok ex_contains.
Proof.
  intros border p H. unfold ex_contains in H. rewrite !andb_true_iff, !existsb_exists in H.
  destruct H as [[[[a [A A']] [b [B B']]] [c [C C']]] [d [D D']]]. split; eauto 10.
Qed.
Lemma ex_ccw : ccw_ok ex_env.
Proof. intros l p I. exact I. Qed.
Lemma ex_level_ok : f32_ok ex_level.
Proof. split; vm_compute; reflexivity. Qed.
Lemma ex_dir : SpecPrf.directory (Prf.prf_path ex_prf) (pth "/w").
Proof. split; [vm_compute; reflexivity|]. exists (s2t "x.prf"). vm_compute. reflexivity. Qed.

(** what is in the files *)
Definition ret_or {A} (d : A) (o : outcome A) : A := match o with Ret a => a | _ => d end.
Definition ex_F : files := Eval vm_compute in mkFiles
  (ret_or (SctData.mkSct (SctData.mkSctInfo [] [] [] ex_point ex_level ex_level ex_level ex_level) [] [] [] [] [] [] [] [] [] [] [] [] [] [] [] [])
     (SctParse.parse_sct (read_to_string ex_sct)))
  (ret_or (EseParse.mkEse [] [] [] []) (EseParse.parse_ese (read_to_string ex_ese)))
  (ret_or Airways.empty_graph (AirwayTxt.parse_airway_txt (read_to_string ex_airways)))
  (ret_or (SymbologyParse.mkSymbology [] []) (SymbologyParse.parse_symbology (read_to_string ex_symbology)))
  (ret_or [] (Icao.parse_airports (read_to_string ex_airports)))
  (ret_or [] (Icao.parse_navdata_airports (read_to_string ex_navdata)))
  (ret_or [] (Icao.parse_aircraft (read_to_string ex_aircraft)))
  (ret_or [] (Icao.parse_airlines (read_to_string ex_airlines))).
Lemma ex_files_read : files_read ex_env ex_prf ex_F.
Proof.
  split; (eexists _, _; split; [vm_compute; reflexivity|]; split; [vm_compute; reflexivity|]; vm_compute; reflexivity).
Qed.
Definition plainb (d : text) : bool := forallb (fun c => negb (is_nd c) || (c <? 128)%N) d.
Lemma plainb_ok d : plainb d = true -> SpecLocations.plain_digits d.
Proof. unfold plainb. rewrite forallb_forall. intros H c I N. specialize (H c I). rewrite N in H. cbn in H. apply N.ltb_lt, H. Qed.
Definition plain_locb (l : Locations.location) : bool := match l with Locations.LCoord _ => true | Locations.LFix d => plainb d end.
Lemma plain_locb_ok l : plain_locb l = true -> plain l.
Proof. destruct l; [reflexivity || (intros _; exact I) | apply plainb_ok]. Qed.

Lemma ex_plain_ese : plain_ese (f_ese ex_F).
Proof.
  assert (G : forallb (fun x => forallb plainb (EseParse.pr_route (match x with EseParse.Sid p => p | EseParse.Star p => p end))) (EseParse.e_procs (f_ese ex_F)) = true)
    by (vm_compute; reflexivity).
  intros x I. rewrite forallb_forall in G. specialize (G x I). rewrite forallb_forall in G. apply Forall_forall. intros d J. apply plainb_ok, G, J.
Qed.
Lemma ex_plain_sct : plain_sct (f_sct ex_F).
Proof.
  split.
  - assert (G : forallb (fun d => forallb (fun g => forallb (forallb plain_locb) (SctData.lg_lines g)) (SctData.dr_groups d))
      (let s := f_sct ex_F in SctData.sc_sids s ++ SctData.sc_stars s ++ SctData.sc_artccs_high s ++ SctData.sc_artccs s ++ SctData.sc_artccs_low s ++
                       SctData.sc_geo s) = true) by (vm_compute; reflexivity).
    intros d g l I J K. rewrite forallb_forall in G. specialize (G d I). rewrite forallb_forall in G. specialize (G g J). rewrite forallb_forall in G. specialize (G l K).
    rewrite forallb_forall in G. apply Forall_forall. intros x X. apply plain_locb_ok, G, X.
  - assert (G : forallb (fun a => plain_locb (SctData.aw_start a)) (let s := f_sct ex_F in SctData.sc_high_airways s ++ SctData.sc_low_airways s) = true) by (vm_compute; reflexivity).
    intros a I. rewrite forallb_forall in G. apply plain_locb_ok, G, I.
Qed.
Definition ex_topsky : outcome TopskyParse.topsky := Eval vm_compute in topsky_files ex_env (pth "/w/TopSky").
Lemma ex_topsky_eq : topsky_dir ex_env ex_prf = Ret (Some (pth "/w/TopSky")) /\ topsky_files ex_env (pth "/w/TopSky") = ex_topsky /\ ex_topsky <> Panic /\ ex_topsky <> Err.
Proof. split; [vm_compute; reflexivity|]. split; [vm_compute; reflexivity|]. split; vm_compute; discriminate. Qed.
Lemma ex_plain_topsky t : ex_topsky = Ret t -> plain_topsky t.
Proof.
  assert (G : match ex_topsky with Ret t => forallb (fun d => forallb (fun x => forallb plain_locb (rule_locations x)) (Maps.md_rules d)) (TopskyParse.tk_maps t) | _ => false end = true)
    by (vm_compute; reflexivity).
  intros E. rewrite E in G. intros d x I J. rewrite forallb_forall in G. specialize (G d I). rewrite forallb_forall in G. specialize (G x J). rewrite forallb_forall in G.
  apply Forall_forall. intros l X. apply plain_locb_ok, G, X.
Qed.
Lemma ex_levels : levels_ok (f_ese ex_F).
Proof.
  assert (G : forallb (fun x => (Sectors.es_bottom (snd x) <? 16777216)%N && (Sectors.es_top (snd x) <? 16777216)%N) (EseParse.e_sectors (f_ese ex_F)) = true)
    by (vm_compute; reflexivity).
  intros vid x I. rewrite forallb_forall in G. specialize (G _ I). cbn in G. apply andb_true_iff in G. rewrite !N.ltb_lt in G. exact G.
Qed.

(** ** Other file systems *)
Definition without (l : list string) (p : path) : option (list N) := if existsb (fun s => eqb p (pth s)) l then None else read ex_env p.
(** a map with a coordinate that is half decimal *)
Definition ruin_files : list (path * list N) := (pth "/w/TopSky/TopSkyMaps.txt", crlf ["MAP:One"; "COORD:48.5:E011.47.09.9"]) :: ex_files.
Definition ruin_env : env := with_files ex_env (read_from ruin_files).

Lemma ruin_files_read : files_read ruin_env ex_prf ex_F.
Proof.
  split; (eexists _, _; split; [vm_compute; reflexivity|]; split; [vm_compute; reflexivity|]; vm_compute; reflexivity).
Qed.
Lemma ignored_refuted : exists v r F, orders_ok v /\ files_read v r F /\ plain_ese (f_ese F) /\ plain_sct (f_sct F) /\
  (exists a, from_prf (with_files v (fun p => if eqb p (pth "/w/TopSky/TopSkyMaps.txt") then None else read v p)) r = Ret a) /\ from_prf v r = Panic.
Proof.
  exists ruin_env, ex_prf, ex_F. split; [exact ex_orders|]. split; [exact ruin_files_read|]. split; [exact ex_plain_ese|]. split; [exact ex_plain_sct|].
  split; [eexists; vm_compute; reflexivity | vm_compute; reflexivity].
Qed.
Lemma same_answer_refuted : exists v ld o r contains p level a a',
  orders_ok v /\ orders_ok (with_orders v ld o) /\ load_ok (load v) /\ load_ok ld /\ contains_ok contains /\ ccw_ok v /\ f32_ok level /\
  from_prf v r = Ret a /\ from_prf (with_orders v ld o) r = Ret a' /\
  find_sector v contains a p level <> find_sector (with_orders v ld o) contains a' p level.
Proof.
  destruct (from_prf ex_env ex_prf) as [a| |] eqn:E; [|vm_compute in E; discriminate..].
  destruct (from_prf rev_env ex_prf) as [a'| |] eqn:E'; [|vm_compute in E'; discriminate..].
  exists ex_env, ex_load, (order rev_env), ex_prf, ex_contains, ex_point, ex_level, a, a'.
  split; [exact ex_orders|]. split; [exact rev_orders|]. split; [exact ex_load_ok|]. split; [exact ex_load_ok|]. split; [exact ex_contains_ok|].
  split; [exact ex_ccw|]. split; [exact ex_level_ok|]. split; [exact E|]. split; [exact E'|].
  assert (X : match from_prf ex_env ex_prf, from_prf rev_env ex_prf with
              | Ret a, Ret a' => (find_sector ex_env ex_contains a ex_point ex_level, find_sector rev_env ex_contains a' ex_point ex_level)
              | _, _ => (None, None)
              end = (Some (s2t "AAA"), Some (s2t "BBB"))) by (vm_compute; reflexivity).
  rewrite E, E' in X. injection X as X Y. change (with_orders ex_env ex_load (order rev_env)) with rev_env. rewrite X, Y. discriminate.
Qed.

(** ** Libraries for overlays: one overlay that takes the sectors away *)
Definition no_sectors (a : adaptation) : adaptation :=
  mkAdaptation (ad_name a) (ad_locations a) (ad_positions a) (ad_volumes a) [] (ad_departure a) (ad_destination a) (ad_maps a) (ad_symbols a) (ad_colours a)
    (ad_line_styles a) (ad_settings a) (ad_aircraft a) (ad_airlines a) (ad_sct_items a) None.
Definition ex_quote (s : text) : text := [34]%N ++ s ++ [34]%N.
(** the names that are left of a path after ".." *)
Definition undot (l : list text) : list text := rev (fold_left (fun acc c => if eqb c (s2t "..") then tl acc else c :: acc) l []).
Definition ex_libs : libs := mkLibs (fun _ => Some (s2t "{json}"))
  (fun m => if eqb m (s2t "{merged}") then match from_prf ex_env ex_prf with Ret a => Some (no_sectors a) | _ => None end else None)
  (fun x => if eqb x (s2t "{json}" ++ [10]%N ++ s2t " + (import " ++ ex_quote (s2t "/w/a.jsonnet") ++ s2t ")" ++ [10]%N ++ s2t " + (import " ++ ex_quote (s2t "/o/b.jsonnet") ++ s2t ")")
            then Some (s2t "{merged}") else None)
  ex_quote (fun b => if eqb b (s2t "toml") then Some (s2t "x.prf", [s2t "./q/../a.jsonnet"; s2t "/o/b.jsonnet"]) else None)
  (fun p => Some (mkPath (rooted p) (undot (comps p)))).
