(** C88: a profile whose files are written as they should be loads.  Specification: SpecTableText.v, SpecEseText.v, SpecAirwayText.v, SpecSymbologyText.v, SpecTopskyText.v,
    SpecSettingsText.v, SpecAdaptation.v. *)
From Verif Require Import Base Float Paths Decode SpecText SpecFields SpecTableText.
From Verif Require Import Adaptation SpecAdaptation AdaptationProofs AdaptationMore AdaptationExample PropWrittenLoaded PropAirwayLoaded.
From Verif Require SpecPrf SpecFields SpecLocations SctParse SpecEseText SpecSymbologyText SpecTopskyText TopskyParse Maps Prf.
From Verif Require PropTableText PropEseText PropAirwayText PropSymbologyText PropTopskyText PropSettingsText PropAdaptation.
Local Open Scope string_scope.
Local Open Scope list_scope.

(** The files other than the .sct file and those of plugins; [l] are the sections of the .ese file. *)
Record files_written (v : env) (r : Prf.prf) (l : list SpecEseText.section) : Prop := {
  fw_ese : exists t, l <> [] /\ Forall SpecEseText.good_section l /\ SpecEseText.ese_text l t /\ file_text v (Prf.ese_path (cwd v) r) t;
  fw_airways : exists ls segs, airways_written v r ls segs;
  fw_symbology : exists items os symbols ss clip t, items <> [] /\ symbols <> [] /\
    Forall2 SpecSymbologyText.reads_item_line items os /\ Forall2 SpecSymbologyText.reads_symbol_lines symbols ss /\ SpecFields.whole clip /\
    layout SpecSymbologyText.symbology_space [] (SpecSymbologyText.symbology_lines items symbols clip) t /\ file_text v (Prf.symbology_path (cwd v) r) t;
  fw_airports : exists ls t, ls <> [] /\ Forall good_airport ls /\ layout icao_space remarks (map airport_text ls) t /\ file_text v (Prf.airports_path (cwd v) r) t;
  fw_navdata : exists ls airports t, Forall2 reads_navdata_line ls airports /\ navdata_layout (map navdata_text ls) t /\ file_text v (Prf.navdata_airports_path (cwd v) r) t;
  fw_aircraft : exists ls defs t, ls <> [] /\ Forall2 reads_aircraft_line ls defs /\ layout icao_space remarks (map aircraft_text ls) t /\ file_text v (Prf.aircraft_path (cwd v) r) t;
  fw_airlines : exists ls t, ls <> [] /\ Forall good_airline ls /\ layout icao_space remarks (map airline_text ls) t /\ file_text v (Prf.airlines_path (cwd v) r) t }.
(** The names of points in routes and in maps have no digits but the ASCII ones (see C23). *)
Definition plain_routes (l : list SpecEseText.section) : Prop :=
  forall p w, In p (SpecEseText.procedures_in l) -> In w (SpecEseText.q_route p) -> SpecLocations.plain_digits (snd w).
Definition plain_maps (ms : list Maps.map_def) : Prop := forall d x, In d ms -> In x (Maps.md_rules d) -> Forall plain (rule_locations x).

Lemma text_is_read {A} v p t (parse : text -> outcome A) x : file_text v p t -> parse t = Ret x -> file_read v p parse x.
Proof. intros [q [b [P [R <-]]]] E. exists q, b. auto. Qed.
Lemma written_read v r l s : files_written v r l -> file_read v (Prf.sct_path (cwd v) r) SctParse.parse_sct s ->
  exists F, files_read v r F /\ f_sct F = s /\ EseParse.e_procs (f_ese F) = map SpecEseText.procedure_of (SpecEseText.procedures_in l).
Proof.
  intros [[te [NE [GE [LE FE]]]] [la [segs [NA [GA [qa [ba [PA [RA LA]]]]]]]] [its [os [sys [ss [clip [ty [NI [NS [GI [GS [CL [LY FY]]]]]]]]]]]]
    [lp [tp [NP [GP [LP FP]]]]] [ln [an [tn [GN [LN FN]]]]] [lc [dc [tc [NC [GC [LC FC]]]]]] [ll [tl [NL [GL [LL FL]]]]]] S.
  destruct (PropEseText.C78_ese_text l te NE GE LE) as [e [E [_ [_ [_ EP]]]]].
  destruct (PropAirwayText.C85_airways la segs _ NA GA LA) as [g [G _]].
  destruct (PropSymbologyText.C80_symbology its os sys ss clip ty NI NS GI GS CL LY) as [y [Y _]].
  destruct (PropTableText.C79_airports lp tp NP GP LP) as [mp [MP _]]. destruct (PropTableText.C79_navdata ln an tn GN LN) as [mn [MN _]].
  destruct (PropTableText.C79_aircraft lc dc tc NC GC LC) as [mc [MC _]]. destruct (PropTableText.C79_airlines ll tl NL GL LL) as [ml [ML _]].
  exists (mkFiles s e g y mp mn mc ml). split; [|split; [reflexivity | exact EP]].
  split; cbn [f_sct f_ese f_airways f_symbology f_airports f_navdata f_aircraft f_airlines];
    [exact S | exact (text_is_read _ _ _ _ _ FE E) | exists qa, ba; auto | exact (text_is_read _ _ _ _ _ FY Y) | exact (text_is_read _ _ _ _ _ FP MP)
    | exact (text_is_read _ _ _ _ _ FN MN) | exact (text_is_read _ _ _ _ _ FC MC) | exact (text_is_read _ _ _ _ _ FL ML)].
Qed.
Lemma plain_written l e : EseParse.e_procs e = map SpecEseText.procedure_of (SpecEseText.procedures_in l) -> plain_routes l -> plain_ese e.
Proof.
  intros E P x I. rewrite E in I. apply in_map_iff in I. destruct I as [p [<- I]]. apply Forall_forall. intros d D.
  unfold SpecEseText.procedure_of in D. destruct (SpecEseText.q_star p); cbn [EseParse.pr_route] in D; apply in_map_iff in D; destruct D as [w [<- W]]; exact (P p w I W).
Qed.

(** With the TopSky plugin *)
Theorem C88_loads v r l s es ss ms ds d : orders_ok v -> SpecPrf.directory (Prf.prf_path r) d -> files_written v r l -> plain_routes l ->
  file_read v (Prf.sct_path (cwd v) r) SctParse.parse_sct s -> plain_sct s -> topsky_written v r es ss ms ds -> plain_maps (SpecTopskyText.maps_of ds) ->
  exists a, from_prf v r = Ret a.
Proof.
  intros O D W PR S PS T PM. destruct (written_read v r l s W S) as [F [FR [FS EP]]]. destruct (topsky_written_data v r es ss ms ds T) as [t [TD [_ [_ [TM _]]]]].
  apply (PropAdaptation.C60_loads v r F d O D FR).
  - intros x X. destruct TD as [d' [D' TF]]. rewrite X in D'. injection D' as <-. rewrite TF. discriminate.
  - exact (plain_written l _ EP PR).
  - rewrite FS. exact PS.
  - intros t' TD'. pose proof (topsky_data_det v r _ _ TD TD') as Q. injection Q as <-. unfold plain_topsky. rewrite TM. exact PM.
Qed.
Print Assumptions C88_loads.
(** and without; *)
Theorem C88_loads_without_topsky v r l s d : orders_ok v -> SpecPrf.directory (Prf.prf_path r) d -> files_written v r l -> plain_routes l ->
  file_read v (Prf.sct_path (cwd v) r) SctParse.parse_sct s -> plain_sct s -> topsky_dir v r = Ret None ->
  exists a, from_prf v r = Ret a.
Proof.
  intros O D W PR S PS T. destruct (written_read v r l s W S) as [F [FR [FS EP]]]. apply (PropAdaptation.C60_loads v r F d O D FR).
  - intros x X. rewrite T in X. discriminate.
  - exact (plain_written l _ EP PR).
  - rewrite FS. exact PS.
  - intros t [x [X _]]. rewrite T in X. discriminate.
Qed.
Print Assumptions C88_loads_without_topsky.

(** The profile of AdaptationExample.v with the files of the properties C78, C79, C80, C82, C84 and C85, and the same without the TopSky plugin *)
Definition all_files : list (path * list N) := written_files ++ [
  (pth "/w/airway.txt", PropAirwayText.written_file);
  (pth "/w/Symbology.txt", PropSymbologyText.ex_file (SpecSymbologyText.symbology_lines PropSymbologyText.ex_items PropSymbologyText.ex_symbols (s2t "5")));
  (pth "/w/ICAO_Airports.txt", PropTableText.ex_file (map airport_text PropTableText.ex_airports));
  (pth "/w/airports.txt", PropTableText.ex_navdata_file (flat_map navdata_text PropTableText.ex_navdata)); (pth "/w/X.sct", ex_sct)].
Definition all_env : env := mkEnv (cwd ex_env) (read_from all_files) (fun w => w) (json ex_env) (dest ex_env) (ccw ex_env) (load ex_env) (order ex_env).
Definition bare_prf : Prf.prf := Prf.mkPrf (filter (fun x => negb (eqb (snd (fst x)) (s2t "Plugin0"))) (Prf.settings ex_prf)) (Prf.prf_path ex_prf).
Example C88_nonvacuous : orders_ok all_env /\ SpecPrf.directory (Prf.prf_path ex_prf) (pth "/w") /\ SpecPrf.directory (Prf.prf_path bare_prf) (pth "/w") /\
  (forall r, r = ex_prf \/ r = bare_prf -> files_written all_env r PropEseText.ex_sections /\
     exists s, file_read all_env (Prf.sct_path (cwd all_env) r) SctParse.parse_sct s /\ plain_sct s /\ List.length (SctData.sc_sids s) = 1%nat) /\
  plain_routes PropEseText.ex_sections /\ topsky_dir all_env bare_prf = Ret None /\
  exists ds, topsky_written all_env ex_prf PropSettingsText.settings_example PropSettingsText.settings_sections PropTopskyText.topsky_entries ds /\
    plain_maps (SpecTopskyText.maps_of ds) /\ List.length (SpecTopskyText.maps_of ds) = 1%nat.
Proof.
  assert (TX : forall p q t, p = Ret q -> read all_env q = Some t -> read_to_string t = t -> file_text all_env p t) by (intros p q t P R E; exists q, t; auto).
  split; [exact ex_orders|]. split; [exact ex_dir|]. split; [exact ex_dir|]. split.
  { destruct PropTableText.C79_nonvacuous as [[GL LL] [[GP LP] [[dc [GC [_ LC]]] [GN LN]]]]. destruct PropSymbologyText.C80_nonvacuous as [[os [GI _]] [GS LY]].
    intros r R. split; [split|].
    - exists PropEseText.ex_text. split; [discriminate|]. split; [apply PropEseText.C78_nonvacuous|]. split; [apply PropEseText.C78_nonvacuous|]. destruct R as [-> | ->]; eapply TX; vm_compute; reflexivity.
    - exists PropAirwayText.written, PropAirwayText.written_segments. split; [discriminate|]. split; [exact PropAirwayText.written_reads|].
      exists (pth "/w/airway.txt"), PropAirwayText.written_file. split; [destruct R as [-> | ->]; vm_compute; reflexivity|]. split; [vm_compute; reflexivity|].
      assert (D : read_to_string PropAirwayText.written_file = PropAirwayText.written_file) by (vm_compute; reflexivity). rewrite D. exact PropAirwayText.written_laid.
    - eexists _, os, _, _, (s2t "5"), _. split; [|split; [|split; [exact GI|]; split; [exact GS|]; split; [|split; [exact LY|]; destruct R as [-> | ->]; eapply TX; vm_compute; reflexivity]]]; [discriminate | discriminate|].
      exists [], (s2t "5"). split; [reflexivity|]. split; [tauto|]. split; [discriminate|]. repeat constructor.
    - eexists _, _. split; [|split; [exact GP|]; split; [exact LP|]; destruct R as [-> | ->]; eapply TX; vm_compute; reflexivity]. discriminate.
    - eexists _, _, _. split; [exact GN|]. split; [exact LN|]. destruct R as [-> | ->]; eapply TX; vm_compute; reflexivity.
    - eexists _, dc, _. split; [|split; [exact GC|]; split; [exact LC|]; destruct R as [-> | ->]; eapply TX; vm_compute; reflexivity]. discriminate.
    - eexists _, _. split; [|split; [exact GL|]; split; [exact LL|]; destruct R as [-> | ->]; eapply TX; vm_compute; reflexivity]. discriminate.
    - exists (f_sct ex_F). split; [destruct R as [-> | ->]; eexists _, _; (split; [vm_compute; reflexivity|]); (split; [vm_compute; reflexivity|]); vm_compute; reflexivity|].
      split; [exact ex_plain_sct | vm_compute; reflexivity]. }
  assert (PL : forall d, forallb (fun c => (c <? 128)%N) d = true -> SpecLocations.plain_digits d).
  { intros d H c I _. rewrite forallb_forall in H. apply N.ltb_lt, H, I. }
  split. { intros p w I J. apply PL. cbn in I. destruct I as [<-|[<-|[]]]; cbn in J; [destruct J as [<-|[<-|[]]]; reflexivity | contradiction]. }
  split; [vm_compute; reflexivity|].
  destruct PropTopskyText.C82_nonvacuous as [N [[ds F2] [OR L2]]]. destruct PropSettingsText.C84_nonvacuous as [W [WS [L1 _]]]. exists ds. split.
  - exists (pth "/w/TopSky"). split; [vm_compute; reflexivity|].
    split; [exists PropSettingsText.settings_example_text; split; [exact W|]; split; [exact WS|]; split; [exact L1|]; eapply TX; vm_compute; reflexivity|].
    split; [exists PropTopskyText.topsky_text; split; [exact N|]; split; [exact F2|]; split; [exact OR|]; split; [exact L2|]; eapply TX; vm_compute; reflexivity|]. left. vm_compute. reflexivity.
  - destruct (PropTopskyText.C82_maps (fun w => w) _ ds _ N F2 OR L2) as [m [M [<- _]]].
    assert (X : match TopskyParse.parse_topsky_maps (fun w => w) PropTopskyText.topsky_text with
      | Ret m => List.length (TopskyParse.tm_maps m) = 1%nat /\
          forallb (fun d => forallb (fun x => forallb (fun l => match l with Locations.LCoord _ => true | Locations.LFix d => forallb (fun c => (c <? 128)%N) d end) (rule_locations x)) (Maps.md_rules d))
            (TopskyParse.tm_maps m) = true
      | _ => False end) by (vm_compute; split; reflexivity).
    rewrite M in X. destruct X as [X1 X2]. split; [|exact X1]. intros d x D I. rewrite forallb_forall in X2. specialize (X2 d D). rewrite forallb_forall in X2. specialize (X2 x I).
    apply Forall_forall. intros l K. rewrite forallb_forall in X2. specialize (X2 l K). destruct l; [exact Logic.I | apply PL; exact X2].
Qed.
