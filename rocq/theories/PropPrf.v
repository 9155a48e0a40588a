(** C41 C42 C47 C52 C53: profiles (.prf files) and the paths they name. *)
From Coq Require Import Permutation.
From Verif Require Import Base Num Trees Paths Prf SpecPrf PrfProofs PathProofs.
Local Open Scope string_scope.
Local Open Scope list_scope.

(** Every file of the specified form with at least one setting is read, and each category and key gives the value of
    its last setting. *)
Theorem C41_reads file t es : prf_file t es -> es <> [] ->
  exists p, prf_parse (Some file) t = Ret p /\ prf_path p = file /\ NoDup (keys (settings p)) /\
    forall cat key val, get (cat, key) (settings p) = Some val <-> last_setting es cat key val.
Proof.
  intros F NE. exists (mkPrf (of_list (pairs_of es)) file). unfold prf_parse. rewrite (prf_reads t es F NE). split; [reflexivity|]. split; [reflexivity|].
  split; [apply NoDup_of_list|]. intros. apply get_last.
Qed.
Print Assumptions C41_reads.
(** Every other text is an error, and so is a profile whose path cannot be made canonical. *)
Theorem C41_rejects canon t : (forall es, prf_file t es -> es = []) \/ canon = None -> prf_parse canon t = Err.
Proof.
  unfold prf_parse. destruct (prf_total t) as [[es [NE [F E]]]|[E _]]; rewrite E; [|reflexivity].
  intros [H| ->]; [contradiction (NE (H es F)) | reflexivity].
Qed.
Print Assumptions C41_rejects.
(** A text is a profile in one way only. *)
Theorem C41_unique t es es' : prf_file t es -> es <> [] -> prf_file t es' -> es' = es.
Proof. apply prf_unique. Qed.
Print Assumptions C41_unique.
Theorem C47_prf canon t : prf_parse canon t <> Panic.
Proof.
  unfold prf_parse. destruct (prf_total t) as [[es [_ [_ E]]]|[E _]]; rewrite E; [destruct canon|]; discriminate.
Qed.
Print Assumptions C47_prf.
(** An empty value makes the whole profile an error. *)
Theorem C41_empty_value_refuted : exists t file, t = s2t "Settings	sector	" ++ lf ++ s2t "Settings	airways	a.txt" ++ lf /\ prf_parse (Some file) t = Err.
Proof. exists (s2t "Settings	sector	" ++ lf ++ s2t "Settings	airways	a.txt" ++ lf), (pth "/a/b.prf"). split; [reflexivity | vm_compute; reflexivity]. Qed.
Print Assumptions C41_empty_value_refuted.

Example C41_nonvacuous : exists es, prf_file (lf ++ s2t "Settings	sector	\A.sct" ++ lf ++ lf ++ s2t "	Settings sector	\B B.sct" ++ [13]%N) es /\ es <> [] /\
  last_setting es (s2t "Settings") (s2t "sector") (s2t "\B B.sct" ++ [13]%N).
Proof.
  exists [mkEntry (s2t "Settings") (s2t "sector") (s2t "\A.sct"); mkEntry (s2t "Settings") (s2t "sector") (s2t "\B B.sct" ++ [13]%N)]. split; [|split; [discriminate|]].
  - apply (prf_line lf (s2t "Settings	sector	\A.sct") _ (lf ++ s2t "	Settings sector	\B B.sct" ++ [13]%N)).
    + repeat constructor.
    + apply (setting_intro (s2t "Settings") (s2t "	") (s2t "sector") (s2t "	") (s2t "\A.sct")); try discriminate; try (repeat constructor; fail).
      * cbn. intuition discriminate.
      * intros [c [r [E X]]]. injection E as <- _. discriminate X.
    + apply (prf_last (lf ++ s2t "	") (s2t "Settings sector	\B B.sct" ++ [13]%N)).
      * repeat constructor.
      * apply (setting_intro (s2t "Settings") (s2t " ") (s2t "sector") (s2t "	") (s2t "\B B.sct" ++ [13]%N)); try discriminate; try (repeat constructor; fail).
        -- cbn. intuition discriminate.
        -- intros [c [r [E X]]]. injection E as <- _. discriminate X.
  - exists [mkEntry (s2t "Settings") (s2t "sector") (s2t "\A.sct")], []. split; [reflexivity | intros e []].
Qed.

(** The methods that return a path, and the key each of them reads *)
Definition accessors : list ((path -> prf -> outcome path) * string) :=
  [(sct_path, "sector"); (airways_path, "airways"); (navdata_airports_path, "airportcoords"); (airlines_path, "airlines");
   (aircraft_path, "aircraft"); (airports_path, "airports"); (symbology_path, "SettingsfileSYMBOLOGY")].
(** A path is found relative to the directory of the profile if it starts with one separator, and relative to the
    working directory if it does not start with one; white space at its end is dropped and backslashes are read as
    slashes. *)
Theorem C42_paths cwd p d f k v : directory (prf_path p) d -> In (f, k) accessors -> get (s2t "Settings", s2t k) (settings p) = Some v ->
  exists q, resolves cwd (prf_path p) v q /\ f cwd p = Ret q.
Proof.
  intros D I E. destruct (resolves_total cwd (prf_path p) v d D) as [q R]. exists q. split; [exact R|]. pose proof (resolves_ok cwd p v q d D R) as J.
  destruct I as [I|[I|[I|[I|[I|[I|[I|[]]]]]]]]; injection I as <- <-;
    unfold sct_path, airways_path, navdata_airports_path, airlines_path, aircraft_path, airports_path, symbology_path, setting; rewrite E; exact J.
Qed.
Print Assumptions C42_paths.
(** Recent files, by number *)
Theorem C42_recent cwd p d n : directory (prf_path p) d ->
  match get (s2t "RecentFiles", s2t "Recent" ++ fmt_uint 10 n) (settings p) with
  | Some v => exists q, resolves cwd (prf_path p) v q /\ recent_path cwd p n = Ret (Some q)
  | None => recent_path cwd p n = Ret None
  end.
Proof.
  intros D. unfold recent_path. destruct (get _ _) as [v|]; [|reflexivity]. destruct (resolves_total cwd (prf_path p) v d D) as [q R].
  exists q. rewrite (resolves_ok cwd p v q d D R). auto.
Qed.
Print Assumptions C42_recent.
(** What a value means is unique. *)
Theorem C42_unique cwd file v d q q' : directory file d -> resolves cwd file v q -> resolves cwd file v q' -> q' = q.
Proof. intros. eapply resolves_fun; eassumption. Qed.
Print Assumptions C42_unique.
(** The .ese file lies next to the .sct file and has its name, and isec.txt lies next to the airways file. *)
Theorem C42_siblings cwd p d v q d' n : directory (prf_path p) d -> resolves cwd (prf_path p) v q -> below d' [n] q -> n <> s2t ".." ->
  (get (s2t "Settings", s2t "sector") (settings p) = Some v ->
     exists n' q', extension (s2t "ese") n n' /\ below d' [n'] q' /\ ese_path cwd p = Ret q') /\
  (get (s2t "Settings", s2t "airways") (settings p) = Some v -> exists q', below d' [s2t "isec.txt"] q' /\ isec_path cwd p = Ret q').
Proof.
  intros D R [B1 B2] N. split; intros E; unfold ese_path, isec_path, setting; rewrite E; walk; rewrite (resolves_ok cwd p v q d D R).
  - destruct (with_extension_spec (s2t "ese") q d' n (eq_sym B1) B2 N) as [n' [X ->]]. exists n', (mkPath (rooted d') (comps d' ++ [n'])). split; [exact X|]. split; [split|]; reflexivity.
  - rewrite (with_file_name_spec (s2t "isec.txt") q d' n (eq_sym B1) B2 N eq_refl). exists (mkPath (rooted d') (comps d' ++ [s2t "isec.txt"])). split; [split|]; reflexivity.
Qed.
Print Assumptions C42_siblings.
(** With two separators in front a path is not found relative to the profile, although it starts with a separator. *)
Theorem C42_double_separator_refuted : exists cwd p v, get (s2t "Settings", s2t "sector") (settings p) = Some v /\ v = s2t "\\A.sct" /\
  directory (prf_path p) (pth "/profiles") /\ sct_path cwd p = Ret (pth "/A.sct").
Proof.
  exists (pth "/work"), (mkPrf [((s2t "Settings", s2t "sector"), s2t "\\A.sct")] (pth "/profiles/a.prf")), (s2t "\\A.sct").
  split; [reflexivity|]. split; [reflexivity|]. split; [|vm_compute; reflexivity]. split; [reflexivity | exists (s2t "a.prf"); reflexivity].
Qed.
Print Assumptions C42_double_separator_refuted.

Example C42_nonvacuous : exists p, prf_parse (Some (pth "/w/f/i.prf")) prf_test = Ret p /\ directory (prf_path p) (pth "/w/f") /\
  get (s2t "Settings", s2t "sector") (settings p) = Some (s2t "\EDMM.sct") /\ below (pth "/w/f") [s2t "EDMM.sct"] (pth "/w/f/EDMM.sct") /\
  resolves (pth "/w") (prf_path p) (s2t "\EDMM.sct") (pth "/w/f/EDMM.sct").
Proof.
  destruct (prf_parse (Some (pth "/w/f/i.prf")) prf_test) as [p| |] eqn:E; [|vm_compute in E; discriminate E..].
  exists p. split; [reflexivity|]. vm_compute in E. injection E as <-. split; [split; [reflexivity | exists (s2t "i.prf"); reflexivity]|].
  split; [vm_compute; reflexivity|]. split; [split; reflexivity|].
  apply (resolves_profile _ _ _ (s2t "\EDMM.sct") (s2t "EDMM.sct") [s2t "EDMM.sct"] (pth "/w/f")).
  - exists []. split; [reflexivity|]. split; [constructor|]. intros r' c X. assert (c = 116%N) as ->.
    { apply (f_equal (fun l => last l 0%N)) in X. rewrite last_last in X. symmetry. exact X. }
    unfold white_space. cbn [In]. intuition discriminate.
  - repeat (constructor; [reflexivity|]). constructor.
  - intros [c [r [X Y]]]. injection X as <- _. discriminate Y.
  - apply (names_last (s2t "EDMM.sct")). cbn. intuition discriminate.
  - split; [reflexivity | exists (s2t "i.prf"); reflexivity].
  - split; reflexivity.
Qed.

(** The methods that read a setting return iff the profile has it; otherwise they panic. *)
Theorem C52_missing cwd p d f k : directory (prf_path p) d -> In (f, k) ((ese_path, "sector") :: (isec_path, "airways") :: accessors) ->
  (get (s2t "Settings", s2t k) (settings p) <> None -> exists q, f cwd p = Ret q) /\
  (get (s2t "Settings", s2t k) (settings p) = None -> f cwd p = Panic).
Proof.
  intros D I. split.
  - intros N. destruct (get (s2t "Settings", s2t k) (settings p)) as [v|] eqn:E; [|congruence]. destruct (resolves_total cwd (prf_path p) v d D) as [q R].
    destruct I as [I|[I|I]]; [injection I as <- <-..|].
    + unfold ese_path, setting. rewrite E. walk. rewrite (resolves_ok cwd p v q d D R). eauto.
    + unfold isec_path, setting. rewrite E. walk. rewrite (resolves_ok cwd p v q d D R). eauto.
    + destruct (C42_paths cwd p d f k v D I E) as [q' [_ X]]. eauto.
  - intros N. destruct I as [I|[I|[I|[I|[I|[I|[I|[I|[I|[]]]]]]]]]]; injection I as <- <-;
    unfold ese_path, isec_path, sct_path, airways_path, navdata_airports_path, airlines_path, aircraft_path, airports_path, symbology_path, setting; rewrite N; reflexivity.
Qed.
Print Assumptions C52_missing.
(** So a profile can be read whose paths cannot be asked for. *)
Theorem C52_profile_complete_refuted : exists file t p cwd, prf_parse (Some file) t = Ret p /\ sct_path cwd p = Panic.
Proof.
  destruct (prf_parse (Some (pth "/a/b.prf")) (s2t "Settings airways a.txt")) as [p| |] eqn:E; [|vm_compute in E; discriminate E..].
  exists (pth "/a/b.prf"), (s2t "Settings airways a.txt"), p, (pth "/w"). split; [exact E|]. vm_compute in E. injection E as <-. vm_compute. reflexivity.
Qed.
Print Assumptions C52_profile_complete_refuted.
Example C52_nonvacuous : exists p, directory (prf_path p) (pth "/a") /\ get (s2t "Settings", s2t "sector") (settings p) <> None /\ get (s2t "Settings", s2t "airways") (settings p) = None.
Proof. exists (mkPrf [((s2t "Settings", s2t "sector"), s2t "a")] (pth "/a/b.prf")). split; [split; [reflexivity | exists (s2t "b.prf"); reflexivity]|]. split; [discriminate | reflexivity]. Qed.

(** The directories of the plugins: if all settings that name the plugin file agree on its directory, the result is that
    directory, whatever the iteration order of the hash map; without such a setting there is no result. *)
Theorem C53_squawks cwd p dir it d : directory (prf_path p) dir -> rooted cwd = true -> rooted dir = true -> Permutation it (settings p) ->
  (forall kv d', In kv (settings p) -> plugin_in cwd (prf_path p) "Squawks.dll" d' (snd kv) -> d' = d) ->
  ((exists kv, In kv (settings p) /\ plugin_in cwd (prf_path p) "Squawks.dll" d (snd kv)) ->
     exists q, below d [s2t "squawks.json"] q /\ squawks_path cwd p it = Ret (Some q)) /\
  ((forall kv, In kv (settings p) -> ~ plugin_in cwd (prf_path p) "Squawks.dll" d (snd kv)) -> squawks_path cwd p it = Ret None).
Proof. apply squawks_spec. Qed.
Print Assumptions C53_squawks.
Theorem C53_topsky cwd p dir it d : directory (prf_path p) dir -> rooted cwd = true -> rooted dir = true -> Permutation it (settings p) ->
  (forall kv d', In kv (settings p) -> plugin_in cwd (prf_path p) "TopSky.dll" d' (snd kv) -> d' = d) ->
  ((exists kv, In kv (settings p) /\ plugin_in cwd (prf_path p) "TopSky.dll" d (snd kv)) -> topsky_path cwd p it = Ret (Some d)) /\
  ((forall kv, In kv (settings p) -> ~ plugin_in cwd (prf_path p) "TopSky.dll" d (snd kv)) -> topsky_path cwd p it = Ret None).
Proof. apply topsky_spec. Qed.
Print Assumptions C53_topsky.
(** With two such settings the result depends on the iteration order. *)
Theorem C53_order_refuted : exists cwd p it it' q q', NoDup (keys (settings p)) /\ Permutation it (settings p) /\ Permutation it' (settings p) /\
  topsky_path cwd p it = Ret (Some q) /\ topsky_path cwd p it' = Ret (Some q') /\ q <> q'.
Proof.
  pose (a := ((s2t "Plugins", s2t "Plugin0"), s2t "\A\TopSky.dll")). pose (b := ((s2t "Plugins", s2t "Plugin1"), s2t "\B\TopSky.dll")).
  exists (pth "/w"), (mkPrf [a; b] (pth "/p/a.prf")), [a; b], [b; a], (pth "/p/A"), (pth "/p/B"). split; [apply nodupb_NoDup; reflexivity|].
  split; [apply Permutation_refl|]. split; [apply perm_swap|]. split; [vm_compute; reflexivity|]. split; [vm_compute; reflexivity | discriminate].
Qed.
Print Assumptions C53_order_refuted.
Example C53_nonvacuous : exists p, prf_parse (Some (pth "/w/f/i.prf")) prf_test = Ret p /\
  topsky_path (pth "/w") p (rev (settings p)) = Ret (Some (pth "/w/f/EDMM/Plugins/Topsky/iCAS2")) /\ squawks_path (pth "/w") p (settings p) = Ret None.
Proof.
  destruct (prf_parse (Some (pth "/w/f/i.prf")) prf_test) as [p| |] eqn:E; [|vm_compute in E; discriminate E..].
  exists p. split; [reflexivity|]. vm_compute in E. injection E as <-. split; vm_compute; reflexivity.
Qed.
