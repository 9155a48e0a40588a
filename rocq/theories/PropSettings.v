(** Property theorems: settings, line styles and symbols (C32-C35, C49, C50). *)
From Verif Require Import Base Num Float FloatParse Constraints Settings SpecSettings SettingsProofs.

(** C32 *)
Theorem C32_timing_resolution : forall s fir ct f,
  (forall x, sets ct f x -> effective f (resolve s fir ct) = x) /\
  (forall t x, (forall y, ~ sets ct f y) -> fir_timing s fir t -> override f t = Some x ->
     effective f (resolve s fir ct) = x) /\
  ((forall y, ~ sets ct f y) -> (forall t x, fir_timing s fir t -> override f t <> Some x) ->
     effective f (resolve s fir ct) = global f s).
Proof. exact resolve_spec. Qed.
Print Assumptions C32_timing_resolution.

Definition ex_settings := mkCoordination (f32_of_Z 12) (f32_of_Z 30) (f32_of_Z 5) (f32_of_Z 3)
  [(s2t "EDUU", mkTiming (Some (f32_of_Z 10)) None (Some (f32_of_Z 7)))].
Example C32_nonvacuous :
  resolve ex_settings (Some (s2t "EDUU")) (Some (mkTiming (Some (f32_of_Z 8)) None None)) =
    mkResolved (f32_of_Z 8) (f32_of_Z 30) (f32_of_Z 7) /\
  sets (Some (mkTiming (Some (f32_of_Z 8)) None None)) Act (f32_of_Z 8) /\
  fir_timing ex_settings (Some (s2t "EDUU")) (mkTiming (Some (f32_of_Z 10)) None (Some (f32_of_Z 7))).
Proof.
  split; [vm_compute; reflexivity|]. split; [eexists; split; reflexivity|]. eexists; split; reflexivity.
Qed.

(** C33 *)
Theorem C33_special_use_codes : forall l k m, get k (special_use_codes l) = Some m <->
  exists pre q post, l = pre ++ q :: post /\ covers q k /\ sq_msg q = m /\ forall q', In q' post -> ~ covers q' k.
Proof. exact special_use_codes_spec. Qed.
Print Assumptions C33_special_use_codes.

Example C33_nonvacuous :
  let l := [mkSquawk None (Some (s2t "0020", s2t "0022")) (s2t "HEMS"); mkSquawk (Some (s2t "21")) None (s2t "X");
            mkSquawk (Some (s2t "7900")) None (s2t "bad"); mkSquawk None None (s2t "none");
            mkSquawk (Some (s2t "7700")) (Some (s2t "1", s2t "2")) (s2t "both");
            mkSquawk (Some (s2t "+177777")) None (s2t "max")] in
  get (s2t "0021") (special_use_codes l) = Some (s2t "X") /\ get (s2t "0022") (special_use_codes l) = Some (s2t "HEMS") /\
  get (s2t "177777") (special_use_codes l) = Some (s2t "max") /\ get (s2t "7700") (special_use_codes l) = None /\
  List.length (special_use_codes l) = 4.
Proof. vm_compute. auto. Qed.

(** C34 *)
Theorem C34_builtin_styles_fixed : forall upper styles k d, builtin_style k d ->
  get k (line_styles_from_topsky upper styles) = Some d.
Proof. exact styles_builtin. Qed.
Print Assumptions C34_builtin_styles_fixed.

Theorem C34_custom_styles : forall upper styles k d, ~ builtin_name k ->
  get k (line_styles_from_topsky upper (Some styles)) = Some d <->
  exists pre name l post, styles = pre ++ (name, l) :: post /\ upper name = k /\ dashes_ok l d /\
    forall x, In x post -> upper (fst x) <> k.
Proof. exact styles_custom. Qed.
Print Assumptions C34_custom_styles.

(** Names that differ in more than case do not depend on the hash map's iteration order. *)
Theorem C34_order_independent : forall upper styles styles' k, Permutation styles styles' ->
  NoDup (map (fun x => upper (fst x)) styles) ->
  get k (line_styles_from_topsky upper (Some styles)) = get k (line_styles_from_topsky upper (Some styles')).
Proof. exact styles_order. Qed.
Print Assumptions C34_order_independent.

Definition ascii_upper (s : text) : text := map (fun c => if is_lower c then (c - 32)%N else c) s.
(** Names that differ only in case: the winner is decided by the iteration order. *)
Theorem C34_case_collision_refuted : exists styles styles' k, Permutation styles styles' /\ NoDup (keys styles) /\
  get k (line_styles_from_topsky ascii_upper (Some styles)) <> get k (line_styles_from_topsky ascii_upper (Some styles')).
Proof.
  exists [(s2t "Abc", [f32_of_Z 1; f32_of_Z 2]); (s2t "ABC", [])], [(s2t "ABC", []); (s2t "Abc", [f32_of_Z 1; f32_of_Z 2])], (s2t "ABC").
  split; [constructor|]. split; [apply nodupb_NoDup; vm_compute; reflexivity|]. vm_compute. discriminate.
Qed.
Print Assumptions C34_case_collision_refuted.

Example C34_nonvacuous :
  let styles := Some [(s2t "Fir", map f32_of_Z [5; 2; 1; 2; 9]%Z); (s2t "dash", map f32_of_Z [9; 9]%Z); (s2t "one", [f32_of_Z 4])] in
  let r := line_styles_from_topsky ascii_upper styles in
  get (s2t "FIR") r = Some (Some [d_ 5 2; d_ 1 2]) /\ get (s2t "DASH") r = Some (Some [d_ 3 3]) /\ get (s2t "ONE") r = Some None /\
  ~ builtin_name (s2t "FIR").
Proof.
  cbv zeta. split; [vm_compute; reflexivity|]. split; [vm_compute; reflexivity|]. split; [vm_compute; reflexivity|].
  intros [d H]. inversion H.
Qed.

(** C35 *)
Theorem C35_symbol_fallback : forall topsky symb k,
  (forall l s, topsky = Some l -> get (s2t (topsky_name k)) l = Some s -> symbol_field k (symbols_from topsky symb) = s) /\
  (forall s, (forall l, topsky = Some l -> get (s2t (topsky_name k)) l = None) -> get (symbology_type k) symb = Some s ->
     symbol_field k (symbols_from topsky symb) = s) /\
  ((forall l, topsky = Some l -> get (s2t (topsky_name k)) l = None) -> get (symbology_type k) symb = None ->
     k <> KVor -> symbol_field k (symbols_from topsky symb) = symbol_field k symbols_default).
Proof. exact symbols_table. Qed.
Print Assumptions C35_symbol_fallback.

(** The VOR symbol falls back to the NDB default. *)
Theorem C35_vor_default_refuted : forall topsky symb,
  (forall l, topsky = Some l -> get (s2t "VOR") l = None) -> get StVOR symb = None ->
  sy_vor (symbols_from topsky symb) = sy_ndb symbols_default /\ sy_ndb symbols_default <> sy_vor symbols_default.
Proof.
  intros topsky symb N E. split; [|vm_compute; discriminate].
  exact (proj2 (proj2 (pick_symbol_spec topsky symb "VOR" StVOR default_ndb)) N E).
Qed.
Print Assumptions C35_vor_default_refuted.

(** Looking a symbol up by name finds exactly the TopSky symbols. *)
Theorem C35_lookup_by_name : forall topsky symb name s,
  symbols_get (symbols_from topsky symb) name = Some s <-> exists l, topsky = Some l /\ get name l = Some s.
Proof.
  intros [l|] symb name s; cbn; split; try (intros [l' [E G]]; congruence); try discriminate.
  intros G. exists l. auto.
Qed.
Print Assumptions C35_lookup_by_name.

Example C35_nonvacuous :
  let r := symbols_from (Some [(s2t "FIX", [mv 1 1])]) [(StFix, [mv 2 2]); (StNDB, [mv 3 3])] in
  sy_fix r = [mv 1 1] /\ sy_ndb r = [mv 3 3] /\ sy_airport r = default_airport /\ sy_vor r = default_ndb /\
  symbols_get r (s2t "FIX") = Some [mv 1 1] /\ symbols_get r (s2t "NDB") = None.
Proof. vm_compute. auto 10. Qed.

(** C49 *)
Theorem C49_line_settings : forall its k,
  (forall i, get (s2t (fst (line_item k)), s2t (snd (line_item k))) its = Some i ->
     ls_width (line_field k (line_settings_from its)) = it_weight i /\
     ls_style (line_field k (line_settings_from its)) = it_style i) /\
  (get (s2t (fst (line_item k)), s2t (snd (line_item k))) its = None ->
     line_field k (line_settings_from its) = mkLineStyle 1 (s2t "SOLID")).
Proof. exact line_settings_spec. Qed.
Print Assumptions C49_line_settings.

Theorem C49_label_settings : forall its k,
  (forall i, get (s2t (label_folder k), s2t "name") its = Some i ->
     label_field k (label_settings_from its) = (it_align i, SFmul 24 128 (it_size i) (f32_lit 35 1))) /\
  (get (s2t (label_folder k), s2t "name") its = None ->
     label_field k (label_settings_from its) = ((HCenter, VCenter), f32_lit 105 1)).
Proof. exact label_settings_spec. Qed.
Print Assumptions C49_label_settings.

Example C49_nonvacuous :
  let its := [((s2t "Sids", s2t "line"), mkItem (f32_of_Z 3) (s2t "DASH") 2 (HLeft, VTop));
              ((s2t "NDBs", s2t "name"), mkItem (f32_of_Z 4) (s2t "SOLID") 1 (HRight, VBottom))] in
  li_sid (line_settings_from its) = mkLineStyle 2 (s2t "DASH") /\ li_star (line_settings_from its) = mkLineStyle 1 (s2t "SOLID") /\
  la_ndb (label_settings_from its) = ((HRight, VBottom), f32_of_Z 14).
Proof.
  cbv zeta. split; [vm_compute; reflexivity|]. split; vm_compute; reflexivity.
Qed.

(** C50 *)
Theorem C50_font_size : forall m,
  maps_font_size None = f32_of_Z 12 /\
  (forall v x, get (s2t "Maps_FontSize") m = Some v -> parse_f32 v = Some x -> maps_font_size (Some m) = x) /\
  ((forall v, get (s2t "Maps_FontSize") m = Some v -> parse_f32 v = None) -> maps_font_size (Some m) = f32_of_Z 12).
Proof.
  intros m. split; [reflexivity|]. exact (parse_with_default_spec parse_f32 m "Maps_FontSize" (lit 12)).
Qed.
Print Assumptions C50_font_size.

(** (enabled, number of dots) *)
Theorem C50_history_dots : forall m,
  history_dots None = (false, 6%N) /\
  (forall v n, get (s2t "Track_HistoryDots") m = Some v -> parse_u32 v = Some n -> n <> 0%N -> history_dots (Some m) = (true, n)) /\
  (forall v, get (s2t "Track_HistoryDots") m = Some v -> parse_u32 v = Some 0%N -> history_dots (Some m) = (false, 6%N)) /\
  ((forall v, get (s2t "Track_HistoryDots") m = Some v -> parse_u32 v = None) -> history_dots (Some m) = (true, 6%N)).
Proof.
  intros m. unfold history_dots. split; [reflexivity|].
  destruct (parse_with_default_spec parse_u32 m "Track_HistoryDots" 6%N) as [A B]. split; [|split].
  - intros v n G P NZ. rewrite (A v n G P). destruct (N.eqb_spec n 0); [contradiction | reflexivity].
  - intros v G P. rewrite (A v _ G P). reflexivity.
  - intros H. rewrite (B H). reflexivity.
Qed.
Print Assumptions C50_history_dots.

(** (enabled, minutes); -0 and 0 both disable the vector *)
Theorem C50_vectors : forall m,
  vector_settings None = (false, f32_of_Z 1) /\
  (forall v x, get (s2t "Track_PredictionLine") m = Some v -> parse_f32 v = Some x -> (forall s, x <> S754_zero s) ->
     vector_settings (Some m) = (true, x)) /\
  (forall v s, get (s2t "Track_PredictionLine") m = Some v -> parse_f32 v = Some (S754_zero s) ->
     vector_settings (Some m) = (false, f32_of_Z 1)) /\
  ((forall v, get (s2t "Track_PredictionLine") m = Some v -> parse_f32 v = None) ->
     vector_settings (Some m) = (true, f32_of_Z 1)).
Proof.
  intros m. unfold vector_settings. split; [reflexivity|].
  destruct (parse_with_default_spec parse_f32 m "Track_PredictionLine" (lit 1)) as [A B]. split; [|split].
  - intros v x G P NZ. rewrite (A v x G P). destruct x; try reflexivity. exfalso. eapply NZ. reflexivity.
  - intros v s G P. rewrite (A v _ G P). reflexivity.
  - intros H. rewrite (B H). reflexivity.
Qed.
Print Assumptions C50_vectors.

Theorem C50_coopans : forall topsky,
  coopans_setting topsky = false <-> exists m, topsky = Some m /\ get (s2t "Setup_COOPANS") m = Some (s2t "0").
Proof.
  intros [m|]; cbn [coopans_setting].
  - unfold coopans_setting. cbn [and_then]. destruct (get (s2t "Setup_COOPANS") m) as [v|] eqn:G; cbn [option_map unwrap_or].
    + rewrite negb_false_iff, eqb_true. split; [intros ->; eauto|]. intros [m' [E G']]. congruence.
    + split; [discriminate|]. intros [m' [E G']]. congruence.
  - split; [discriminate|]. intros [m' [E _]]. discriminate.
Qed.
Print Assumptions C50_coopans.

(** The ASR files are the recent files 1 to 9 that exist, in order. *)
Theorem C50_recent_files : forall (P : Type) (recent : N -> option P),
  exists l : list (option P), l = map recent [1; 2; 3; 4; 5; 6; 7; 8; 9]%N /\
    map Some (asr_files recent) = filter (fun o => match o with Some _ => true | None => false end) l.
Proof.
  intros P recent. eexists. split; [reflexivity|]. unfold asr_files.
  generalize [1; 2; 3; 4; 5; 6; 7; 8; 9]%N as l. induction l as [|i l IH]; [reflexivity|].
  cbn [flat_map map filter]. rewrite map_app, IH. destruct (recent i); reflexivity.
Qed.
Print Assumptions C50_recent_files.

Example C50_nonvacuous :
  let m := [(s2t "Maps_FontSize", s2t "14.5"); (s2t "Track_HistoryDots", s2t "0"); (s2t "Track_PredictionLine", s2t "x");
            (s2t "Setup_COOPANS", s2t "0")] in
  maps_font_size (Some m) = f32_lit 145 1 /\ history_dots (Some m) = (false, 6%N) /\
  vector_settings (Some m) = (true, f32_of_Z 1) /\ coopans_setting (Some m) = false /\
  asr_files (fun i => if (i mod 3 =? 0)%N then Some i else None) = [3; 6; 9]%N.
Proof.
  cbv zeta. split; [vm_compute; reflexivity|]. split; [vm_compute; reflexivity|]. split; [vm_compute; reflexivity|].
  split; vm_compute; reflexivity.
Qed.
