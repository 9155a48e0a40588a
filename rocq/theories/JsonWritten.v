(** What is written. *)
From Verif Require Import Base Num Float Paths Colours Settings Adaptation Json SpecJson JsonAdaptation.
From Verif Require Constraints Locations Airways Sectors Maps SctData SctItems Icao.
Local Open Scope string_scope.
Local Open Scope list_scope.

Section Written.
Context (nm : numerals).
Definition writes {A} (c : codec A) (w : A -> json) : Prop := forall a, enc c a = w a.
Lemma wr_text : writes c_text JStr. Proof. intros a. reflexivity. Qed.
Lemma wr_bool : writes c_bool JBool. Proof. intros a. reflexivity. Qed.
Lemma wr_int lo hi : writes (c_int nm lo hi) w_int. Proof. intros a. reflexivity. Qed.
Lemma wr_uint m : writes (c_uint nm m) w_nat. Proof. intros a. reflexivity. Qed.
Lemma wr_usize : writes (c_usize nm) w_id. Proof. intros a. cbn. unfold w_id, w_int. do 2 f_equal. lia. Qed.
Lemma wr_f64 : writes (c_f64 nm) (w_f64 nm). Proof. intros []; reflexivity. Qed.
Lemma wr_f32 : writes (c_f32 nm) (w_f32 nm). Proof. intros []; reflexivity. Qed.
Lemma wr_colour : writes c_colour w_colour. Proof. intros a. reflexivity. Qed.
Lemma wr_path : writes c_path w_path. Proof. intros a. reflexivity. Qed.
Lemma wr_option {A} (c : codec A) w : writes c w -> writes (c_option c) (w_option w). Proof. intros H [a|]; [apply H | reflexivity]. Qed.
Lemma wr_list {A} (c : codec A) w : writes c w -> writes (c_list c) (w_list w). Proof. intros H l. cbn. unfold w_list. f_equal. apply map_ext. exact H. Qed.
Lemma wr_set : writes c_set (w_list JStr). Proof. intros l. reflexivity. Qed.
Lemma wr_map {A} (c : codec A) w : writes c w -> writes (c_map c) (w_map w).
Proof. intros H l. cbn. unfold w_map. f_equal. apply map_ext. intros [k a]. f_equal. apply H. Qed.
Lemma wr_multi {A} (c : codec A) w : writes c w -> writes (c_multi c) (w_multi w). Proof. intros H. apply wr_map, wr_list, H. Qed.
Lemma wr_pair {A} (c : codec A) w : writes c w -> writes (c_pair c c) (w_pair w). Proof. intros H [a b]. cbn. unfold w_pair. cbn. rewrite !H. reflexivity. Qed.

Create HintDb wr.
Hint Resolve wr_text wr_bool wr_int wr_uint wr_usize wr_f64 wr_f32 wr_colour wr_path wr_set wr_option wr_list wr_map wr_multi wr_pair : wr.
Lemma wr_at {A} (c : codec A) w a : writes c w -> enc c a = w a. Proof. auto. Qed.
Ltac shape := unfold tagged, obj, w_name; cbn [map enc iso c_struct fenc field field_option field_default fcons fnil fst snd c_enum eenc variant variant0 c_tuple tenc tcons tnil].
Ltac wr := repeat first [reflexivity | solve [apply wr_at; eauto 8 with wr] | match goal with
  | |- JObj _ = JObj _ => f_equal
  | |- JArr _ = JArr _ => f_equal
  | |- JStr _ = JStr _ => f_equal
  | |- _ :: _ = _ :: _ => f_equal
  | |- (_, _) = (_, _) => f_equal
  | |- context [match ?x with _ => _ end] => lazymatch x with context [match _ with _ => _ end] => fail | _ => destruct x; shape end
  end].
Lemma wr_point : writes (c_point nm) (w_point nm). Proof. intros x. unfold c_point, w_point. shape; wr. Qed.
Hint Resolve wr_point : wr.
Lemma wr_lines : writes (c_lines nm) (w_lines nm). Proof. intros x. unfold c_lines, w_lines. shape; wr. Qed.
Hint Resolve wr_lines : wr.
Lemma wr_polygon : writes (c_polygon nm) (w_polygon nm). Proof. intros x. unfold c_polygon, w_polygon. shape; wr. Qed.
Hint Resolve wr_polygon : wr.
Lemma wr_xy : writes (c_xy nm) (w_xy nm). Proof. intros x. unfold c_xy, w_xy. shape; wr. Qed.
Hint Resolve wr_xy : wr.
Lemma wr_fix : writes (c_fix nm) (w_fix nm). Proof. intros x. unfold c_fix, w_fix. shape; wr. Qed.
Hint Resolve wr_fix : wr.
Lemma wr_nav : writes (c_nav nm) (w_nav nm). Proof. intros x. unfold c_nav, w_nav. shape; wr. Qed.
Hint Resolve wr_nav : wr.
Lemma wr_runway : writes (c_runway nm) (w_runway nm). Proof. intros x. unfold c_runway, w_runway. shape; wr. Qed.
Hint Resolve wr_runway : wr.
Lemma wr_airport : writes (c_airport nm) (w_airport nm). Proof. intros x. unfold c_airport, w_airport. shape; wr. Qed.
Hint Resolve wr_airport : wr.
Lemma wr_procedure : writes (c_procedure nm) (w_procedure nm). Proof. intros x. unfold c_procedure, w_procedure. shape; wr. Qed.
Hint Resolve wr_procedure : wr.
Lemma wr_edge : writes (c_edge nm) w_edge. Proof. intros x. unfold c_edge, w_edge, c_airway_type. shape; wr. Qed.
Hint Resolve wr_edge : wr.
Lemma wr_ids_map {A} (c : codec A) w l : writes c w -> enc (c_id_map nm c) l = JObj (map (fun '(k, a) => (fmt_int (Z.of_nat k), w a)) l).
Proof. intros H. cbn. f_equal. apply map_ext. intros [k a]. f_equal. apply H. Qed.
Lemma wr_gfix : writes (c_gfix nm) (w_gfix nm).
Proof. intros x. unfold c_gfix, w_gfix. shape. wr. apply (wr_ids_map _ (w_list w_edge)). eauto with wr. Qed.
Hint Resolve wr_gfix : wr.
Lemma wr_graph : writes (c_graph nm) (w_graph nm). Proof. intros x. unfold c_graph, w_graph. shape; wr. Qed.
Hint Resolve wr_graph : wr.
Lemma wr_locations : writes (c_locations nm) (w_locations nm). Proof. intros x. unfold c_locations, w_locations. shape; wr. Qed.
Hint Resolve wr_locations : wr.
Lemma wr_position : writes (c_position nm) (w_position nm). Proof. intros x. unfold c_position, w_position. shape; wr. Qed.
Hint Resolve wr_position : wr.
Lemma wr_volume : writes (c_volume nm) (w_volume nm). Proof. intros x. unfold c_volume, w_volume. shape; wr. Qed.
Hint Resolve wr_volume : wr.
Lemma wr_runway_pair : writes c_runway_pair (fun r => w_runway_of (fst r) (snd r)). Proof. intros []. reflexivity. Qed.
Lemma wr_runway_id : writes c_runway_id (fun r => w_runway_of (Maps.ri_icao r) (Maps.ri_des r)). Proof. intros []. reflexivity. Qed.
Hint Resolve wr_runway_pair wr_runway_id : wr.
Lemma wr_runways : writes (c_list c_runway_id) w_runways. Proof. unfold w_runways. apply wr_list, wr_runway_id. Qed.
Hint Resolve wr_runways : wr.
Lemma wr_sector : writes c_sector w_sector. Proof. intros x. unfold c_sector, w_sector. shape; wr. Qed.
Hint Resolve wr_sector : wr.
Lemma wr_timing : writes (c_timing nm) (w_timing nm). Proof. intros x. unfold c_timing, w_timing. shape; wr. Qed.
Hint Resolve wr_timing : wr.
Lemma wr_constraint : writes (c_constraint nm) (w_constraint nm). Proof. intros x. unfold c_constraint, w_constraint. shape; wr. Qed.
Hint Resolve wr_constraint : wr.
Lemma wr_alignment : writes c_alignment w_alignment. Proof. intros x. unfold c_alignment, w_alignment, c_horizontal, c_vertical. shape; wr. Qed.
Hint Resolve wr_alignment : wr.
Lemma wr_line_style : writes (c_line_style nm) w_style. Proof. intros x. unfold c_line_style, w_style. shape; wr. Qed.
Hint Resolve wr_line_style : wr.
Lemma wr_active_ids : writes c_active_ids w_ids. Proof. intros x. unfold c_active_ids, w_ids. shape; wr. Qed.
Hint Resolve wr_active_ids : wr.
Lemma wr_active : writes c_active w_active. Proof. intros x. unfold c_active, w_active, c_active_areas, c_active_runways, c_operator. shape; wr. Qed.
Hint Resolve wr_active : wr.
Lemma wr_label : writes (c_label nm) (w_label nm). Proof. intros x. unfold c_label, w_label. shape; wr. Qed.
Hint Resolve wr_label : wr.
Lemma wr_symbol : writes (c_symbol nm) (w_dsymbol nm). Proof. intros x. unfold c_symbol, w_dsymbol. shape; wr. Qed.
Hint Resolve wr_symbol : wr.
Lemma wr_group : writes (c_group nm) (w_group nm). Proof. intros x. unfold c_group, w_group. shape; wr. Qed.
Hint Resolve wr_group : wr.
Lemma wr_map_ : writes (c_map_ nm) (w_map_ nm). Proof. intros x. unfold c_map_, w_map_. shape; wr. Qed.
Hint Resolve wr_map_ : wr.
Lemma wr_folder : writes (c_folder nm) (w_folder nm). Proof. intros x. unfold c_folder, w_folder. shape; wr. Qed.
Hint Resolve wr_folder : wr.
Lemma wr_rule : writes (c_rule nm) (w_rule nm). Proof. intros x. unfold c_rule, w_rule, c_arc, c_elliptic. shape; wr. Qed.
Hint Resolve wr_rule : wr.
Lemma wr_rules : writes (c_list (c_rule nm)) (w_symbol nm). Proof. apply wr_list, wr_rule. Qed.
Hint Resolve wr_rules : wr.
Lemma wr_symbols : writes (c_symbols nm) (w_symbols nm). Proof. intros x. unfold c_symbols, w_symbols. shape; wr. Qed.
Hint Resolve wr_symbols : wr.
Lemma same_written (c : codec colour) ks l : map fst l = ks -> fenc (same_fields ks c) l = map (fun e => (s2t (fst e), enc c (snd e))) l.
Proof. revert l. induction ks as [|k ks IH]; intros [|[k' a] l] E; try discriminate; [reflexivity|]. injection E as -> E. cbn. f_equal. apply IH, E. Qed.
Lemma wr_group_of fields listed l : enc (c_colour_group fields listed) l = w_colours_of fields l.
Proof.
  unfold c_colour_group, w_colours_of, obj, pick. cbn [enc iso c_struct]. f_equal. rewrite same_written by (rewrite map_map; apply map_id).
  rewrite !map_map. apply map_ext. intros k. cbn [fst snd]. f_equal. destruct (get k l); reflexivity.
Qed.
Lemma wr_colours : writes c_colours w_colours.
Proof. intros x. unfold c_colours, w_colours. shape. wr; apply wr_group_of. Qed.
Hint Resolve wr_colours : wr.
Lemma wr_dash : writes (c_dash nm) (w_dash nm). Proof. intros x. unfold c_dash, w_dash. shape; wr. Qed.
Hint Resolve wr_dash : wr.
Lemma wr_settings : writes (c_settings nm) (w_settings nm). Proof. intros x. unfold c_settings, w_settings, c_maps_settings, c_line_settings, c_label_settings, c_track, c_dots, c_vector, c_ssr, c_coordination. shape; wr. Qed.
Hint Resolve wr_settings : wr.
Lemma wr_aircraft : writes (c_aircraft nm) w_aircraft. Proof. intros x. unfold c_aircraft, w_aircraft, c_wtc, c_aircraft_type, c_engine_type. shape; wr. Qed.
Hint Resolve wr_aircraft : wr.
Lemma wr_airline : writes c_airline w_airline. Proof. intros x. unfold c_airline, w_airline. shape; wr. Qed.
Hint Resolve wr_airline : wr.
Lemma wr_coloured : writes (c_coloured nm) (w_coloured nm). Proof. intros x. unfold c_coloured, w_coloured. shape; wr. Qed.
Hint Resolve wr_coloured : wr.
Lemma wr_region : writes (c_region nm) (w_region nm). Proof. intros x. unfold c_region, w_region. shape; wr. Qed.
Hint Resolve wr_region : wr.
Lemma wr_sct_label : writes (c_sct_label nm) (w_sct_label nm). Proof. intros x. unfold c_sct_label, w_sct_label, c_location. shape; wr. Qed.
Hint Resolve wr_sct_label : wr.
Lemma wr_sct_items : writes (c_sct_items nm) (w_sct_items nm). Proof. intros x. unfold c_sct_items, w_sct_items. shape; wr. Qed.
Hint Resolve wr_sct_items : wr.
Lemma wr_adaptation : writes (c_adaptation nm) (document nm).
Proof. intros x. unfold c_adaptation, document, members. shape. wr. Qed.
End Written.
