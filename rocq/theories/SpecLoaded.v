(** Specification vocabulary for the positive part of C71: adaptations whose floats are all numbers.  Nothing is asked of their other values. *)
From Verif Require Import Base Float Settings Adaptation SpecJson.
From Verif Require Locations Airways Sectors Maps SctItems.

Definition each {K A} (P : A -> Prop) (m : list (K * A)) : Prop := forall k a, In (k, a) m -> P a.
Definition each_of {K A} (P : A -> Prop) : list (K * list A) -> Prop := each (Forall P).

Definition runway_floats (x : Locations.runway) : Prop := point_ok (fst (Locations.r_loc x)) /\ point_ok (snd (Locations.r_loc x)).
Definition airport_floats (x : Locations.airport) : Prop := point_ok (Locations.ap_pos x) /\ Forall runway_floats (Locations.ap_runways x).
Definition locations_floats (x : all_locations) : Prop :=
  let p := al_points x in
  each_of fix_ok (Locations.l_fixes p) /\ each_of nav_ok (Locations.l_vors p) /\ each_of nav_ok (Locations.l_ndbs p) /\
  each airport_floats (Locations.l_airports p) /\ Forall (fun f => point_ok (Airways.g_pos f)) (Airways.fixes (al_airways x)) /\
  each (each_of procedure_ok) (Locations.l_sids p) /\ each (each_of procedure_ok) (Locations.l_stars p).
Definition group_floats (x : Maps.group) : Prop :=
  is32 (Maps.g_font x) /\ is32 (Maps.g_layer x) /\ when is32 (Maps.g_zoom x) /\ lines_ok (Maps.g_lines x) /\ Forall label_ok (Maps.g_labels x) /\
  Forall symbol_ok (Maps.g_symbols x) /\ lines_ok (Maps.g_polygons x).
Definition rule_floats (x : symbol_rule) : Prop :=
  match x with
  | SMove p | SLine p | SPixel p => point_ok p
  | SArc p r _ _ | SFilledArc p r _ _ => point_ok p /\ is64 r
  | SEllipticArc p r q _ _ | SFilledEllipticArc p r q _ _ => point_ok p /\ is64 r /\ is64 q
  | SPolygon l => Forall point_ok l
  end.
Definition symbols_floats (x : symbols) : Prop :=
  Forall (Forall rule_floats) [sy_history x; sy_fix x; sy_ndb x; sy_vor x; sy_airport x; sy_primary x; sy_coasted x; sy_uncontrolled x; sy_controlled x] /\
  each_of rule_floats (sy_other x).
(** the other floats of the settings are constants *)
Definition settings_floats (x : settings) : Prop :=
  is32 (Maps.st_font (se_maps x)) /\
  (let l := se_labels x in Forall (fun e => is32 (snd e)) [la_vor l; la_ndb l; la_fix l; la_airport l; la_runway l]) /\ is32 (snd (se_vector x)).
Definition items_floats (x : SctItems.sct_items) : Prop :=
  let coloured := each_of (fun c => lines_ok (SctItems.cl_lines c)) in
  coloured (SctItems.si_sids x) /\ coloured (SctItems.si_stars x) /\ each_of lines_ok (SctItems.si_high_airways x) /\
  each_of lines_ok (SctItems.si_low_airways x) /\ coloured (SctItems.si_artccs_high x) /\ coloured (SctItems.si_artccs x) /\
  coloured (SctItems.si_artccs_low x) /\ coloured (SctItems.si_geo x) /\ each_of region_ok (SctItems.si_regions x) /\
  each_of sct_label_ok (SctItems.si_labels x).
Definition floats_ok (a : adaptation) : Prop :=
  locations_floats (ad_locations a) /\ each position_ok (ad_positions a) /\ each (fun v => Forall point_ok (Sectors.v_border v)) (ad_volumes a) /\
  each (fun f => each (fun m => Forall group_floats (Maps.m_groups m)) (Maps.fo_maps f)) (ad_maps a) /\ symbols_floats (ad_symbols a) /\
  each (when (Forall dash_ok)) (ad_line_styles a) /\ settings_floats (ad_settings a) /\ items_floats (ad_sct_items a).

(** The vectors of the airway graph have a length that fits a usize, as every vector has. *)
Definition fits (g : Airways.graph) : Prop :=
  (N.of_nat (List.length (Airways.fixes g)) < 2 ^ 64)%N /\ (N.of_nat (List.length (Airways.airway_name_by_id g)) < 2 ^ 64)%N.
