(** Property theorems: TopSky maps (C28-C31). *)
From Verif Require Import Base Num Float FloatParse Colours Settings Locations Maps SpecMaps MapsProofs MapsFiling.

(** C28 *)
Theorem C28_all_maps_filed : forall c ov maps, exists folders ms ns,
  from_topsky c ov maps = Some folders /\
  converted c maps ms /\ filing [] ms ns /\
  Permutation (all_maps folders) (named_maps ms ns) /\ NoDup (map fst (all_maps folders)) /\
  NoDup (keys folders) /\
  forall f fo, get f folders = Some fo ->
    fo_name fo = f /\ (fo_hidden fo = true <-> f = st_auto (sets_ c) \/ In (f, None) ov) /\ fo_maps fo <> [].
Proof. exact from_topsky_spec. Qed.
Print Assumptions C28_all_maps_filed.

Theorem C28_map_attributes : forall c col d, exists m, build c col d = Some m /\
  m_name m = md_name d /\ m_folder m = map_folder c d /\ m_hidden m = map_hidden d.
Proof.
  intros c col d. destruct (build_spec c col d) as [m [E [A [B [C _]]]]]. exists m. auto.
Qed.
Print Assumptions C28_map_attributes.

(** C29 *)
Theorem C29_style_in_effect : forall c col d, exists m, build c col d = Some m /\
  stored g_lines m = trace (draws_lines c col) [] (md_rules d) /\
  stored g_labels m = trace (draws_labels c col) [] (md_rules d) /\
  stored g_symbols m = trace (draws_symbols c col) [] (md_rules d).
Proof.
  intros c col d. destruct (build_spec c col d) as [m [E [_ [_ [_ [_ [L [B [S _]]]]]]]]]. exists m. auto.
Qed.
Print Assumptions C29_style_in_effect.

Theorem C29_polygons_exact : forall c col d, exists m, build c col d = Some m /\
  stored g_polygons m = polygon_trace c col [] (md_rules d).
Proof.
  intros c col d. destruct (build_spec c col d) as [m [E [_ [_ [_ [_ [_ [_ [_ P]]]]]]]]]. exists m. auto.
Qed.
Print Assumptions C29_polygons_exact.

(** A polygon of a map whose style never changes afterwards keeps its style, and so does one in a group
    that already has a line, label or symbol. *)
Theorem C29_polygon_keeps_style : forall c col a h b,
  forallb (fun r => negb (changes_style c r)) b = true \/ drawn_back c (rev a) = true ->
  exists m p1 p2, build c col (mkMapDef [] (a ++ RCoordPoly h :: b)) = Some m /\
    stored g_polygons m = p1 ++ [(in_effect c col a, ring (resolved_points c (coords_since a)))] ++ p2.
Proof.
  intros c col a h b H. destruct (C29_polygons_exact c col (mkMapDef [] (a ++ RCoordPoly h :: b))) as [m [E P]].
  cbn [md_rules] in P. destruct (polygon_trace_split c col a (RCoordPoly h) b) as [pa Q].
  exists m, pa. eexists. split; [exact E|]. rewrite P, Q. f_equal. cbn [draws_polygons map]. f_equal. f_equal. f_equal.
  unfold polygon_style. destruct (drawn_back c (rev a)) eqn:D; [reflexivity|]. destruct H as [H|H]; [|congruence].
  assert (G : forall rs pre, in_effect c col pre = in_effect c col a ->
    forallb (fun r => negb (changes_style c r)) rs = true -> settle c col pre rs = in_effect c col a).
  { clear. induction rs as [|r rs IH]; intros pre I F; cbn [settle]; [exact I|]. cbn in F. apply andb_true_iff in F. destruct F as [F1 F2].
    destruct (draws c r); [exact I|]. apply IH; [|exact F2]. rewrite in_effect_app, <- I. cbv zeta.
    destruct r; cbn in F1; try discriminate; try reflexivity. destruct (lookup c s); [discriminate | reflexivity]. }
  apply G; [reflexivity|]. cbn [forallb changes_style negb andb]. exact H.
Qed.
Print Assumptions C29_polygon_keeps_style.

Definition ex_ctx : ctx := mkCtx
  (fun s => if eqb s (s2t "red") then Some (mkColour 255 0 0 255) else if eqb s (s2t "blue") then Some (mkColour 0 0 255 255) else None)
  (fun l => match l with LCoord p => Some p | LFix _ => None end)
  (mkMapsSettings (f32_of_Z 12) (s2t "AUTO") (f32_of_Z 1) (f64_of_Z 3, f64_of_Z 3)).
Definition ex_p (x y : Z) : location := LCoord (f64_of_Z x, f64_of_Z y).

(** A polygon drawn in red is shown in blue when the colour changes right after it. *)
Theorem C29_polygon_style_refuted : exists c col d m pts, initial_colour c d col /\ build c col d = Some m /\
  exists a h b, md_rules d = a ++ RCoordPoly h :: b /\ pts = ring (resolved_points c (coords_since a)) /\
  map snd (stored g_polygons m) = [pts] /\ ~ In (in_effect c col a, pts) (stored g_polygons m).
Proof.
  exists ex_ctx, (mkColour 255 0 0 255),
    (mkMapDef (s2t "M") [RColour (s2t "red"); RCoord (ex_p 0 0); RCoord (ex_p 1 0); RCoord (ex_p 1 1); RCoordPoly (s2t "50"); RColour (s2t "blue"); RCoord (ex_p 3 3); RCoordLine]).
  eexists _, _. split.
  - exists [], (s2t "red"). eexists. split; [reflexivity|]. split; [reflexivity | intros s []].
  - split; [vm_compute; reflexivity|].
    exists [RColour (s2t "red"); RCoord (ex_p 0 0); RCoord (ex_p 1 0); RCoord (ex_p 1 1)], (s2t "50"). eexists.
    split; [reflexivity|]. split; [vm_compute; reflexivity|]. split; [vm_compute; reflexivity|].
    vm_compute. intros [E|[]]. discriminate.
Qed.
Print Assumptions C29_polygon_style_refuted.

(** C30 *)
Theorem C30_activation : forall c col d, exists m, build c col d = Some m /\ m_active m = alternatives (md_rules d).
Proof.
  intros c col d. destruct (build_spec c col d) as [m [E [_ [_ [_ [A _]]]]]]. exists m. auto.
Qed.
Print Assumptions C30_activation.

(** C31 *)
Theorem C31_coordline : forall c col n a b, exists m l1 l2,
  build c col (mkMapDef n (a ++ RCoordLine :: b)) = Some m /\
  stored g_lines m = l1 ++ [(in_effect c col a, resolved_points c (coords_since a))] ++ l2.
Proof.
  intros c col n a b. destruct (C29_style_in_effect c col (mkMapDef n (a ++ RCoordLine :: b))) as [m [E [L _]]].
  exists m. eexists _, _. split; [exact E|]. rewrite L. cbn [md_rules]. rewrite trace_split. reflexivity.
Qed.
Print Assumptions C31_coordline.

Theorem C31_coordpoly : forall c col n a h b, exists m p1 p2,
  build c col (mkMapDef n (a ++ RCoordPoly h :: b)) = Some m /\
  stored g_polygons m = p1 ++ [(polygon_style c col a (RCoordPoly h :: b), ring (resolved_points c (coords_since a)))] ++ p2.
Proof.
  intros c col n a h b. destruct (C29_polygons_exact c col (mkMapDef n (a ++ RCoordPoly h :: b))) as [m [E P]].
  destruct (polygon_trace_split c col a (RCoordPoly h) b) as [pa Q].
  exists m, pa. eexists. split; [exact E|]. rewrite P. cbn [md_rules]. rewrite Q. reflexivity.
Qed.
Print Assumptions C31_coordpoly.

(** The coordinates used are those of the COORD rules since the previous use, all of them and no others. *)
Theorem C31_each_coordinate_once : forall a x b, forallb (fun r => negb (uses_buffer r)) b = true ->
  coords_since b = filter_map coord_of b /\
  (uses_buffer x = true -> coords_since (a ++ x :: b) = filter_map coord_of b).
Proof.
  intros a x b H. split; [apply coords_since_none, H | intros U; apply coords_since_after; assumption].
Qed.
Print Assumptions C31_each_coordinate_once.

Definition ex_map (n : string) (rs : list rule) : map_def := mkMapDef (s2t n) (RColour (s2t "red") :: rs).
Definition ex_maps : list map_def :=
  [ex_map "A" [RFolder (s2t "F")]; ex_map "A_2" [RFolder (s2t "F")]; ex_map "A" [RFolder (s2t "F"); RHidden];
   ex_map "A" []; mkMapDef (s2t "none") []].
Example C28_nonvacuous : exists folders, from_topsky ex_ctx [(s2t "F", None)] ex_maps = Some folders /\
  map fst (all_maps folders) = [(s2t "F", s2t "A"); (s2t "F", s2t "A_2"); (s2t "F", s2t "A_3"); (s2t "AUTO", s2t "A")] /\
  map (fun e => fo_hidden (snd e)) folders = [true; true].
Proof. eexists. split; [vm_compute; reflexivity|]. split; vm_compute; reflexivity. Qed.

Example C29_nonvacuous :
  let d := ex_map "M" [RFontSize (FAdd (f32_of_Z 2)); RText (mkMapText (ex_p 1 1) (s2t "x") None); RColour (s2t "blue"); RColour (s2t "?");
     RCoord (ex_p 0 0); RCoord (LFix (s2t "UNKNOWN")); RCoord (ex_p 1 1); RCoordLine; RLayer (f32_of_Z 5); RCoordLine] in
  exists m, build ex_ctx (mkColour 255 0 0 255) d = Some m /\
    map (fun x => (s_colour (fst x), s_font (fst x), s_layer (fst x), List.length (snd x))) (stored g_lines m) =
      [(mkColour 0 0 255 255, f32_of_Z 14, f32_of_Z 1, 2); (mkColour 0 0 255 255, f32_of_Z 14, f32_of_Z 5, 0)] /\
    map (fun x => s_colour (fst x)) (stored g_labels m) = [mkColour 255 0 0 255] /\ List.length (m_groups m) = 3.
Proof.
  cbv zeta. eexists. split; [vm_compute; reflexivity|]. split; [vm_compute; reflexivity|]. split; vm_compute; reflexivity.
Qed.

Example C30_nonvacuous :
  let d := ex_map "M" [RAndActive ATrue; RActive (AAup []); RActive (ANotam (s2t "EDDM") []); RHidden; RAndActive ASchedule] in
  exists m, build ex_ctx (mkColour 255 0 0 255) d = Some m /\
    m_active m = [[AAup []]; [ANotam (s2t "EDDM") []; ASchedule]].
Proof. cbv zeta. eexists. split; vm_compute; reflexivity. Qed.

Example C31_nonvacuous : coords_since [RCoord (ex_p 0 0); RCoordLine; RCoord (ex_p 1 1); RHidden; RCoord (ex_p 2 2)] = [ex_p 1 1; ex_p 2 2].
Proof. vm_compute. reflexivity. Qed.
