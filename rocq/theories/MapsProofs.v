(** Proofs about TopSky maps. *)
From Coq Require Import ZifyBool ZifyN ZifyNat.
From Verif Require Import Base Num NumProofs Float FloatParse Colours Settings Locations Maps SpecMaps.

(** * Traces *)
Lemma trace_app {A} (f : list rule -> rule -> list A) rules : forall pre r,
  trace f pre (rules ++ [r]) = trace f pre rules ++ f (pre ++ rules) r.
Proof.
  induction rules as [|x rules IH]; intros pre r; cbn [app trace].
  - rewrite !app_nil_r. reflexivity.
  - rewrite IH, <- !app_assoc. reflexivity.
Qed.

Lemma last_of_app {A} (sel : rule -> option A) pre r d :
  last_of sel (pre ++ [r]) d = match sel r with Some x => x | None => last_of sel pre d end.
Proof. unfold last_of. rewrite fold_left_app. reflexivity. Qed.

Lemma resolved_points_filter_map c l : filter_map (conv_loc c) l = resolved_points c l.
Proof. induction l as [|x l IH]; cbn; [reflexivity|]. rewrite IH. destruct (conv_loc c x); reflexivity. Qed.

Lemma coords_since_app pre r : coords_since (pre ++ [r]) =
  match r with RCoord l => coords_since pre ++ [l] | RCoordLine | RCoordPoly _ => [] | _ => coords_since pre end.
Proof. unfold coords_since. rewrite rev_app_distr. destruct r; reflexivity. Qed.
Lemma drawn_back_app c pre r : drawn_back c (rev (pre ++ [r])) =
  if changes_style c r then false else draws c r || drawn_back c (rev pre).
Proof. rewrite rev_app_distr. reflexivity. Qed.

Lemma close_ring_ring l : close_ring l = ring l.
Proof.
  destruct l as [|p l]; [reflexivity|]. unfold close_ring, ring.
  destruct l as [|x l _] using rev_ind.
  - cbn. reflexivity.
  - rewrite app_comm_cons, rev_app_distr, last_last. reflexivity.
Qed.

(** * Groups *)
Lemma rev_cons_last {A} (l : list A) (x : A) : rev (l ++ [x]) = x :: rev l.
Proof. rewrite rev_app_distr. reflexivity. Qed.
Lemma set_last_app {A} (l : list A) x y : set_last (l ++ [x]) y = l ++ [y].
Proof. unfold set_last. rewrite removelast_last. reflexivity. Qed.

Definition gstored {A} (elems : group -> list A) (gs : list group) : list (style * A) :=
  flat_map (fun g => map (fun x => (group_style g, x)) (elems g)) gs.
Lemma gstored_app {A} (e : group -> list A) a b : gstored e (a ++ b) = gstored e a ++ gstored e b.
Proof. apply flat_map_app. Qed.
Lemma gstored_one {A} (e : group -> list A) g : gstored e [g] = map (fun x => (group_style g, x)) (e g).
Proof. cbn. apply app_nil_r. Qed.

Definition unanchored (g : group) : bool := is_nil (g_lines g) && is_nil (g_symbols g) && is_nil (g_labels g).

Record Inv (c : ctx) (col : colour) (d : map_def) (pre : list rule) (m : map_) (buf : list location) : Prop := {
  i_buf : buf = coords_since pre;
  i_name : m_name m = md_name d;
  i_folder : m_folder m = last_of (fun r => match r with RFolder s => Some s | _ => None end) pre (st_auto (sets_ c));
  i_hidden : m_hidden m = existsb (fun r => match r with RHidden => true | _ => false end) pre;
  i_active : m_active m = alternatives pre;
  i_groups : exists gs g, m_groups m = gs ++ [g] /\ group_style g = in_effect c col pre /\
    unanchored g = negb (drawn_back c (rev pre)) /\
    gstored g_lines (gs ++ [g]) = trace (draws_lines c col) [] pre /\
    gstored g_labels (gs ++ [g]) = trace (draws_labels c col) [] pre /\
    gstored g_symbols (gs ++ [g]) = trace (draws_symbols c col) [] pre /\
    forall post, polygon_trace c col [] (pre ++ post) =
      gstored g_polygons gs ++
      map (fun x => (if drawn_back c (rev pre) then in_effect c col pre else settle c col pre post, x)) (g_polygons g) ++
      polygon_trace c col pre post }.

(** Activation lists *)
Lemma ands_app p r : ands (p ++ [r]) =
  match r with RAndActive a => if is_nil (alternatives p) then ands p ++ [a] else ands p | _ => ands p end.
Proof.
  induction p as [|x p IH]; [destruct r; reflexivity|].
  destruct x; cbn [app ands alternatives is_nil]; try exact IH; rewrite ?IH; destruct r; try reflexivity.
  destruct (is_nil (alternatives p)); reflexivity.
Qed.
Lemma alternatives_app p r : alternatives (p ++ [r]) =
  match r with
  | RActive a => alternatives p ++ [[a]]
  | RAndActive a => match rev (alternatives p) with l :: _ => set_last (alternatives p) (l ++ [a]) | [] => [] end
  | _ => alternatives p
  end.
Proof.
  induction p as [|x p IH]; [destruct r; reflexivity|].
  destruct x; cbn [app alternatives]; try exact IH. rewrite ands_app, IH. destruct r; try reflexivity.
  destruct (alternatives p) as [|y l] eqn:E using rev_ind; [reflexivity|]. clear IHl.
  replace (is_nil (l ++ [y])) with false by (destruct l; reflexivity).
  rewrite app_comm_cons, !rev_cons_last, !set_last_app. reflexivity.
Qed.

(** Style changes *)
Lemma in_effect_app c col pre r : in_effect c col (pre ++ [r]) =
  let s := in_effect c col pre in
  match r with
  | RColour n => match lookup c n with Some x => mkStyle x (s_font s) (s_layer s) (s_asr s) (s_zoom s) (s_line s) | None => s end
  | RFontSize f => mkStyle (s_colour s) (new_font (sets_ c) f (s_font s)) (s_layer s) (s_asr s) (s_zoom s) (s_line s)
  | RLayer x => mkStyle (s_colour s) (s_font s) x (s_asr s) (s_zoom s) (s_line s)
  | RAsrData o => mkStyle (s_colour s) (s_font s) (s_layer s) o (s_zoom s) (s_line s)
  | RZoom x => mkStyle (s_colour s) (s_font s) (s_layer s) (s_asr s) (Some x) (s_line s)
  | RLineStyle l => mkStyle (s_colour s) (s_font s) (s_layer s) (s_asr s) (s_zoom s) l
  | _ => s
  end.
Proof.
  unfold in_effect. rewrite !last_of_app, fold_left_app. cbn [fold_left].
  destruct r; try reflexivity; cbn [s_colour s_font s_layer s_asr s_zoom s_line].
  destruct (lookup c s); reflexivity.
Qed.

(** A style change keeps the invariant. *)
Lemma change_groups c col pre r m (f : group -> group) :
  (exists gs g, m_groups m = gs ++ [g] /\ group_style g = in_effect c col pre /\
    unanchored g = negb (drawn_back c (rev pre)) /\
    gstored g_lines (gs ++ [g]) = trace (draws_lines c col) [] pre /\
    gstored g_labels (gs ++ [g]) = trace (draws_labels c col) [] pre /\
    gstored g_symbols (gs ++ [g]) = trace (draws_symbols c col) [] pre /\
    forall post, polygon_trace c col [] (pre ++ post) =
      gstored g_polygons gs ++
      map (fun x => (if drawn_back c (rev pre) then in_effect c col pre else settle c col pre post, x)) (g_polygons g) ++
      polygon_trace c col pre post) ->
  changes_style c r = true ->
  (forall g, group_style g = in_effect c col pre -> group_style (f g) = in_effect c col (pre ++ [r])) ->
  (forall g, g_lines (f g) = g_lines g /\ g_labels (f g) = g_labels g /\ g_symbols (f g) = g_symbols g /\
     g_polygons (f g) = g_polygons g) ->
  exists gs g, m_groups (config_change (sets_ c) col m f) = gs ++ [g] /\ group_style g = in_effect c col (pre ++ [r]) /\
    unanchored g = negb (drawn_back c (rev (pre ++ [r]))) /\
    gstored g_lines (gs ++ [g]) = trace (draws_lines c col) [] (pre ++ [r]) /\
    gstored g_labels (gs ++ [g]) = trace (draws_labels c col) [] (pre ++ [r]) /\
    gstored g_symbols (gs ++ [g]) = trace (draws_symbols c col) [] (pre ++ [r]) /\
    forall post, polygon_trace c col [] ((pre ++ [r]) ++ post) =
      gstored g_polygons gs ++
      map (fun x => (if drawn_back c (rev (pre ++ [r])) then in_effect c col (pre ++ [r])
                     else settle c col (pre ++ [r]) post, x)) (g_polygons g) ++
      polygon_trace c col (pre ++ [r]) post.
Proof.
  intros [gs [g [EG [ST [UN [L [B [S P]]]]]]]] CH F K.
  assert (TR : trace (draws_lines c col) [] (pre ++ [r]) = trace (draws_lines c col) [] pre /\
               trace (draws_labels c col) [] (pre ++ [r]) = trace (draws_labels c col) [] pre /\
               trace (draws_symbols c col) [] (pre ++ [r]) = trace (draws_symbols c col) [] pre).
  { rewrite !trace_app. destruct r; cbn in CH; try discriminate; cbn; rewrite !app_nil_r; auto. }
  destruct TR as [T1 [T2 T3]]. rewrite T1, T2, T3, drawn_back_app, CH.
  assert (DR : draws c r = false) by (destruct r; cbn in CH; try discriminate; reflexivity).
  assert (PT : forall post, polygon_trace c col pre (r :: post) = polygon_trace c col (pre ++ [r]) post).
  { intros post. cbn [polygon_trace]. destruct r; cbn in CH; try discriminate; reflexivity. }
  unfold config_change. rewrite EG, rev_cons_last. fold (unanchored g). rewrite UN.
  destruct (drawn_back c (rev pre)) eqn:DB; cbn [negb].
  - (* a new group is opened *)
    set (g0 := mkGroup (g_colour g) (g_font g) (g_layer g) (g_asr g) (g_zoom g) [] [] [] [] (g_style g)).
    assert (S0 : group_style g0 = in_effect c col pre) by (rewrite <- ST; reflexivity).
    destruct (K g0) as [K1 [K2 [K3 K4]]].
    exists (gs ++ [g]), (f g0). cbn [m_groups set_groups]. split; [reflexivity|]. split; [apply F, S0|].
    split; [unfold unanchored; rewrite K1, K2, K3; reflexivity|].
    split; [rewrite (gstored_app _ (gs ++ [g])), gstored_one, K1, L; apply app_nil_r|].
    split; [rewrite (gstored_app _ (gs ++ [g])), gstored_one, K2, B; apply app_nil_r|].
    split; [rewrite (gstored_app _ (gs ++ [g])), gstored_one, K3, S; apply app_nil_r|].
    intros post. rewrite <- app_assoc. cbn [app]. rewrite P, K4, PT, gstored_app, gstored_one, ST, <- app_assoc.
    reflexivity.
  - (* the group is changed in place *)
    destruct (K g) as [K1 [K2 [K3 K4]]].
    assert (EL : forall A (e : group -> list A), e (f g) = e g -> e g = [] -> gstored e (gs ++ [f g]) = gstored e (gs ++ [g])).
    { intros A e E N. rewrite !gstored_app, !gstored_one, E, N. reflexivity. }
    assert (NIL : g_lines g = [] /\ g_labels g = [] /\ g_symbols g = []).
    { unfold unanchored in UN. destruct (g_lines g), (g_labels g), (g_symbols g); try discriminate UN; auto. }
    destruct NIL as [N1 [N2 N3]].
    exists gs, (f g). cbn [m_groups set_groups]. rewrite set_last_app. split; [reflexivity|]. split; [apply F, ST|].
    split; [unfold unanchored; rewrite K1, K2, K3, N1, N2, N3; reflexivity|].
    rewrite !EL by assumption. split; [exact L|]. split; [exact B|]. split; [exact S|].
    intros post. rewrite <- app_assoc. cbn [app]. rewrite P, K4, PT. cbn [settle]. rewrite DR. reflexivity.
Qed.

(** Drawing keeps the invariant. *)
Lemma draw_groups c col pre r m m' (f : group -> group) :
  (exists gs g, m_groups m = gs ++ [g] /\ group_style g = in_effect c col pre /\
    unanchored g = negb (drawn_back c (rev pre)) /\
    gstored g_lines (gs ++ [g]) = trace (draws_lines c col) [] pre /\
    gstored g_labels (gs ++ [g]) = trace (draws_labels c col) [] pre /\
    gstored g_symbols (gs ++ [g]) = trace (draws_symbols c col) [] pre /\
    forall post, polygon_trace c col [] (pre ++ post) =
      gstored g_polygons gs ++
      map (fun x => (if drawn_back c (rev pre) then in_effect c col pre else settle c col pre post, x)) (g_polygons g) ++
      polygon_trace c col pre post) ->
  changes_style c r = false ->
  in_effect c col (pre ++ [r]) = in_effect c col pre ->
  (forall g, group_style g = in_effect c col pre -> group_style (f g) = group_style g /\
     unanchored (f g) = unanchored g && negb (draws c r) /\
     map (fun x => (in_effect c col pre, x)) (g_lines (f g)) = map (fun x => (in_effect c col pre, x)) (g_lines g) ++ draws_lines c col pre r /\
     map (fun x => (in_effect c col pre, x)) (g_labels (f g)) = map (fun x => (in_effect c col pre, x)) (g_labels g) ++ draws_labels c col pre r /\
     map (fun x => (in_effect c col pre, x)) (g_symbols (f g)) = map (fun x => (in_effect c col pre, x)) (g_symbols g) ++ draws_symbols c col pre r /\
     g_polygons (f g) = g_polygons g ++ draws_polygons c pre r) ->
  (forall gs g, m_groups m = gs ++ [g] -> m_groups m' = gs ++ [f g]) ->
  exists gs g, m_groups m' = gs ++ [g] /\ group_style g = in_effect c col (pre ++ [r]) /\
    unanchored g = negb (drawn_back c (rev (pre ++ [r]))) /\
    gstored g_lines (gs ++ [g]) = trace (draws_lines c col) [] (pre ++ [r]) /\
    gstored g_labels (gs ++ [g]) = trace (draws_labels c col) [] (pre ++ [r]) /\
    gstored g_symbols (gs ++ [g]) = trace (draws_symbols c col) [] (pre ++ [r]) /\
    forall post, polygon_trace c col [] ((pre ++ [r]) ++ post) =
      gstored g_polygons gs ++
      map (fun x => (if drawn_back c (rev (pre ++ [r])) then in_effect c col (pre ++ [r])
                     else settle c col (pre ++ [r]) post, x)) (g_polygons g) ++
      polygon_trace c col (pre ++ [r]) post.
Proof.
  intros [gs [g [EG [ST [UN [L [B [S P]]]]]]]] CH IE F M.
  destruct (F g ST) as [F1 [F2 [F3 [F4 [F5 F6]]]]].
  exists gs, (f g). split; [apply M, EG|]. rewrite IE, drawn_back_app, CH, !trace_app. cbn [app].
  split; [congruence|].
  split; [rewrite F2, UN; destruct (draws c r), (drawn_back c (rev pre)); reflexivity|].
  split; [rewrite gstored_app, gstored_one, F1, ST, F3, app_assoc, <- L, gstored_app, gstored_one, ST; reflexivity|].
  split; [rewrite gstored_app, gstored_one, F1, ST, F4, app_assoc, <- B, gstored_app, gstored_one, ST; reflexivity|].
  split; [rewrite gstored_app, gstored_one, F1, ST, F5, app_assoc, <- S, gstored_app, gstored_one, ST; reflexivity|].
  intros post. rewrite <- app_assoc. cbn [app]. rewrite P, F6, map_app. cbn [polygon_trace settle].
  unfold polygon_style. cbn [settle]. rewrite <- !app_assoc.
  destruct (draws c r) eqn:DR; cbn [orb].
  - assert (NP : draws_polygons c pre r = []) by (destruct r; cbn in DR; try discriminate; reflexivity).
    rewrite NP. cbn [map app]. destruct (drawn_back c (rev pre)); reflexivity.
  - destruct (drawn_back c (rev pre)); reflexivity.
Qed.

Lemma on_last_app m gs g f : m_groups m = gs ++ [g] -> on_last m f = Some (set_groups m (gs ++ [f g])).
Proof. intros E. unfold on_last. rewrite E, rev_cons_last, set_last_app. reflexivity. Qed.

Ltac side := cbn [m_name m_folder m_hidden m_active m_groups set_groups set_active config_change].

Lemma config_change_fields s col m f :
  m_name (config_change s col m f) = m_name m /\ m_folder (config_change s col m f) = m_folder m /\
  m_hidden (config_change s col m f) = m_hidden m /\ m_active (config_change s col m f) = m_active m.
Proof. unfold config_change. destruct (rev (m_groups m)); [|destruct (_ && _)]; cbn; auto. Qed.

(** Rules that leave the groups alone *)
Lemma neutral_groups c col pre r m m' :
  m_groups m' = m_groups m ->
  match r with RFolder _ | RHidden | RActive _ | RAndActive _ | RCoord _ | RGlobal | RScreenSpecific => True
             | RColour s => lookup c s = None | _ => False end ->
  (exists gs g, m_groups m = gs ++ [g] /\ group_style g = in_effect c col pre /\
    unanchored g = negb (drawn_back c (rev pre)) /\
    gstored g_lines (gs ++ [g]) = trace (draws_lines c col) [] pre /\
    gstored g_labels (gs ++ [g]) = trace (draws_labels c col) [] pre /\
    gstored g_symbols (gs ++ [g]) = trace (draws_symbols c col) [] pre /\
    forall post, polygon_trace c col [] (pre ++ post) =
      gstored g_polygons gs ++
      map (fun x => (if drawn_back c (rev pre) then in_effect c col pre else settle c col pre post, x)) (g_polygons g) ++
      polygon_trace c col pre post) ->
  exists gs g, m_groups m' = gs ++ [g] /\ group_style g = in_effect c col (pre ++ [r]) /\
    unanchored g = negb (drawn_back c (rev (pre ++ [r]))) /\
    gstored g_lines (gs ++ [g]) = trace (draws_lines c col) [] (pre ++ [r]) /\
    gstored g_labels (gs ++ [g]) = trace (draws_labels c col) [] (pre ++ [r]) /\
    gstored g_symbols (gs ++ [g]) = trace (draws_symbols c col) [] (pre ++ [r]) /\
    forall post, polygon_trace c col [] ((pre ++ [r]) ++ post) =
      gstored g_polygons gs ++
      map (fun x => (if drawn_back c (rev (pre ++ [r])) then in_effect c col (pre ++ [r])
                     else settle c col (pre ++ [r]) post, x)) (g_polygons g) ++
      polygon_trace c col (pre ++ [r]) post.
Proof.
  intros EM N I. apply (draw_groups c col pre r m m' (fun g => g) I).
  - destruct r; cbn in N |- *; try tauto. rewrite N. reflexivity.
  - rewrite in_effect_app. destruct r; cbn in N |- *; try tauto. rewrite N. reflexivity.
  - intros g ST. assert (D : draws c r = false) by (destruct r; cbn in N |- *; tauto).
    rewrite D. destruct r; cbn in N |- *; try tauto; rewrite ?andb_true_r, ?app_nil_r; auto 10.
  - intros gs g E. congruence.
Qed.

Lemma existsb_app1 {A} (f : A -> bool) l x : existsb f (l ++ [x]) = existsb f l || f x.
Proof. rewrite existsb_app. cbn. rewrite orb_false_r. reflexivity. Qed.

Lemma step_inv c col d pre m buf r : Inv c col d pre m buf ->
  exists m' buf', step c col (Some (m, buf)) r = Some (m', buf') /\ Inv c col d (pre ++ [r]) m' buf'.
Proof.
  intros [IB IN IF IH IA IG].
  assert (CHG : forall f, changes_style c r = true ->
    (forall g, group_style g = in_effect c col pre -> group_style (f g) = in_effect c col (pre ++ [r])) ->
    (forall g, g_lines (f g) = g_lines g /\ g_labels (f g) = g_labels g /\ g_symbols (f g) = g_symbols g /\
       g_polygons (f g) = g_polygons g) -> Inv c col d (pre ++ [r]) (config_change (sets_ c) col m f) buf).
  { intros f CS A B. destruct (config_change_fields (sets_ c) col m f) as [C1 [C2 [C3 C4]]]. constructor.
    - rewrite IB, coords_since_app. destruct r; cbn in CS; try discriminate; reflexivity.
    - congruence.
    - rewrite C2, IF, last_of_app. destruct r; cbn in CS; try discriminate; reflexivity.
    - rewrite C3, IH, existsb_app1. destruct r; cbn in CS; try discriminate; rewrite orb_false_r; reflexivity.
    - rewrite C4, IA, alternatives_app. destruct r; cbn in CS; try discriminate; reflexivity.
    - apply change_groups; auto. }
  assert (NEU : forall m' buf', m_groups m' = m_groups m -> m_name m' = m_name m ->
    match r with RFolder _ | RHidden | RActive _ | RAndActive _ | RCoord _ | RGlobal | RScreenSpecific => True
             | RColour s => lookup c s = None | _ => False end ->
    buf' = coords_since (pre ++ [r]) ->
    m_folder m' = last_of (fun r => match r with RFolder s => Some s | _ => None end) (pre ++ [r]) (st_auto (sets_ c)) ->
    m_hidden m' = existsb (fun r => match r with RHidden => true | _ => false end) (pre ++ [r]) ->
    m_active m' = alternatives (pre ++ [r]) -> Inv c col d (pre ++ [r]) m' buf').
  { intros m' buf' E1 E2 N E3 E4 E5 E6. constructor; auto; [congruence|]. eapply neutral_groups; eauto. }
  assert (DRW : forall f buf', changes_style c r = false -> in_effect c col (pre ++ [r]) = in_effect c col pre ->
    (forall g, group_style g = in_effect c col pre -> group_style (f g) = group_style g /\
     unanchored (f g) = unanchored g && negb (draws c r) /\
     map (fun x => (in_effect c col pre, x)) (g_lines (f g)) = map (fun x => (in_effect c col pre, x)) (g_lines g) ++ draws_lines c col pre r /\
     map (fun x => (in_effect c col pre, x)) (g_labels (f g)) = map (fun x => (in_effect c col pre, x)) (g_labels g) ++ draws_labels c col pre r /\
     map (fun x => (in_effect c col pre, x)) (g_symbols (f g)) = map (fun x => (in_effect c col pre, x)) (g_symbols g) ++ draws_symbols c col pre r /\
     g_polygons (f g) = g_polygons g ++ draws_polygons c pre r) ->
    match r with RSymbol _ | RLine _ | RText _ | RCoordPoly _ | RCoordLine => True | _ => False end ->
    buf' = coords_since (pre ++ [r]) ->
    exists m', on_last m f = Some m' /\ Inv c col d (pre ++ [r]) m' buf').
  { intros f buf' CS IE F K EB. destruct IG as [gs [g G]]. destruct G as [EG G].
    exists (set_groups m (gs ++ [f g])). split; [apply on_last_app, EG|]. constructor; cbn [set_groups m_name m_folder m_hidden m_active].
    - exact EB.
    - exact IN.
    - rewrite IF, last_of_app. destruct r; cbn in K; tauto || reflexivity.
    - rewrite IH, existsb_app1. destruct r; cbn in K; try tauto; rewrite orb_false_r; reflexivity.
    - rewrite IA, alternatives_app. destruct r; cbn in K; tauto || reflexivity.
    - apply (draw_groups c col pre r m _ f); auto.
      + exists gs, g. split; [exact EG | exact G].
      + intros gs' g' E'. rewrite EG in E'. apply app_inj_tail in E'. destruct E' as [<- <-]. reflexivity. }
  pose proof (in_effect_app c col pre r) as IE. cbv zeta in IE.
  destruct r; cbn [step].
  - eexists _, _. split; [reflexivity|]. apply NEU; try reflexivity; cbn.
    + rewrite IB, coords_since_app. reflexivity.
    + rewrite last_of_app. reflexivity.
    + rewrite IH, existsb_app1, orb_false_r. reflexivity.
    + rewrite IA, alternatives_app. reflexivity.
  - destruct (lookup c s) as [x|] eqn:LK.
    + eexists _, _. split; [reflexivity|]. apply CHG; [cbn; rewrite LK; reflexivity| |cbn; auto].
      intros g ST. rewrite IE, <- ST. reflexivity.
    + eexists _, _. split; [reflexivity|]. apply NEU; try reflexivity.
      * rewrite IB, coords_since_app. reflexivity.
      * rewrite IF, last_of_app. reflexivity.
      * rewrite IH, existsb_app1, orb_false_r. reflexivity.
      * rewrite IA, alternatives_app. reflexivity.
  - eexists _, _. split; [reflexivity|]. apply CHG; [reflexivity| |cbn; auto]. intros g ST. rewrite IE, <- ST. reflexivity.
  - eexists _, _. split; [reflexivity|]. apply NEU; try reflexivity; cbn.
    + rewrite IB, coords_since_app. reflexivity.
    + rewrite IF, last_of_app. reflexivity.
    + rewrite IH, existsb_app1, orb_false_r. reflexivity.
    + rewrite IA, alternatives_app. reflexivity.
  - assert (GO : exists a', m_active (match rev (m_active m) with
        | l :: _ => set_active m (set_last (m_active m) (l ++ [a])) | [] => m end) = a' /\ a' = alternatives (pre ++ [RAndActive a])).
    { eexists. split; [reflexivity|]. rewrite alternatives_app, <- IA. destruct (rev (m_active m)) eqn:R; [|reflexivity].
      apply (f_equal (@rev _)) in R. rewrite rev_involutive in R. exact R. }
    destruct GO as [a' [GO1 GO2]].
    destruct (rev (m_active m)) as [|l tl] eqn:R; (eexists _, _; split; [reflexivity|]); apply NEU; try reflexivity; cbn.
    + rewrite IB, coords_since_app. reflexivity.
    + rewrite IF, last_of_app. reflexivity.
    + rewrite IH, existsb_app1, orb_false_r. reflexivity.
    + congruence.
    + rewrite IB, coords_since_app. reflexivity.
    + rewrite IF, last_of_app. reflexivity.
    + rewrite IH, existsb_app1, orb_false_r. reflexivity.
    + cbn in GO1. congruence.
  - eexists _, _. split; [reflexivity|]. apply NEU; try reflexivity.
    + rewrite IB, coords_since_app. reflexivity.
    + rewrite IF, last_of_app. reflexivity.
    + rewrite IH, existsb_app1, orb_false_r. reflexivity.
    + rewrite IA, alternatives_app. reflexivity.
  - eexists _, _. split; [reflexivity|]. apply NEU; try reflexivity.
    + rewrite IB, coords_since_app. reflexivity.
    + rewrite IF, last_of_app. reflexivity.
    + rewrite IH, existsb_app1, orb_false_r. reflexivity.
    + rewrite IA, alternatives_app. reflexivity.
  - eexists _, _. split; [reflexivity|]. apply NEU; try reflexivity; cbn.
    + rewrite IB, coords_since_app. reflexivity.
    + rewrite IF, last_of_app. reflexivity.
    + rewrite existsb_app1, orb_true_r. reflexivity.
    + rewrite IA, alternatives_app. reflexivity.
  - eexists _, _. split; [reflexivity|]. apply CHG; [reflexivity| |cbn; auto]. intros g ST. rewrite IE, <- ST. reflexivity.
  - destruct (DRW (add_topsky_symbol c s) buf) as [m' [E I]]; try reflexivity.
    + rewrite IE. reflexivity.
    + intros g ST. unfold add_topsky_symbol. cbn [draws draws_lines draws_labels draws_symbols draws_polygons].
      destruct (conv_loc c (ms_loc s)) as [p|].
      * cbn. split; [reflexivity|]. split; [unfold unanchored; cbn; destruct (g_lines g), (g_labels g), (g_symbols g); reflexivity|].
        rewrite !app_nil_r. split; [reflexivity|]. split; [reflexivity|]. split; [|reflexivity].
        rewrite map_app. destruct (ms_label s) as [[? ?]|]; reflexivity.
      * rewrite ?andb_true_r, ?app_nil_r. cbn. rewrite ?andb_true_r. auto 10.
    + rewrite IB, coords_since_app. reflexivity.
    + rewrite E. eauto.
  - eexists _, _. split; [reflexivity|]. apply CHG; [reflexivity| |cbn; auto]. intros g ST. rewrite IE, <- ST. reflexivity.
  - eexists _, _. split; [reflexivity|]. apply CHG; [reflexivity| |cbn; auto]. intros g ST. rewrite IE, <- ST. reflexivity.
  - eexists _, _. split; [reflexivity|]. apply CHG; [reflexivity| |cbn; auto]. intros g ST. rewrite IE, <- ST. reflexivity.
  - destruct (DRW (add_topsky_lines c l) buf) as [m' [E I]]; try reflexivity.
    + rewrite IE. reflexivity.
    + intros g ST. cbn. split; [reflexivity|]. rewrite !app_nil_r.
      split; [unfold unanchored; cbn; destruct (g_lines g), (g_labels g), (g_symbols g), l; reflexivity|].
      split; [|auto]. rewrite map_app, map_map. f_equal. apply map_ext. intros pts. rewrite resolved_points_filter_map. reflexivity.
    + rewrite IB, coords_since_app. reflexivity.
    + rewrite E. eauto.
  - destruct (DRW (add_topsky_text c t) buf) as [m' [E I]]; try reflexivity.
    + rewrite IE. reflexivity.
    + intros g ST. unfold add_topsky_text. cbn [draws draws_lines draws_labels draws_symbols draws_polygons].
      destruct (conv_loc c (mt_loc t)) as [p|].
      * cbn. split; [reflexivity|]. split; [unfold unanchored; cbn; destruct (g_lines g), (g_labels g), (g_symbols g); reflexivity|].
        rewrite !app_nil_r. split; [reflexivity|]. split; [|auto]. rewrite map_app. reflexivity.
      * rewrite ?andb_true_r, ?app_nil_r. cbn. rewrite ?andb_true_r. auto 10.
    + rewrite IB, coords_since_app. reflexivity.
    + rewrite E. eauto.
  - destruct (DRW (add_topsky_polygon c buf) []) as [m' [E I]]; try reflexivity.
    + rewrite IE. reflexivity.
    + intros g ST. cbn. rewrite !app_nil_r, ?andb_true_r. split; [reflexivity|]. split; [reflexivity|].
      split; [reflexivity|]. split; [reflexivity|]. split; [reflexivity|].
      rewrite resolved_points_filter_map, IB, close_ring_ring. reflexivity.
    + rewrite coords_since_app. reflexivity.
    + rewrite E. eauto.
  - destruct (DRW (add_topsky_lines c [buf]) []) as [m' [E I]]; try reflexivity.
    + rewrite IE. reflexivity.
    + intros g ST. cbn. split; [reflexivity|]. rewrite !app_nil_r.
      split; [unfold unanchored; cbn; destruct (g_lines g), (g_labels g), (g_symbols g); reflexivity|].
      split; [|auto]. rewrite map_app. cbn. rewrite resolved_points_filter_map, IB. reflexivity.
    + rewrite coords_since_app. reflexivity.
    + rewrite E. eauto.
  - eexists _, _. split; [reflexivity|]. apply NEU; try reflexivity.
    + rewrite IB, coords_since_app. reflexivity.
    + rewrite IF, last_of_app. reflexivity.
    + rewrite IH, existsb_app1, orb_false_r. reflexivity.
    + rewrite IA, alternatives_app. reflexivity.
Qed.

Lemma build_inv c col d : exists m buf, build c col d = Some m /\ Inv c col d (md_rules d) m buf.
Proof.
  assert (H : forall rules pre m buf, Inv c col d pre m buf ->
    exists m' buf', fold_left (step c col) rules (Some (m, buf)) = Some (m', buf') /\ Inv c col d (pre ++ rules) m' buf').
  { induction rules as [|r rules IH]; intros pre m buf I; cbn [fold_left].
    - exists m, buf. rewrite app_nil_r. auto.
    - destruct (step_inv c col d pre m buf r I) as [m1 [b1 [-> I1]]].
      destruct (IH _ _ _ I1) as [m2 [b2 [E I2]]]. exists m2, b2. rewrite <- app_assoc in I2. auto. }
  destruct (H (md_rules d) [] (mkMap (md_name d) (st_auto (sets_ c)) [default_group (sets_ c) col] false []) []) as [m [buf [E I]]].
  - constructor; try reflexivity. exists [], (default_group (sets_ c) col).
    split; [reflexivity|]. split; [reflexivity|]. split; [reflexivity|]. split; [reflexivity|]. split; [reflexivity|].
    split; [reflexivity|]. intros post. reflexivity.
  - exists m, buf. unfold build. rewrite E. auto.
Qed.

Lemma build_spec c col d : exists m, build c col d = Some m /\
  m_name m = md_name d /\ m_folder m = map_folder c d /\ m_hidden m = map_hidden d /\
  m_active m = alternatives (md_rules d) /\
  stored g_lines m = trace (draws_lines c col) [] (md_rules d) /\
  stored g_labels m = trace (draws_labels c col) [] (md_rules d) /\
  stored g_symbols m = trace (draws_symbols c col) [] (md_rules d) /\
  stored g_polygons m = polygon_trace c col [] (md_rules d).
Proof.
  destruct (build_inv c col d) as [m [buf [E [IB IN IF IH IA [gs [g [EG [ST [UN [L [B [S P]]]]]]]]]]]].
  exists m. split; [exact E|]. split; [exact IN|]. split; [exact IF|]. split; [exact IH|]. split; [exact IA|].
  unfold stored. rewrite EG. split; [exact L|]. split; [exact B|]. split; [exact S|].
  specialize (P []). rewrite app_nil_r in P. cbn [polygon_trace settle] in P. rewrite app_nil_r in P.
  rewrite P. fold (gstored g_polygons (gs ++ [g])). rewrite gstored_app, gstored_one, ST.
  destruct (drawn_back c (rev (md_rules d))); reflexivity.
Qed.

(** * COORD buffers *)
Definition coord_of (r : rule) : option location := match r with RCoord l => Some l | _ => None end.
Definition uses_buffer (r : rule) : bool := match r with RCoordLine | RCoordPoly _ => true | _ => false end.
Lemma coords_since_none b : forallb (fun r => negb (uses_buffer r)) b = true -> coords_since b = filter_map coord_of b.
Proof.
  induction b as [|r b IH] using rev_ind; intros H; [reflexivity|].
  rewrite forallb_app in H. apply andb_true_iff in H. destruct H as [H1 H2]. rewrite coords_since_app, IH by exact H1.
  assert (FM : forall l, filter_map coord_of (l ++ [r]) = filter_map coord_of l ++ match coord_of r with Some x => [x] | None => [] end).
  { induction l as [|y l IHl]; cbn [app filter_map]; [destruct (coord_of r); reflexivity|]. rewrite IHl. destruct (coord_of y); reflexivity. }
  rewrite FM. destruct r; cbn in H2 |- *; try discriminate; rewrite ?app_nil_r; reflexivity.
Qed.
Lemma coords_since_after a x b : uses_buffer x = true -> forallb (fun r => negb (uses_buffer r)) b = true ->
  coords_since (a ++ x :: b) = filter_map coord_of b.
Proof.
  intros U. induction b as [|r b IH] using rev_ind; intros H.
  - rewrite coords_since_app. destruct x; cbn in U; try discriminate; reflexivity.
  - pose proof (coords_since_none _ H) as E. rewrite <- E. rewrite app_comm_cons, app_assoc, !coords_since_app.
    rewrite forallb_app in H. apply andb_true_iff in H. destruct H as [H1 H2]. rewrite IH by exact H1.
    rewrite <- (coords_since_none b H1). reflexivity.
Qed.

Lemma trace_split {A} (f : list rule -> rule -> list A) a r b :
  trace f [] (a ++ r :: b) = trace f [] a ++ f a r ++ trace f (a ++ [r]) b.
Proof.
  assert (G : forall pre, trace f pre (a ++ r :: b) = trace f pre a ++ f (pre ++ a) r ++ trace f (pre ++ a ++ [r]) b).
  { induction a as [|x a IH]; intros pre; cbn [app trace].
    - rewrite app_nil_r. reflexivity.
    - rewrite IH, <- !app_assoc. reflexivity. }
  apply (G []).
Qed.
Lemma polygon_trace_split c col a r b :
  exists pa, polygon_trace c col [] (a ++ r :: b) =
  pa ++ map (fun x => (polygon_style c col a (r :: b), x)) (draws_polygons c a r) ++ polygon_trace c col (a ++ [r]) b.
Proof.
  assert (G : forall pre, exists pa, polygon_trace c col pre (a ++ r :: b) =
    pa ++ map (fun x => (polygon_style c col (pre ++ a) (r :: b), x)) (draws_polygons c (pre ++ a) r) ++
    polygon_trace c col (pre ++ a ++ [r]) b).
  { induction a as [|x a IH]; intros pre; cbn [app polygon_trace].
    - exists []. rewrite app_nil_r. reflexivity.
    - destruct (IH (pre ++ [x])) as [pa E]. exists (map (fun y => (polygon_style c col pre (x :: a ++ r :: b), y)) (draws_polygons c pre x) ++ pa).
      rewrite E, <- !app_assoc. reflexivity. }
  apply (G []).
Qed.
