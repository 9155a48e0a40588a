(** Specification vocabulary for TopSky maps (C28-C31). *)
From Verif Require Import Base Num Float Colours Settings Locations Maps.

(** ** What is in effect after the rules [pre] (C29) *)

(** The last rule of [pre] that selects a value *)
Definition last_of {A} (sel : rule -> option A) (pre : list rule) (d : A) : A :=
  fold_left (fun acc r => match sel r with Some x => x | None => acc end) pre d.

Record style := mkStyle {
  s_colour : colour; s_font : f32; s_layer : f32; s_asr : option (list text); s_zoom : option f32; s_line : line_style }.

Definition in_effect (c : ctx) (col : colour) (pre : list rule) : style :=
  mkStyle
    (last_of (fun r => match r with RColour s => lookup c s | _ => None end) pre col)
    (fold_left (fun cur r => match r with
       | RFontSize (FExact x) => x
       | RFontSize (FAdd x) => SFadd 24 128 cur x
       | RFontSize (FSub x) => SFsub 24 128 cur x
       | RFontSize (FMul x) => SFmul 24 128 cur x
       | RFontSize FDefault => st_font (sets_ c)
       | _ => cur end) pre (st_font (sets_ c)))
    (last_of (fun r => match r with RLayer x => Some x | _ => None end) pre (st_layer (sets_ c)))
    (last_of (fun r => match r with RAsrData o => Some o | _ => None end) pre None)
    (last_of (fun r => match r with RZoom x => Some (Some x) | _ => None end) pre None)
    (last_of (fun r => match r with RLineStyle l => Some l | _ => None end) pre (mkLineStyle 1 (s2t "SOLID"))).

(** The resolvable ones of some locations, in order *)
Fixpoint resolved_points (c : ctx) (l : list location) : list point :=
  match l with
  | [] => []
  | x :: l => match conv_loc c x with Some p => p :: resolved_points c l | None => resolved_points c l end
  end.

(** The COORD rules since the last COORDLINE or COORDPOLY (C31) *)
Fixpoint coords_until (back : list rule) : list location :=
  match back with
  | RCoord l :: back => coords_until back ++ [l]
  | RCoordLine :: _ | RCoordPoly _ :: _ => []
  | _ :: back => coords_until back
  | [] => []
  end.
Definition coords_since (pre : list rule) : list location := coords_until (rev pre).

(** What every rule contributes, given the rules before it *)
Fixpoint trace {A} (f : list rule -> rule -> list A) (pre rules : list rule) : list A :=
  match rules with [] => [] | r :: rules => f pre r ++ trace f (pre ++ [r]) rules end.

Definition draws_lines (c : ctx) (col : colour) (pre : list rule) (r : rule) : list (style * list point) :=
  match r with
  | RLine l => map (fun pts => (in_effect c col pre, resolved_points c pts)) l
  | RCoordLine => [(in_effect c col pre, resolved_points c (coords_since pre))]
  | _ => []
  end.
Definition draws_labels (c : ctx) (col : colour) (pre : list rule) (r : rule) : list (style * label) :=
  match r with
  | RText t => match conv_loc c (mt_loc t) with
               | Some p => [(in_effect c col pre,
                             mkLabel p (match mt_align t with Some a => a | None => (HCenter, VCenter) end) (mt_content t))]
               | None => []
               end
  | _ => []
  end.
Definition draws_symbols (c : ctx) (col : colour) (pre : list rule) (r : rule) : list (style * dsymbol) :=
  match r with
  | RSymbol s => match conv_loc c (ms_loc s) with
                 | Some p => [(in_effect c col pre,
                     mkDSymbol (ms_name s) p (option_map fst (ms_label s))
                       (match ms_align s with Some a => a | None => (HCenter, VCenter) end)
                       (match ms_label s with Some (_, o) => o | None => st_offset (sets_ c) end))]
                 | None => []
                 end
  | _ => []
  end.
(** A closed ring: the first point is repeated at the end unless the last point already equals it. *)
Definition ring (l : list point) : list point :=
  match l with
  | [] => []
  | p :: _ => if SFeqb (fst p) (fst (last l p)) && SFeqb (snd p) (snd (last l p)) then l else l ++ [p]
  end.
Definition draws_polygons (c : ctx) (pre : list rule) (r : rule) : list (list point) :=
  match r with
  | RCoordPoly _ => [ring (resolved_points c (coords_since pre))]
  | _ => []
  end.

(** The elements of a map's groups with the style of their group *)
Definition group_style (g : group) : style :=
  mkStyle (g_colour g) (g_font g) (g_layer g) (g_asr g) (g_zoom g) (g_style g).
Definition stored {A} (elems : group -> list A) (m : map_) : list (style * A) :=
  flat_map (fun g => map (fun x => (group_style g, x)) (elems g)) (m_groups m).

(** A rule that changes the style / draws something other than a polygon *)
Definition changes_style (c : ctx) (r : rule) : bool :=
  match r with
  | RColour s => match lookup c s with Some _ => true | None => false end
  | RAsrData _ | RLayer _ | RZoom _ | RFontSize _ | RLineStyle _ => true
  | _ => false
  end.
Definition draws (c : ctx) (r : rule) : bool :=
  match r with
  | RLine [] => false
  | RLine _ | RCoordLine => true
  | RText t => match conv_loc c (mt_loc t) with Some _ => true | None => false end
  | RSymbol s => match conv_loc c (ms_loc s) with Some _ => true | None => false end
  | _ => false
  end.
(** Something was drawn since the last style change. *)
Fixpoint drawn_back (c : ctx) (back : list rule) : bool :=
  match back with
  | [] => false
  | r :: back => if changes_style c r then false else draws c r || drawn_back c back
  end.
(** The style in effect when something is next drawn, or at the end *)
Fixpoint settle (c : ctx) (col : colour) (pre post : list rule) : style :=
  match post with
  | [] => in_effect c col pre
  | r :: post' => if draws c r then in_effect c col pre else settle c col (pre ++ [r]) post'
  end.
(** The style a polygon drawn between [pre] and [post] ends up with *)
Definition polygon_style (c : ctx) (col : colour) (pre post : list rule) : style :=
  if drawn_back c (rev pre) then in_effect c col pre else settle c col pre post.

(** The polygons of [rules] (after [pre]) with the style they end up with *)
Fixpoint polygon_trace (c : ctx) (col : colour) (pre rules : list rule) : list (style * list point) :=
  match rules with
  | [] => []
  | r :: rest => map (fun x => (polygon_style c col pre rules, x)) (draws_polygons c pre r) ++
                 polygon_trace c col (pre ++ [r]) rest
  end.

(** ** Activation (C30): one alternative per ACTIVE rule with the AND_ACTIVE rules that follow *)
Fixpoint ands (rules : list rule) : list active :=
  match rules with
  | RAndActive a :: rules => a :: ands rules
  | RActive _ :: _ => []
  | _ :: rules => ands rules
  | [] => []
  end.
Fixpoint alternatives (rules : list rule) : list (list active) :=
  match rules with
  | RActive a :: rules => (a :: ands rules) :: alternatives rules
  | _ :: rules => alternatives rules
  | [] => []
  end.

(** ** Folders (C28) *)

(** The last FOLDER rule, else the automatic folder *)
Definition map_folder (c : ctx) (d : map_def) : text :=
  last_of (fun r => match r with RFolder s => Some s | _ => None end) (md_rules d) (st_auto (sets_ c)).
Definition map_hidden (d : map_def) : bool :=
  existsb (fun r => match r with RHidden => true | _ => false end) (md_rules d).
(** A map definition that names some resolvable colour *)
Definition coloured (c : ctx) (d : map_def) : Prop :=
  exists s x, In (RColour s) (md_rules d) /\ lookup c s = Some x.

(** The map's first resolvable colour *)
Definition initial_colour (c : ctx) (d : map_def) (col : colour) : Prop :=
  exists pre s post, md_rules d = pre ++ RColour s :: post /\ lookup c s = Some col /\
    forall s', In (RColour s') pre -> lookup c s' = None.

(** The maps with a resolvable colour, converted one by one *)
Inductive converted (c : ctx) : list map_def -> list map_ -> Prop :=
| conv_nil : converted c [] []
| conv_skip d ds ms : (forall col, ~ initial_colour c d col) -> converted c ds ms -> converted c (d :: ds) ms
| conv_take d ds m ms col : initial_colour c d col -> build c col d = Some m -> converted c ds ms ->
    converted c (d :: ds) (m :: ms).

(** Given the (folder, name) pairs in use, [m] is filed as [n]: its own name if that is free, else its
    name with the first free suffix from _2 on. *)
Definition with_suffix (name : text) (i : N) : text := name ++ s2t "_" ++ fmt_uint 10 i.
Definition filed_as (used : list (text * text)) (m : map_) (n : text) : Prop :=
  (~ In (m_folder m, m_name m) used /\ n = m_name m) \/
  (In (m_folder m, m_name m) used /\ exists i, (2 <= i)%N /\ n = with_suffix (m_name m) i /\
     ~ In (m_folder m, n) used /\ forall j, (2 <= j < i)%N -> In (m_folder m, with_suffix (m_name m) j) used).
Inductive filing : list (text * text) -> list map_ -> list text -> Prop :=
| fil_nil used : filing used [] []
| fil_cons used m ms n ns : filed_as used m n -> filing ((m_folder m, n) :: used) ms ns -> filing used (m :: ms) (n :: ns).

(** All stored maps with folder and name *)
Definition all_maps (folders : list (text * folder)) : list (text * text * map_) :=
  flat_map (fun e => map (fun x => (fst e, fst x, snd x)) (fo_maps (snd e))) folders.
Fixpoint named_maps (ms : list map_) (ns : list text) : list (text * text * map_) :=
  match ms, ns with
  | m :: ms, n :: ns =>
    (m_folder m, n, mkMap n (m_folder m) (m_groups m) (m_hidden m) (m_active m)) :: named_maps ms ns
  | _, _ => []
  end.
