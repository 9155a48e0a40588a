(** Model of src/adaptation/sct_items.rs. *)
From Verif Require Import Base Num Float Colours Locations Settings Maps SctData.

(** sct_items.rs:17-21 [ColouredLines] *)
Record coloured_lines := mkColouredLines { cl_colour : colour; cl_lines : list (list point) }.

(** itertools' [dedup]: of consecutive equal items the first is kept. *)
Fixpoint dedup_from (last : point) (l : list point) : list point :=
  match l with
  | [] => [last]
  | p :: l => if point_eqb last p then dedup_from last l else last :: dedup_from p l
  end.
Definition dedup (l : list point) : list point := match l with [] => [] | p :: l => dedup_from p l end.

(** Conversion context: [lookup_] is [Colours::get] with the settings applied, [loc_] is
    [Locations::convert_location] on locations for which it returns, [sid_] is [colours.map.sid]. *)
Record sct_ctx := mkSctCtx { lookup_ : text -> option colour; loc_ : location -> option point; sid_ : colour }.

(** sct_items.rs:34-71 [ColouredLines::from_location_coloured_lines] *)
Definition from_lines (c : sct_ctx) (g : line_group) : option coloured_lines :=
  let lines := filter_map (fun pts => let line := dedup (filter_map (loc_ c) pts) in
                                      if is_nil line then None else Some line) (lg_lines g) in
  if forallb is_nil lines then None
  else Some (mkColouredLines (unwrap_or (and_then (lg_colour g) (lookup_ c)) (sid_ c)) lines).

(** sct_items.rs:23-31 [line_hash], [coord_hash]; [fmt] is the formatting [{:.6}]. *)
Definition coord_hash (fmt : f64 -> text) (p : point) : text := s2t "x" ++ fmt (px p) ++ s2t "y" ++ fmt (py p).
Definition line_hash (fmt : f64 -> text) (l : point * point) : text :=
  s2t "x" ++ fmt (px (fst l)) ++ s2t "y" ++ fmt (py (fst l)) ++ s2t "x" ++ fmt (px (snd l)) ++ s2t "y" ++ fmt (py (snd l)).

Definition mem (x : text) (l : list text) : bool := existsb (eqb x) l.

(** sct_items.rs:74-99 [build_linestring]; the recursion is bounded by [fuel], [None] is excluded by [airway_total]. *)
Fixpoint build_linestring (fmt : f64 -> text) (fuel : nat) (p : point) (visited : list text)
    (adj : list (text * list (point * point))) : option (list point * list text) :=
  match find (fun l => negb (mem (line_hash fmt l) visited)) (mget_vec (coord_hash fmt p) adj) with
  | Some next =>
    match fuel with
    | O => None
    | S fuel =>
      let q := if point_eqb (fst next) p then snd next else fst next in
      match build_linestring fmt fuel q (line_hash fmt next :: visited) adj with
      | Some (path, visited) => Some (p :: path, visited)
      | None => None
      end
    end
  | None => Some ([p], visited)
  end.

(** sct_items.rs:101-152 [airway_to_multi_line_string]: both ends of a line are taken from [airway.start] (lines 110-113). *)
Definition airway_lines (c : sct_ctx) (awys : list sct_airway) : list (point * point) :=
  filter_map (fun a => match loc_ c (aw_start a), loc_ c (aw_start a) with
                       | Some s, Some e => Some (s, e)
                       | _, _ => None
                       end) awys.
Definition airway_to_multi_line_string (fmt : f64 -> text) (c : sct_ctx) (awys : list sct_airway)
  : option (list (list point)) :=
  let lines := airway_lines c awys in
  let adj := mpush_all (flat_map (fun l => [(coord_hash fmt (fst l), l); (coord_hash fmt (snd l), l)]) lines) [] in
  option_map fst (fold_left (fun st l =>
    match st with
    | None => None
    | Some (acc, visited) =>
      if mem (line_hash fmt l) visited then Some (acc, visited)
      else match build_linestring fmt (List.length lines) (fst l) (line_hash fmt l :: visited) adj with
           | Some (ls, visited) => Some (acc ++ [ls], visited)
           | None => None
           end
    end) lines (Some ([], []))).

(** sct_items.rs:154-168 [SctItems] *)
Record sct_items := mkSctItems {
  si_sids : list (text * list coloured_lines); si_stars : list (text * list coloured_lines);
  si_high_airways : list (text * list (list (list point))); si_low_airways : list (text * list (list (list point)));
  si_artccs_high : list (text * list coloured_lines); si_artccs : list (text * list coloured_lines);
  si_artccs_low : list (text * list coloured_lines); si_geo : list (text * list coloured_lines);
  si_regions : list (text * list region); si_labels : list (text * list sct_label) }.

(** The repeated pattern of sct_items.rs:178-217, 241-323 *)
Definition drawings (c : sct_ctx) (l : list drawing) : list (text * list coloured_lines) :=
  mpush_all (flat_map (fun d => filter_map (fun g => option_map (fun x => (dr_name d, x)) (from_lines c g)) (dr_groups d)) l) [].
(** sct_items.rs:218-240: grouped by designator; the iteration order of the grouped map is irrelevant since its keys
    are distinct.  [None] is excluded by [airway_total]. *)
Fixpoint all_some {A B} (f : A -> option B) (l : list A) : option (list B) :=
  match l with
  | [] => Some []
  | a :: l => match f a, all_some f l with Some b, Some r => Some (b :: r) | _, _ => None end
  end.
Definition airways (fmt : f64 -> text) (c : sct_ctx) (l : list sct_airway) : option (list (text * list (list (list point)))) :=
  let grouped := mpush_all (map (fun a => (aw_des a, a)) l) [] in
  option_map (fun e => mpush_all e [])
    (all_some (fun e => option_map (fun x => (fst e, x)) (airway_to_multi_line_string fmt c (snd e))) grouped).

(** sct_items.rs:171-335 [SctItems::from_sct] *)
Definition from_sct (fmt : f64 -> text) (c : sct_ctx) (s : sct) : option sct_items :=
  match airways fmt c (sc_high_airways s), airways fmt c (sc_low_airways s) with
  | Some high, Some low =>
    Some (mkSctItems (drawings c (sc_sids s)) (drawings c (sc_stars s)) high low
      (drawings c (sc_artccs_high s)) (drawings c (sc_artccs s)) (drawings c (sc_artccs_low s)) (drawings c (sc_geo s))
      (mpush_all (map (fun r => (rg_name r, r)) (sc_regions s)) [])
      (mpush_all (map (fun b => (sb_name b, b)) (sc_labels s)) []))
  | _, _ => None
  end.
