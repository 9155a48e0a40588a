(** Model of src/adaptation/sector_index.rs and of the calls in src/adaptation/mod.rs:320-345.
    The R-tree of the crate rstar is modelled by its search; how [bulk_load] arranges the
    entries is left open (the argument [load]).  [contains] is geo's
    [Polygon::contains(&Point)]. *)
From Verif Require Import Base Float Sectors.

(** Float comparisons [<=] and [<]: false when an operand is NaN *)
Definition fle (x y : f64) : bool := SFleb x y.
Definition flt (x y : f64) : bool := SFltb x y.

(** rstar [AABB<[f64; 2]>] / [Rectangle]: lower and upper corner *)
Record bbox := mkBox { b_lo : point; b_hi : point }.

(** geo [get_bounding_rect], one coordinate *)
Definition grow (r : f64 * f64) (p : f64) : f64 * f64 :=
  let '(mn, mx) := r in if flt mx p then (mn, p) else if flt p mn then (p, mx) else (mn, mx).

(** geo [Polygon::bounding_rect]: of the exterior ring's coordinates *)
Definition bounding_rect (l : list point) : option bbox :=
  match l with
  | [] => None
  | p :: l =>
    let '(x, y) := fold_left (fun '(x, y) p => (grow x (px p), grow y (py p))) l
                     ((px p, px p), (py p, py p)) in
    Some (mkBox (fst x, fst y) (snd x, snd y))
  end.

(** sector_index.rs:12 *)
Record entry := mkEntry { en_box : bbox; en_data : text * volume }.

(** sector_index.rs:21-37: the entries.  [Sectors] iterates in the order of the list. *)
Definition index_entries (secs : list (text * sector)) (vols : list (text * volume)) : list entry :=
  flat_map (fun '(_, s) =>
    match sc_priority s with
    | [] => []
    | _ => flat_map (fun vid =>
        match get vid vols with
        | None => []
        | Some v => match bounding_rect (v_border v) with
                    | None => []
                    | Some b => [mkEntry b (sc_id s, v)]
                    end
        end) (sc_volumes s)
    end) secs.

(** rstar [RTreeNode] *)
Inductive rtree := RLeaf (e : entry) | RNode (kids : list rtree).

(** rstar [min_inline], [max_inline], [AABB::merge] *)
Definition fmin (x y : f64) : f64 := if flt x y then x else y.
Definition fmax (x y : f64) : f64 := if flt x y then y else x.
Definition merge (a b : bbox) : bbox :=
  mkBox (fmin (px (b_lo a)) (px (b_lo b)), fmin (py (b_lo a)) (py (b_lo b)))
        (fmax (px (b_hi a)) (px (b_hi b)), fmax (py (b_hi a)) (py (b_hi b))).
(** [AABB::new_empty]: from f64::MAX to f64::MIN *)
Definition f64_max : f64 := S754_finite false 9007199254740991 971.
Definition f64_min : f64 := S754_finite true 9007199254740991 971.
Definition empty_box : bbox := mkBox (f64_max, f64_max) (f64_min, f64_min).

(** rstar [ParentNode::envelope], the merged envelope of the children *)
Fixpoint envelope (t : rtree) : bbox :=
  match t with
  | RLeaf e => en_box e
  | RNode kids => fold_left (fun b k => merge b (envelope k)) kids empty_box
  end.

Fixpoint leaves (t : rtree) : list entry :=
  match t with RLeaf e => [e] | RNode kids => flat_map leaves kids end.

(** rstar [SelectionIterator]: descend where the envelope passes the test, keep the leaves that
    pass.  The order of the results is not modelled. *)
Fixpoint select (test : bbox -> bool) (t : rtree) : list entry :=
  match t with
  | RLeaf e => if test (en_box e) then [e] else []
  | RNode kids => if test (envelope t) then flat_map (select test) kids else []
  end.

(** rstar [AABB::contains_point] and [AABB::intersects] *)
Definition box_contains (p : point) (b : bbox) : bool :=
  fle (px (b_lo b)) (px p) && fle (py (b_lo b)) (py p)
  && (fle (px p) (px (b_hi b)) && fle (py p) (py (b_hi b))).
Definition box_meets (a b : bbox) : bool :=
  fle (px (b_lo a)) (px (b_hi b)) && fle (py (b_lo a)) (py (b_hi b))
  && (fle (px (b_lo b)) (px (b_hi a)) && fle (py (b_lo b)) (py (b_hi a))).

(** sector_index.rs:78-88 [volumes_at] on the tree *)
Definition volumes_at (contains : list point -> point -> bool) (t : rtree) (p : point)
  : list (text * volume) :=
  filter (fun e => contains (v_border (snd e)) p) (map en_data (select (box_contains p) t)).

(** geo [Line::bounding_rect] = [Rect::new(start, end)] *)
Definition line_box (a b : point) : bbox :=
  let ord u v := if flt u v then (u, v) else (v, u) in
  mkBox (fst (ord (px a) (px b)), fst (ord (py a) (py b)))
        (snd (ord (px a) (px b)), snd (ord (py a) (py b))).

(** sector_index.rs:93-105 [volumes_near_line] on the tree *)
Definition volumes_near_line (t : rtree) (a b : point) : list (text * volume) :=
  map en_data (select (box_meets (line_box a b)) t).

(** [str]'s ordering (bytewise, which on UTF-8 is by code points) *)
Fixpoint text_leb (a b : text) : bool :=
  match a, b with
  | [], _ => true
  | _, [] => false
  | x :: a, y :: b => (x <? y)%N || ((x =? y)%N && text_leb a b)
  end.

(** [Iterator::min_by_key] on the ids *)
Definition min_text (l : list text) : option text :=
  match l with
  | [] => None
  | x :: l => Some (fold_left (fun m y => if text_leb m y then m else y) l x)
  end.

(** sector_index.rs:108-123 [find_sector] on the tree; [level] is an f32 *)
Definition level_in (level : spec_float) (v : volume) : bool :=
  SFleb (f32_of_Z (Z.of_N (v_lower v))) level && SFltb level (f32_of_Z (Z.of_N (v_upper v))).
Definition find_sector (contains : list point -> point -> bool) (t : rtree) (p : point)
    (level : spec_float) : option text :=
  min_text (map fst (filter (fun e => level_in level (snd e)) (volumes_at contains t p))).

(** The part of [Adaptation] (mod.rs) that matters here: sectors, volumes and the cached tree
    ([OnceLock], sector_index.rs:47-48). *)
Definition data := (list (text * sector) * list (text * volume))%type.
Record adaptation := mkAdaptation { ad_data : data; ad_cache : option rtree }.

Definition build_tree (load : list entry -> rtree) (d : data) : rtree :=
  load (index_entries (fst d) (snd d)).

(** sector_index.rs:61-67 [get_or_build]: the tree used and the new state *)
Definition get_or_build (load : list entry -> rtree) (a : adaptation) : rtree * adaptation :=
  match ad_cache a with
  | Some t => (t, a)
  | None => let t := build_tree load (ad_data a) in (t, mkAdaptation (ad_data a) (Some t))
  end.

(** What a user can do with an adaptation: change its public fields, rebuild the index
    (mod.rs:320-322), clone it and go on with the clone (sector_index.rs:50-58), query it. *)
Inductive op := OMutate (f : data -> data) | ORebuild | OClone | OQuery.
Definition step (load : list entry -> rtree) (a : adaptation) (o : op) : adaptation :=
  match o with
  | OMutate f => mkAdaptation (f (ad_data a)) (ad_cache a)
  | ORebuild => mkAdaptation (ad_data a) (Some (build_tree load (ad_data a)))
  | OClone => mkAdaptation (ad_data a) (match ad_cache a with Some t => Some t | None => None end)
  | OQuery => snd (get_or_build load a)
  end.
Definition run (load : list entry -> rtree) (a : adaptation) (l : list op) : adaptation :=
  fold_left (step load) l a.

(** mod.rs:326-345: the three queries of an adaptation in state [a] *)
Definition q_find (load : list entry -> rtree) contains (a : adaptation) (p : point) (level : spec_float)
  : option text := find_sector contains (fst (get_or_build load a)) p level.
Definition q_at (load : list entry -> rtree) contains (a : adaptation) (p : point) :=
  volumes_at contains (fst (get_or_build load a)) p.
Definition q_line (load : list entry -> rtree) (a : adaptation) (p q : point) :=
  volumes_near_line (fst (get_or_build load a)) p q.
