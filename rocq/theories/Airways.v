(** Model of src/adaptation/locations/airways.rs. *)
From Verif Require Import Base Float.

(** airways.rs:14-20 *)
Inductive airway_type := AHigh | ALow | ABoth | AUnknown.

(** airways.rs:29-36 [AirwayEdge]; FixId/AirwayId are indices (nat).  Two edges are equal
    iff their [to] is (38-42). *)
Record edge := mkEdge {
  e_to : nat; e_valid : bool; e_min : option N; e_max : option N; e_type : airway_type }.

(** airways.rs:336-340 [GraphFix]; the edges map is keyed by airway id. *)
Record gfix := mkGfix { g_pos : point; g_edges : list (nat * list edge) }.

(** airways.rs:64-71 [AirwayGraph] *)
Record graph := mkGraph {
  fixes : list gfix;
  fix_id_by_name : list (text * list nat);
  fix_name_by_id : list text;
  airway_id_by_name : list (text * nat);
  airway_name_by_id : list text }.
Definition empty_graph : graph := mkGraph [] [] [] [] [].

(** [fixes[id]] panics when out of range; [None] stands for the panic. *)
Definition fix_at (g : graph) (id : nat) : option gfix := nth_error (fixes g) id.

(** locations/mod.rs:63-67 GraphPosition equality: quantised positions agree *)
Definition same_pos (a b : point) : bool := eqb (quantize a) (quantize b).

(** First id of [ids] whose fix satisfies [p]; outer [None] = panic on a bad index. *)
Fixpoint find_id (g : graph) (p : gfix -> bool) (ids : list nat) : option (option nat) :=
  match ids with
  | [] => Some None
  | id :: ids =>
    match fix_at g id with
    | None => None
    | Some f => if p f then Some (Some id) else find_id g p ids
    end
  end.

Definition find_named (g : graph) (p : gfix -> bool) (name : text) : option (option nat) :=
  match get name (fix_id_by_name g) with
  | None => Some None
  | Some ids => find_id g p ids
  end.

(** airways.rs:189-202 [add_fix_raw] *)
Definition add_fix_raw (g : graph) (pos : point) (name : text) : graph * nat :=
  let id := List.length (fixes g) in
  (mkGraph (fixes g ++ [mkGfix pos []])
           (mpush name id (fix_id_by_name g))
           (fix_name_by_id g ++ [name])
           (airway_id_by_name g) (airway_name_by_id g), id).

(** airways.rs:225-234 [get_or_insert_fix_id] *)
Definition get_or_insert_fix_id (g : graph) (pos : point) (name : text) : option (graph * nat) :=
  match find_named g (fun f => same_pos (g_pos f) pos) name with
  | None => None
  | Some (Some id) => Some (g, id)
  | Some None => Some (add_fix_raw g pos name)
  end.

(** airways.rs:236-247 [get_or_insert_airway_id] *)
Definition get_or_insert_airway_id (g : graph) (name : text) : graph * nat :=
  match get name (airway_id_by_name g) with
  | Some id => (g, id)
  | None =>
    let id := List.length (airway_name_by_id g) in
    (mkGraph (fixes g) (fix_id_by_name g) (fix_name_by_id g)
             (put name id (airway_id_by_name g)) (airway_name_by_id g ++ [name]), id)
  end.

(** the [match] on (Option, Option) in 254-261 *)
Definition merge_opt (f : N -> N -> N) (a b : option N) : option N :=
  match a, b with
  | Some a, Some b => Some (f a b)
  | x, None => x
  | None, x => x
  end.

(** airways.rs:252-261: update of an existing edge *)
Definition update_edge (e n : edge) : edge :=
  mkEdge (e_to e) (e_valid e || e_valid n) (merge_opt N.min (e_min e) (e_min n))
         (merge_opt N.max (e_max e) (e_max n)) (e_type e).

(** airways.rs:251-264: [iter_mut().find(|e| e == to_edge)], else push *)
Fixpoint upsert_edge (n : edge) (es : list edge) : list edge :=
  match es with
  | [] => [n]
  | e :: es => if Nat.eqb (e_to e) (e_to n) then update_edge e n :: es
               else e :: upsert_edge n es
  end.

Fixpoint update_nth {A} (i : nat) (f : A -> A) (l : list A) : list A :=
  match i, l with
  | _, [] => []
  | O, x :: l => f x :: l
  | S i, x :: l => x :: update_nth i f l
  end.

(** airways.rs:249-264 [insert_or_update_edge] *)
Definition insert_or_update_edge (g : graph) (from awy : nat) (n : edge) : option graph :=
  match fix_at g from with
  | None => None
  | Some _ =>
    Some (mkGraph
      (update_nth from (fun f =>
         mkGfix (g_pos f)
                (put awy (upsert_edge n (match get awy (g_edges f) with Some es => es | None => [] end))
                     (g_edges f))) (fixes g))
      (fix_id_by_name g) (fix_name_by_id g) (airway_id_by_name g) (airway_name_by_id g))
  end.

(** airways.rs:22-27 [AirwayFix] *)
Record airway_fix := mkAfix {
  af_name : text; af_pos : point; af_valid : bool; af_min : option N }.

(** airways.rs:153-187 [insert_or_update_segment]; [None] = panic *)
Definition insert_segment (g : graph) (awy from_name : text) (from_pos : point)
    (seg : airway_fix) (ty : airway_type) : option graph :=
  match get_or_insert_fix_id g from_pos from_name with
  | None => None
  | Some (g, self_id) =>
    match get_or_insert_fix_id g (af_pos seg) (af_name seg) with
    | None => None
    | Some (g, to_id) =>
      let '(g, awy_id) := get_or_insert_airway_id g awy in
      match insert_or_update_edge g self_id awy_id
              (mkEdge to_id (af_valid seg) (af_min seg) None ty) with
      | None => None
      | Some g => insert_or_update_edge g to_id awy_id (mkEdge self_id false (af_min seg) None ty)
      end
    end
  end.

(** Outcome of the expansion: a panic, no expansion, or the expanded fixes. *)
Inductive expansion (A : Type) := XPanic | XNone | XSome (a : A).
Arguments XPanic {A}.  Arguments XNone {A}.  Arguments XSome {A} a.

(** airways.rs:270-308 [traverse_airway]; [fuel] counts the iterations still allowed by
    [count > self.fixes.len()]. *)
Fixpoint traverse (g : graph) (end_ awy : nat) (fuel : nat) (prev : nat) (e : edge)
  : expansion (list (nat * bool * option N)) :=
  match fuel with
  | O => XNone
  | S fuel =>
    let current := e_to e in
    let item := (e_to e, e_valid e, e_min e) in
    if Nat.eqb current end_ then XSome [item]
    else
      match fix_at g current with
      | None => XPanic
      | Some f =>
        match get awy (g_edges f) with
        | None => XNone
        | Some es =>
          let next :=
            match es with
            | [e1; e2] => if negb (Nat.eqb (e_to e1) prev) then Some e1
                          else if negb (Nat.eqb (e_to e2) prev) then Some e2 else None
            | [e1] => if negb (Nat.eqb (e_to e1) prev) then Some e1 else None
            | _ => None
            end in
          match next with
          | None => XNone
          | Some e' =>
            match traverse g end_ awy fuel current e' with
            | XSome l => XSome (item :: l)
            | x => x
            end
          end
        end
      end
  end.

(** airways.rs:120-148: the [for edge in edges] loop *)
Fixpoint try_edges (g : graph) (start end_ awy : nat) (es : list edge)
  : expansion (list (nat * bool * option N)) :=
  match es with
  | [] => XNone
  | e :: es =>
    match traverse g end_ awy (List.length (fixes g)) start e with
    | XSome l => XSome l
    | XPanic => XPanic
    | XNone => try_edges g start end_ awy es
    end
  end.

(** airways.rs:125-147: naming the expanded fixes; [internal] is
    [locations.contains_nav_element] *)
Fixpoint name_fixes (internal : text -> point -> bool) (g : graph)
    (l : list (nat * bool * option N)) : expansion (list (airway_fix * bool)) :=
  match l with
  | [] => XSome []
  | (id, valid, mn) :: l =>
    match nth_error (fix_name_by_id g) id, fix_at g id with
    | Some name, Some f =>
      match name_fixes internal g l with
      | XSome r => XSome ((mkAfix name (g_pos f) valid mn, internal name (g_pos f)) :: r)
      | x => x
      end
    | _, _ => XPanic
    end
  end.

(** airways.rs:211-215 [find_fix_on_airway]: [edges.contains_key(&airway)] *)
Definition on_airway (awy : nat) (f : gfix) : bool :=
  match get awy (g_edges f) with Some _ => true | None => false end.

(** airways.rs:74-151 [expand_airway_segment].  The indexing inside the debug messages
    (98-99, 108, 117-118) uses ids that are also indexed here and is not repeated. *)
Definition expand (internal : text -> point -> bool) (g : graph)
    (start_name : text) (start_pos : point) (end_name awy_name : text)
  : expansion (list (airway_fix * bool)) :=
  match get awy_name (airway_id_by_name g) with
  | None => XNone
  | Some awy =>
    match find_named g (fun f => same_pos (g_pos f) start_pos) start_name with
    | None => XPanic
    | Some found =>
      match (match found with
             | Some id => Some (Some id)
             | None => find_named g (on_airway awy) start_name
             end) with
      | None => XPanic
      | Some None => XNone
      | Some (Some start) =>
        match fix_at g start with
        | None => XPanic
        | Some sf =>
          if negb (on_airway awy sf) then XNone
          else
            match find_named g (on_airway awy) end_name with
            | None => XPanic
            | Some None => XNone
            | Some (Some end_) =>
              match get awy (g_edges sf) with
              | None => XNone
              | Some es =>
                if Nat.ltb 2 (List.length es) then XNone
                else
                  match try_edges g start end_ awy es with
                  | XSome l => name_fixes internal g l
                  | XNone => XNone
                  | XPanic => XPanic
                  end
              end
            end
        end
      end
    end
  end.

(** A graph as built by airway.rs:87-117: segments inserted one after the other. *)
Record segment := mkSeg {
  s_awy : text; s_from : text; s_from_pos : point;
  s_to : text; s_to_pos : point; s_valid : bool; s_min : option N; s_type : airway_type }.

Definition insert_seg (g : graph) (s : segment) : option graph :=
  insert_segment g (s_awy s) (s_from s) (s_from_pos s)
    (mkAfix (s_to s) (s_to_pos s) (s_valid s) (s_min s)) (s_type s).

Fixpoint insert_all (g : graph) (l : list segment) : option graph :=
  match l with
  | [] => Some g
  | s :: l => match insert_seg g s with Some g => insert_all g l | None => None end
  end.

