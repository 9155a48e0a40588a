(** Specification vocabulary for the airway graph (C11-C14): everything is defined from
    the history of inserted segments, without ids or indices. *)
From Verif Require Import Base Float Airways.

(** A point of the airway network: a name and a position rounded to 1e-6 degrees. *)
Definition apoint := (text * (Z * Z))%type.
Definition seg_from (s : segment) : apoint := (s_from s, quantize (s_from_pos s)).
Definition seg_to (s : segment) : apoint := (s_to s, quantize (s_to_pos s)).

(** Keep the first occurrence of every element. *)
Fixpoint dedup {A} `{EqDec A} (l : list A) : list A :=
  match l with
  | [] => []
  | x :: l => x :: filter (fun y => negb (eqb x y)) (dedup l)
  end.

(** All points / airways of a history, in order of first appearance. *)
Definition raw_points (h : list segment) : list (text * point) :=
  flat_map (fun s => [(s_from s, s_from_pos s); (s_to s, s_to_pos s)]) h.
Definition points (h : list segment) : list apoint :=
  dedup (flat_map (fun s => [seg_from s; seg_to s]) h).
Definition airways (h : list segment) : list text := dedup (map s_awy h).

(** Points joined to [p] on airway [a] by some segment, in either direction, in order of
    first appearance. *)
Definition linked (a : text) (p : apoint) (s : segment) : list apoint :=
  if eqb (s_awy s) a
  then (if eqb (seg_from s) p then [seg_to s] else []) ++
       (if eqb (seg_to s) p then [seg_from s] else [])
  else [].
Definition neighbours (h : list segment) (a : text) (p : apoint) : list apoint :=
  dedup (flat_map (linked a p) h).

(** The step from [p] to [q] on airway [a] may be flown: some segment of the history goes
    from [p] to [q] on [a] and is valid. *)
Definition may_fly (h : list segment) (a : text) (p q : apoint) : bool :=
  existsb (fun s => eqb (s_awy s) a && eqb (seg_from s) p && eqb (seg_to s) q && s_valid s) h.

(** Minimum levels given by the segments between [p] and [q] on [a], in both directions. *)
Definition joins (a : text) (p q : apoint) (s : segment) : bool :=
  eqb (s_awy s) a &&
  ((eqb (seg_from s) p && eqb (seg_to s) q) || (eqb (seg_from s) q && eqb (seg_to s) p)).
Definition levels (h : list segment) (a : text) (p q : apoint) : list N :=
  flat_map (fun s => if joins a p q s then match s_min s with Some l => [l] | None => [] end
                     else []) h.
(** [m] is the least element of [l], [None] for no element. *)
Definition least (l : list N) (m : option N) : Prop :=
  match m with
  | Some x => In x l /\ forall y, In y l -> (x <= y)%N
  | None => l = []
  end.

(** The coordinate reported for a point: that of its first appearance. *)
Definition is_position (h : list segment) (p : apoint) (c : point) : Prop :=
  exists l1 l2, raw_points h = l1 ++ (fst p, c) :: l2 /\ quantize c = snd p /\
    forall n d, In (n, d) l1 -> (n, quantize d) <> p.

(** The edges recorded in a graph for point [p] on airway [a]: neighbour, validity and
    minimum level, read through the graph's own tables. *)
Definition point_of_id (g : graph) (id : nat) : option apoint :=
  match nth_error (fix_name_by_id g) id, nth_error (fixes g) id with
  | Some n, Some f => Some (n, quantize (g_pos f))
  | _, _ => None
  end.

(** Path on an airway: [steps] lists the points after [p], with the validity and minimum
    level of each step; no step returns to the point two positions before. *)
Inductive path (h : list segment) (a : text) :
  option apoint -> apoint -> list (apoint * bool * option N) -> Prop :=
| path_one prev p x v m :
    In x (neighbours h a p) -> prev <> Some x ->
    v = may_fly h a p x -> least (levels h a p x) m ->
    path h a prev p [(x, v, m)]
| path_cons prev p x v m l :
    In x (neighbours h a p) -> prev <> Some x ->
    v = may_fly h a p x -> least (levels h a p x) m ->
    path h a (Some p) x l -> path h a prev p ((x, v, m) :: l).

(** What the graph stores for the step from [p] to [q] on airway [a]. *)
Definition stored (g : graph) (a : text) (p q : apoint) (v : bool) (m : option N) : Prop :=
  exists i k f es e,
    get a (airway_id_by_name g) = Some k /\ point_of_id g i = Some p /\
    nth_error (fixes g) i = Some f /\ get k (g_edges f) = Some es /\ In e es /\
    point_of_id g (e_to e) = Some q /\ e_valid e = v /\ e_min e = m.

(** Internal consistency of a graph. *)
Record well_formed (g : graph) : Prop := {
  wf_tables : List.length (fix_name_by_id g) = List.length (fixes g);
  wf_names : forall n i, In i (mget_vec n (fix_id_by_name g)) <-> nth_error (fix_name_by_id g) i = Some n;
  wf_points : forall i j p, point_of_id g i = Some p -> point_of_id g j = Some p -> i = j;
  wf_airways : forall n k, get n (airway_id_by_name g) = Some k <-> nth_error (airway_name_by_id g) k = Some n;
  wf_edges : forall i f k es, nth_error (fixes g) i = Some f -> get k (g_edges f) = Some es ->
    k < List.length (airway_name_by_id g) /\ es <> [] /\ NoDup (map e_to es) /\
    forall e, In e es -> exists f' es' e', nth_error (fixes g) (e_to e) = Some f' /\
      get k (g_edges f') = Some es' /\ In e' es' /\ e_to e' = i
}.

(** First point of the history, in order of appearance, that has name [n] and lies on [a]. *)
Definition on (h : list segment) (a : text) (p : apoint) : bool :=
  match neighbours h a p with [] => false | _ => true end.
Definition first_on (h : list segment) (a n : text) : option apoint :=
  find (fun p => eqb (fst p) n && on h a p) (points h).

(** Where an expansion starts: the point of that name and position if there is one, else the
    first point of that name on the airway. *)
Definition start_point (h : list segment) (a n : text) (pos : point) : option apoint :=
  if in_dec eq_dec (n, quantize pos) (points h) then Some (n, quantize pos) else first_on h a n.

(** A reported fix as a step of a path *)
Definition step_of (r : airway_fix * bool) : apoint * bool * option N :=
  ((af_name (fst r), quantize (af_pos (fst r))), af_valid (fst r), af_min (fst r)).

(** [p] and [q] stand next to each other in [c]. *)
Definition adjacent (c : list apoint) (p q : apoint) : Prop :=
  exists l1 l2, c = l1 ++ p :: q :: l2 \/ c = l1 ++ q :: p :: l2.

(** Airway [a] is the chain [c]: its points are distinct, every segment of [a] joins two
    consecutive points of [c], and every two consecutive points are joined by a segment. *)
Record is_chain (h : list segment) (a : text) (c : list apoint) : Prop := {
  ch_nodup : NoDup c;
  ch_segs : forall s, In s h -> s_awy s = a -> adjacent c (seg_from s) (seg_to s);
  ch_all : forall l1 p q l2, c = l1 ++ p :: q :: l2 ->
           exists s, In s h /\ s_awy s = a /\
             ((seg_from s = p /\ seg_to s = q) \/ (seg_from s = q /\ seg_to s = p))
}.
