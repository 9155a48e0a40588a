(** Model of src/adaptation/sectors.rs. *)
From Verif Require Import Base Float.

(** Quantised coordinates, [geo::Coord<i64>]. *)
Definition coord := (Z * Z)%type.

(** [LineString::lines()]: consecutive pairs of points *)
Fixpoint lines_of {A} (l : list A) : list (A * A) :=
  match l with
  | x :: (y :: _) as t => (x, y) :: lines_of t
  | _ => []
  end.

(** ese.rs:64-69 [SectorLine]: the points *)
Definition sector_line := list point.

(** maps/active.rs:4-8 [RunwayIdentifier] *)
Definition runway_id := (text * text)%type.

(** ese.rs:117-131 [ese::Sector] *)
Record ese_sector := mkEseSector {
  es_id : text; es_bottom : N; es_top : N; es_border : list sector_line;
  es_owner : list text; es_dep : list text; es_arr : list text; es_runways : list runway_id }.

(** sectors.rs:70-79 *)
Definition border_lines (s : ese_sector) : list (coord * coord) :=
  flat_map (fun l => map (fun '(a, b) => (quantize a, quantize b)) (lines_of l)) (es_border s).

(** sectors.rs:80-96: adjacency lists, degree counts and the set of points *)
Definition add_line (st : list (coord * list coord) * list (coord * N) * list coord)
    (l : coord * coord) :=
  let '(adj, cnt, pts) := st in
  let '(s, e) := l in
  let adj := mpush e s (mpush s e adj) in
  let bump c (m : list (coord * N)) := put c ((match get c m with Some n => n | None => 0 end) + 1)%N m in
  let cnt := bump e (bump s cnt) in
  let ins c (p : list coord) := if in_dec eq_dec c p then p else p ++ [c] in
  (adj, cnt, ins e (ins s pts)).
Definition build (lines : list (coord * coord)) := fold_left add_line lines ([], [], []).

(** [Vec::swap_remove] at the first position holding [x] (118-120) *)
Fixpoint swap_remove (x : coord) (l : list coord) : list coord :=
  match l with
  | [] => []
  | y :: l' =>
    if eqb y x then match l' with [] => [] | _ => last l' y :: removelast l' end
    else y :: swap_remove x l'
  end.

(** sectors.rs:108-127, the [while] loop.  The stack's top is the head of the list.  [None]:
    the loop does not finish within [fuel] iterations; an iteration with no entry for
    [current] leaves everything unchanged, as in the code. *)
Fixpoint circuit (fuel : nat) (adj : list (coord * list coord)) (stack : list coord)
    (current : coord) (ring : list coord) : option (list coord) :=
  match stack with
  | [] => Some ring
  | top :: stack' =>
    match fuel with
    | O => None
    | S fuel =>
      match get current adj with
      | None => circuit fuel adj stack current ring
      | Some [] => circuit fuel adj stack' top (ring ++ [current])
      | Some (n :: ns) =>
        let next := last (n :: ns) n in
        let adj := put current (removelast (n :: ns)) adj in
        let adj := match get next adj with
                   | Some rn => put next (swap_remove current rn) adj
                   | None => adj
                   end in
        circuit fuel adj (current :: stack) next ring
      end
    end
  end.

(** Outcome of [polygon_from_ese] *)
Inductive ring_result := RNone | RRing (l : list coord) | RHang.

(** sectors.rs:98-138 on quantised points; [order] is the iteration order of the point set
    (103).  The fuel allows one iteration per stack push and pop. *)
Definition ring_of (lines : list (coord * coord)) (order : list coord -> list coord) : ring_result :=
  let '(adj, cnt, pts) := build lines in
  if negb (forallb (fun '(_, n) => N.even n) cnt) then RNone
  else
    match order pts with
    | [] => RNone
    | start :: _ =>
      match circuit (2 * List.length lines + 1) adj [start] start [] with
      | None => RHang
      | Some ring => if Nat.eqb (List.length ring) (List.length lines + 1) then RRing ring else RNone
      end
    end.

(** sectors.rs:69-138 [polygon_from_ese], up to the conversion of the ring *)
Definition polygon_from_ese (s : ese_sector) (order : list coord -> list coord) : ring_result :=
  ring_of (border_lines s) order.

(** sectors.rs:129-131 *)
Definition dequantize (c : coord) : point :=
  (fdiv (f64_of_Z (fst c)) (f64_of_Z 1000000), fdiv (f64_of_Z (snd c)) (f64_of_Z 1000000)).

(** sectors.rs:32-39 [Volume]; the polygon is its exterior ring *)
Record volume := mkVolume { v_id : text; v_lower : N; v_upper : N; v_border : list point }.

(** sectors.rs:57-65 [Sector]; sets as lists *)
Record sector := mkSector {
  sc_id : text; sc_priority : list text; sc_filter : list (list runway_id);
  sc_volumes : list text; sc_dep : list text; sc_arr : list text }.

(** sectors.rs:141-160, one step of the fold.  [order] gives the iteration order of the point
    set per sector id; [ccw] is [make_ccw_winding].  [None]: some polygon computation does not
    end. *)
Definition volume_step (order : text -> list coord -> list coord) (ccw : list point -> list point)
    (st : option (list ((list text * list runway_id) * list (text * ese_sector)) * list (text * volume)))
    (e : text * ese_sector) :=
  match st with
  | None => None
  | Some (secs, vols) =>
    let '(id, s) := e in
    match polygon_from_ese s (order id) with
    | RHang => None
    | RNone => Some (secs, vols)
    | RRing ring =>
      Some (mpush (es_owner s, es_runways s) (id, s) secs,
            put id (mkVolume id (es_bottom s) (es_top s) (ccw (map dequantize ring))) vols)
    end
  end.

Definition group_sectors (entries : list (text * ese_sector)) order ccw :=
  fold_left (volume_step order ccw) entries (Some ([], [])).

(** sectors.rs:161-187: one sector per group; [volumes[0]] names it ([None] = panic on an
    empty group).  Aerodromes are collected into sets. *)
Definition sector_of_group (g : (list text * list runway_id) * list (text * ese_sector)) : option sector :=
  let '((prio, rw), l) := g in
  match map fst l with
  | [] => None
  | first :: _ =>
    Some (mkSector first prio [rw] (map fst l)
            (nodup eq_dec (flat_map (fun x => es_dep (snd x)) l)) (nodup eq_dec (flat_map (fun x => es_arr (snd x)) l)))
  end.

Fixpoint sectors_of_groups (gs : list ((list text * list runway_id) * list (text * ese_sector)))
    (acc : list (text * sector)) : option (list (text * sector)) :=
  match gs with
  | [] => Some acc
  | g :: gs => match sector_of_group g with
               | None => None
               | Some s => sectors_of_groups gs (put (sc_id s) s acc)
               end
  end.

(** sectors.rs:141-190 [Sectors::from_ese]; [entries] is the iteration order of [ese.sectors],
    [gorder] the one of the group map. *)
Definition sectors_from_ese (entries : list (text * ese_sector)) order ccw
    (gorder : list ((list text * list runway_id) * list (text * ese_sector)) ->
              list ((list text * list runway_id) * list (text * ese_sector)))
  : option (list (text * volume) * list (text * sector)) :=
  match group_sectors entries order ccw with
  | None => None
  | Some (groups, vols) =>
    match sectors_of_groups (gorder groups) [] with
    | None => None
    | Some secs => Some (vols, secs)
    end
  end.

(** sectors.rs:192-195 [find_id_by_volume]; [secs] in iteration order *)
Definition find_id_by_volume (secs : list (text * sector)) (v : text) : option text :=
  match find (fun '(_, s) => existsb (eqb v) (sc_volumes s)) secs with
  | Some (id, _) => Some id
  | None => None
  end.
