(** Specification vocabulary for sector polygons and sectors (C15-C17). *)
From Verif Require Import Base Float Sectors.

(** Consecutive pairs *)
Definition pairs {A} (l : list A) : list (A * A) := combine l (tl l).

(** The border segments of a sector definition: consecutive points of its border lines, rounded
    to 1e-6 degrees. *)
Definition border_segments (s : ese_sector) : list (coord * coord) :=
  flat_map (fun l => pairs (map quantize l)) (es_border s).

(** The same border segment, in either direction. *)
Definition same_segment {V} (a b : V * V) : Prop := a = b \/ a = (snd b, fst b).

(** The consecutive pairs of [ring] are exactly the segments of [lines], each used once. *)
Definition uses_each_once {V} (ring : list V) (lines : list (V * V)) : Prop :=
  exists lines', Permutation lines lines' /\ Forall2 same_segment lines' (pairs ring).

Definition closed {V} (ring : list V) : Prop :=
  exists v mid, ring = v :: mid ++ [v].

(** Number of segment ends at [v] (a degenerate segment counts twice). *)
Definition degree {V} `{EqDec V} (lines : list (V * V)) (v : V) : nat :=
  List.length (filter (eqb v) (map fst lines)) + List.length (filter (eqb v) (map snd lines)).

(** Points connected by segments. *)
Inductive reach {V} (lines : list (V * V)) : V -> V -> Prop :=
| reach_refl v : reach lines v v
| reach_step u v w : reach lines u v -> In (v, w) lines \/ In (w, v) lines -> reach lines u w.

Definition connected {V} (lines : list (V * V)) : Prop :=
  forall a b c d, In (a, b) lines -> In (c, d) lines -> reach lines a c.

Definition closed_connected_border {V} `{EqDec V} (lines : list (V * V)) : Prop :=
  lines <> [] /\ (forall v, Nat.even (degree lines v) = true) /\ connected lines.

(** [order] enumerates the elements of a hash set in some order. *)
Definition set_order (order : list coord -> list coord) : Prop :=
  forall l, Permutation (order l) l.

(** A sector definition whose border closes. *)
Definition valid_entry (entries : list (text * ese_sector)) (id : text) (s : ese_sector) : Prop :=
  In (id, s) entries /\ closed_connected_border (border_segments s).

(** The volumes and sectors obtained from the sector definitions [entries]. *)
Record sectors_ok (entries : list (text * ese_sector)) (ccw : list point -> list point)
    (vols : list (text * volume)) (secs : list (text * sector)) : Prop := {
  so_volumes : forall id,
    match get id vols with
    | Some v => exists s ring, valid_entry entries id s /\
        v = mkVolume id (es_bottom s) (es_top s) (ccw (map dequantize ring)) /\
        uses_each_once ring (border_segments s) /\ closed ring
    | None => forall s, ~ valid_entry entries id s
    end;
  so_keys : NoDup (keys vols) /\ NoDup (keys secs);
  so_named : forall k sc, In (k, sc) secs -> k = sc_id sc /\ In k (sc_volumes sc);
  so_members : forall k sc, In (k, sc) secs ->
    NoDup (sc_volumes sc) /\
    exists rw, sc_filter sc = [rw] /\
      forall id, In id (sc_volumes sc) <->
        exists s, valid_entry entries id s /\ es_owner s = sc_priority sc /\ es_runways s = rw;
  so_every : forall id s, valid_entry entries id s ->
    exists k sc, In (k, sc) secs /\ In id (sc_volumes sc);
  so_once : forall k sc k' sc' id, In (k, sc) secs -> In (k', sc') secs ->
    In id (sc_volumes sc) -> In id (sc_volumes sc') -> k = k';
  so_aerodromes : forall k sc a, In (k, sc) secs ->
    (In a (sc_dep sc) <-> exists id s, In id (sc_volumes sc) /\ In (id, s) entries /\ In a (es_dep s)) /\
    (In a (sc_arr sc) <-> exists id s, In id (sc_volumes sc) /\ In (id, s) entries /\ In a (es_arr s));
  so_sets : forall k sc, In (k, sc) secs -> NoDup (sc_dep sc) /\ NoDup (sc_arr sc)
}.
