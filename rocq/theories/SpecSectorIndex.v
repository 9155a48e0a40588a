(** Specification vocabulary for the sector index (C18-C20). *)
From Coq Require Import Reals.
From Flocq Require Import Core BinarySingleNaN.
From Verif Require Import Base Float Sectors SectorIndex.

(** A sector with a position priority and one of its volumes. *)
Definition indexed (d : data) (id : text) (v : volume) : Prop :=
  exists k s vid, In (k, s) (fst d) /\ sc_id s = id /\ sc_priority s <> [] /\
    In vid (sc_volumes s) /\ get vid (snd d) = Some v.

(** [id] may be answered for [p] at [level]: one of its volumes contains the point, and the
    level is in [lower, upper) as real numbers. *)
Definition is_at_level (v : volume) (level : spec_float) : Prop :=
  (IZR (Z.of_N (v_lower v)) <= SF2R radix2 level < IZR (Z.of_N (v_upper v)))%R.
Definition candidate contains (d : data) (p : point) (level : spec_float) (id : text) : Prop :=
  exists v, indexed d id v /\ contains (v_border v) p = true /\ is_at_level v level.

(** Alphabetical order of texts *)
Inductive alpha_le : text -> text -> Prop :=
| alpha_nil b : alpha_le [] b
| alpha_lt x y a b : (x < y)%N -> alpha_le (x :: a) (y :: b)
| alpha_eq x a b : alpha_le a b -> alpha_le (x :: a) (x :: b).

Definition not_nan (x : f64) : Prop := x <> S754_nan.
Definition point_ok (p : point) : Prop := not_nan (px p) /\ not_nan (py p).
(** No volume of the data has a NaN coordinate. *)
Definition data_ok (d : data) : Prop :=
  forall vid v p, get vid (snd d) = Some v -> In p (v_border v) -> point_ok p.

(** An f32 that is not infinite or NaN *)
Definition f32_ok (x : spec_float) : Prop :=
  valid_binary 24 128 x = true /\ is_finite_SF x = true.

(** [p] lies between points of [border] in both coordinates (the bounding box). *)
Definition within (border : list point) (p : point) : Prop :=
  (exists a b, In a border /\ In b border /\ SFleb (px a) (px p) = true /\ SFleb (px p) (px b) = true) /\
  (exists a b, In a border /\ In b border /\ SFleb (py a) (py p) = true /\ SFleb (py p) (py b) = true).

(** What is assumed of geo's [Polygon::contains]: contained points lie in the bounding box. *)
Definition contains_ok (contains : list point -> point -> bool) : Prop :=
  forall border p, contains border p = true -> within border p.

(** What is assumed of rstar's [bulk_load]: it keeps the entries. *)
Definition load_ok (load : list entry -> rtree) : Prop :=
  forall l, Permutation (leaves (load l)) l.

(** The coordinate ranges of [border] and of the line [a]-[b] overlap. *)
Definition near_line (border : list point) (a b : point) : Prop :=
  let overlap (c : point -> f64) :=
    (exists u w, In u border /\ In w [a; b] /\ SFleb (c u) (c w) = true) /\
    (exists u w, In u border /\ In w [a; b] /\ SFleb (c w) (c u) = true) in
  overlap px /\ overlap py.

(** No rebuild (resp. neither rebuild nor query) among the operations *)
Definition no_rebuild (l : list op) : Prop := ~ In ORebuild l.
Definition untouched (l : list op) : Prop := ~ In ORebuild l /\ ~ In OQuery l.
