(** Specification vocabulary for the drawable .sct items (C37, C38). *)
From Verif Require Import Base Float Colours Locations SctData SctItems.

(** Equal coordinates (IEEE equality of both) *)
Definition same_point (p p' : point) : Prop := SFeqb (fst p) (fst p') = true /\ SFeqb (snd p) (snd p') = true.

(** [r] is [l] with every point removed that equals the last kept one. *)
Inductive collapsed : list point -> list point -> Prop :=
| col_nil : collapsed [] []
| col_one p : collapsed [p] [p]
| col_same p p' l r : same_point p p' -> collapsed (p :: l) r -> collapsed (p :: p' :: l) r
| col_new p p' l r : ~ same_point p p' -> collapsed (p' :: l) r -> collapsed (p :: p' :: l) (p :: r).

(** [r] are the resolvable locations of [l], in order. *)
Inductive resolves (c : sct_ctx) : list location -> list point -> Prop :=
| res_nil : resolves c [] []
| res_skip x l r : loc_ c x = None -> resolves c l r -> resolves c (x :: l) r
| res_take x p l r : loc_ c x = Some p -> resolves c l r -> resolves c (x :: l) (p :: r).

(** [out] are the drawable lines of [lines]. *)
Inductive drawn_lines (c : sct_ctx) : list (list location) -> list (list point) -> Prop :=
| dl_nil : drawn_lines c [] []
| dl_drop l ls out : resolves c l [] -> drawn_lines c ls out -> drawn_lines c (l :: ls) out
| dl_keep l ls pts line out : resolves c l pts -> pts <> [] -> collapsed pts line -> drawn_lines c ls out ->
    drawn_lines c (l :: ls) (line :: out).

(** [x] is what a line group is drawn as. *)
Definition drawn_as (c : sct_ctx) (g : line_group) (x : coloured_lines) : Prop :=
  drawn_lines c (lg_lines g) (cl_lines x) /\ cl_lines x <> [] /\
  ((exists n, lg_colour g = Some n /\ lookup_ c n = Some (cl_colour x)) \/
   ((forall n, lg_colour g = Some n -> lookup_ c n = None) /\ cl_colour x = sid_ c)).
Definition not_drawn (c : sct_ctx) (g : line_group) : Prop := drawn_lines c (lg_lines g) [].

(** The groups of the drawings named [k], as drawn, in file order *)
Inductive drawn_groups (c : sct_ctx) : list line_group -> list coloured_lines -> Prop :=
| dg_nil : drawn_groups c [] []
| dg_drop g gs out : not_drawn c g -> drawn_groups c gs out -> drawn_groups c (g :: gs) out
| dg_keep g gs x out : drawn_as c g x -> drawn_groups c gs out -> drawn_groups c (g :: gs) (x :: out).
Fixpoint groups_of (k : text) (l : list drawing) : list line_group :=
  match l with
  | [] => []
  | d :: l => if eq_dec (dr_name d) k then dr_groups d ++ groups_of k l else groups_of k l
  end.

(** ** Airways (C37) *)
Fixpoint airways_of (k : text) (l : list sct_airway) : list sct_airway :=
  match l with
  | [] => []
  | a :: l => if eq_dec (aw_des a) k then a :: airways_of k l else airways_of k l
  end.
Fixpoint starts (c : sct_ctx) (l : list sct_airway) : list point :=
  match l with
  | [] => []
  | a :: l => match loc_ c (aw_start a) with Some p => p :: starts c l | None => starts c l end
  end.
(** The first of the points with the same texts of both coordinates *)
Fixpoint firsts (key : point -> text) (seen : list text) (l : list point) : list point :=
  match l with
  | [] => []
  | p :: l => if in_dec eq_dec (key p) seen then firsts key seen l else p :: firsts key (key p :: seen) l
  end.
(** Two points are joined by a line string if they are consecutive in it. *)
Definition joins (ls : list point) (p p' : point) : Prop := exists a b, ls = a ++ p :: p' :: b \/ ls = a ++ p' :: p :: b.

(** What the airways of one designator are drawn as: the text of a point is [x<lng>y<lat>], both to six digits. *)
Definition point_text (fmt : f64 -> text) (p : point) : text := s2t "x" ++ fmt (fst p) ++ s2t "y" ++ fmt (snd p).
Definition drawn_airway (fmt : f64 -> text) (c : sct_ctx) (l : list sct_airway) : list (list (list point)) :=
  match l with
  | [] => []
  | _ => [map (fun p => [p]) (firsts (point_text fmt) [] (starts c l))]
  end.

Fixpoint regions_of (k : text) (l : list region) : list region :=
  match l with
  | [] => []
  | r :: l => if eq_dec (rg_name r) k then r :: regions_of k l else regions_of k l
  end.
Fixpoint labels_of (k : text) (l : list sct_label) : list sct_label :=
  match l with
  | [] => []
  | r :: l => if eq_dec (sb_name r) k then r :: labels_of k l else labels_of k l
  end.
