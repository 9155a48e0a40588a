(** Model of the merging of line segments: src/sct.rs [parse_line_groups] and src/topsky/map/mod.rs [MapLine::parse],
    from the locations of each entry on. *)
From Verif Require Import Base Float Colours Locations Maps SctData.

(** lib.rs:140-145 derived [PartialEq] of [Location] *)
Definition loc_eqb (a b : location) : bool :=
  match a, b with
  | LFix d, LFix d' => eqb d d'
  | LCoord p, LCoord p' => point_eqb p p'
  | _, _ => false
  end.

(** [vec![start]] or [vec![start, end]]: sct.rs:675-679, 688-692; map/mod.rs:213-217 *)
Definition new_line (s e : location) : list location := if loc_eqb s e then [s] else [s; e].

(** topsky/map/mod.rs:199-219, the body of the fold of [MapLine::parse]; also sct.rs:662-682, the part of
    [parse_line_groups] for a last group of the same colour. *)
Definition push_segment (acc : list (list location)) (s e : location) : list (list location) :=
  match rev acc with
  | last :: _ =>
    match rev last with
    | p :: _ => if loc_eqb p s
                then if negb (loc_eqb p e) then set_last acc (last ++ [e]) else acc
                else acc ++ [new_line s e]
    | [] => acc ++ [new_line s e]
    end
  | [] => acc ++ [new_line s e]
  end.

(** topsky/map/mod.rs:194-221 [MapLine::parse] *)
Definition merge_lines (segs : list (location * location)) : list (list location) :=
  fold_left (fun acc s => push_segment acc (fst s) (snd s)) segs [].

(** sct.rs:655-697 [parse_line_groups]; an entry is its start, end and optional colour name. *)
Definition push_entry (acc : list line_group) (x : location * location * option text) : list line_group :=
  let '(s, e, colour) := x in
  match rev acc with
  | g :: _ => if eqb (lg_colour g) colour
              then set_last acc (mkLineGroup (push_segment (lg_lines g) s e) (lg_colour g))
              else acc ++ [mkLineGroup [new_line s e] colour]
  | [] => acc ++ [mkLineGroup [new_line s e] colour]
  end.
Definition merge_groups (xs : list (location * location * option text)) : list line_group := fold_left push_entry xs [].
