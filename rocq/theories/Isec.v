(** Model of src/isec.rs. *)
From Verif Require Import Base Num Float FloatParse Dms Peg Grammars Trees Locations.
Local Open Scope string_scope.
Local Open Scope list_scope.

(** isec.rs:49-54 [parse_coord] *)
Definition parse_coord (pair : tree) : outcome point :=
  let coord := kids_of pair in
  do (p, coord) <- next coord;
  do lat <- unwrap (parse_f64 (text_of p));
  do (p, _) <- next coord;
  do lng <- unwrap (parse_f64 (text_of p));
  Ret (lng, lat).

(** isec.rs:19-20 [IsecMap] *)
Definition isec_map := list (text * list fix_).

(** isec.rs:56-81 [parse_isec_txt], after [read_to_string] (Decode.v) *)
Definition isec_pair (acc : isec_map) (pair : tree) : outcome isec_map :=
  if is_rule pair "wpt" then
    let isec_line := kids_of pair in
    do (p, isec_line) <- next isec_line;
    let designator := text_of p in
    do (p, _) <- next isec_line;
    do coordinate <- parse_coord p;
    Ret (mpush designator (mkFix designator coordinate) acc)
  else Ret acc.
Definition parse_isec_txt (t : text) : outcome isec_map :=
  do kids <- top isec_grammar "wpts" t;
  ofold isec_pair kids [].

(** isec.rs:22-39 [Display]: the entries, flattened in the iteration order [it] of the map, are sorted by key.
    [None] stands for infinite and NaN coordinates, which [{:.6}] writes as words (unmodelled). *)
Fixpoint text_leb (a b : text) : bool :=
  match a, b with
  | [], _ => true
  | _, [] => false
  | x :: a, y :: b => if (x <? y)%N then true else if (y <? x)%N then false else text_leb a b
  end.
(** [sorted_by_key] is stable *)
Fixpoint insert_sorted {A} (x : text * A) (l : list (text * A)) : list (text * A) :=
  match l with
  | [] => [x]
  | y :: l => if text_leb (fst x) (fst y) then x :: y :: l else y :: insert_sorted x l
  end.
Definition sort_by_key {A} (l : list (text * A)) : list (text * A) := fold_right insert_sorted [] l.
Definition flat_iter {A} (it : list (text * list A)) : list (text * A) :=
  flat_map (fun kv => map (fun v => (fst kv, v)) (snd kv)) it.
Definition isec_line_fmt (f : fix_) : option text :=
  match fmt_fixed 0 6 (py (f_pos f)), fmt_fixed 0 6 (px (f_pos f)) with
  | Some y, Some x => Some (f_des f ++ [9]%N ++ pad_left 32 10 y ++ [9]%N ++ pad_left 32 11 x ++ [9]%N ++ s2t "15" ++ [10]%N)
  | _, _ => None
  end.
Fixpoint isec_fmt_lines (l : list (text * fix_)) : option text :=
  match l with
  | [] => Some []
  | (_, f) :: l => match isec_line_fmt f, isec_fmt_lines l with Some a, Some b => Some (a ++ b) | _, _ => None end
  end.
Definition isec_fmt (it : isec_map) : option text := isec_fmt_lines (sort_by_key (flat_iter it)).

(** The repository's test (isec.rs:92-145), first lines *)
Definition isec_test : text := s2t "8900E	 89.000000	   0.000000	15" ++ [10]%N ++ s2t "8900E	 89.000000	   0.000000	15" ++ [10]%N
  ++ s2t "ASPAT	 49.196175	  10.725828	15" ++ [10]%N.
Example isec_test_ok :
  match parse_isec_txt isec_test with
  | Ret m => map (fun kv => (fst kv, List.length (snd kv))) m = [(s2t "8900E", 2); (s2t "ASPAT", 1)] /\ isec_fmt m = Some isec_test
  | _ => False
  end.
Proof. vm_compute. split; reflexivity. Qed.
