(** Specification of .prf profiles (C41) and of the paths they name (C42, C52, C53).  Of the model only the types of
    paths and profiles are used. *)
From Verif Require Import Base Unicode Paths Prf.
Local Open Scope N_scope.

Record entry := mkEntry { e_category : text; e_key : text; e_value : text }.

Definition is_space (c : N) : bool := (c =? 32) || (c =? 9) || (c =? 13) || (c =? 10).
Definition spaces (s : text) : Prop := Forall (fun c => is_space c = true) s.
Definition blank (c : N) : bool := (c =? 32) || (c =? 9).
Definition key_char (c : N) : bool := is_letter c || is_digit c || (c =? 95).
Definition starts_with (f : N -> bool) (s : text) : Prop := exists c r, s = c :: r /\ f c = true.

(** A line: category of letters, key of letters, digits and _, and the rest of the line up to the line feed, which
    must not be empty.  The blanks between them may be missing where the end of the word is clear. *)
Inductive setting_line : text -> entry -> Prop :=
| setting_intro cat b1 key b2 val :
    cat <> [] -> Forall (fun c => is_letter c = true) cat ->
    Forall (fun c => blank c = true) b1 -> (b1 = [] -> ~ starts_with is_letter key) ->
    key <> [] -> Forall (fun c => key_char c = true) key ->
    Forall (fun c => blank c = true) b2 -> (b2 = [] -> ~ starts_with key_char val) ->
    val <> [] -> ~ In 10 val -> ~ starts_with blank val ->
    setting_line (cat ++ b1 ++ key ++ b2 ++ val) (mkEntry cat key val).

(** A file: lines, with any white space before each of them and at the end. *)
Inductive prf_file : text -> list entry -> Prop :=
| prf_end w : spaces w -> prf_file w []
| prf_last w l e : spaces w -> setting_line l e -> prf_file (w ++ l) [e]
| prf_line w l e r es : spaces w -> setting_line l e -> prf_file r es -> prf_file (w ++ l ++ [10] ++ r) (e :: es).

(** The last setting with this category and key *)
Definition last_setting (es : list entry) (cat key val : text) : Prop :=
  exists pre post, es = (pre ++ mkEntry cat key val :: post)%list /\ forall e, In e post -> ~ (e_category e = cat /\ e_key e = key).
Definition no_setting (es : list entry) (cat key : text) : Prop :=
  forall e, In e es -> ~ (e_category e = cat /\ e_key e = key).

(** *** Paths *)
(** white space of Unicode *)
Definition white_space : list N :=
  [9; 10; 11; 12; 13; 32; 133; 160; 5760; 8192; 8193; 8194; 8195; 8196; 8197; 8198; 8199; 8200; 8201; 8202; 8232; 8233; 8239; 8287; 12288].
(** [s] without the white space at its end *)
Definition trimmed (s r : text) : Prop :=
  exists w, s = (r ++ w)%list /\ Forall (fun c => In c white_space) w /\ forall r' c, r = (r' ++ [c])%list -> ~ In c white_space.
(** backslashes read as slashes *)
Definition slashed (s r : text) : Prop := Forall2 (fun c d => if N.eq_dec c 92 then d = 47 else d = c) s r.
(** the names between the slashes, without empty ones and "." *)
Inductive names : text -> list text -> Prop :=
| names_last n : ~ In 47 n -> names n (if list_eq_dec N.eq_dec n [] then [] else if list_eq_dec N.eq_dec n [46] then [] else [n])
| names_cons n r l : ~ In 47 n -> names r l ->
    names (n ++ 47 :: r) ((if list_eq_dec N.eq_dec n [] then [] else if list_eq_dec N.eq_dec n [46] then [] else [n]) ++ l).
(** the path [names] below the directory [d] *)
Definition below (d : path) (l : list text) (p : path) : Prop := rooted p = rooted d /\ comps p = (comps d ++ l)%list.
(** [d] is the directory of the file [p] *)
Definition directory (p d : path) : Prop := rooted d = rooted p /\ exists n, comps p = (comps d ++ [n])%list.
(** the file [p], with another extension *)
Definition extension (e : text) (n n' : text) : Prop :=
  (exists s x, n = (s ++ 46 :: x)%list /\ s <> [] /\ ~ In 46 x /\ n' = (s ++ 46 :: e)%list) \/
  (~ (exists s x, n = (s ++ 46 :: x)%list /\ s <> [] /\ ~ In 46 x) /\ n' = (n ++ 46 :: e)%list).

(** What the value [v] of a setting of the profile [file] means, in the working directory [cwd] *)
Inductive resolves (cwd file : path) (v : text) : path -> Prop :=
| resolves_profile s rest l d p : trimmed v s -> slashed s (47 :: rest) -> ~ starts_with (N.eqb 47) rest -> names rest l ->
    directory file d -> below d l p -> resolves cwd file v p
| resolves_cwd s u l p : trimmed v s -> slashed s u -> ~ starts_with (N.eqb 47) u -> names u l -> below cwd l p -> resolves cwd file v p
(** two separators in front: from the root *)
| resolves_root s rest l p : trimmed v s -> slashed s (47 :: 47 :: rest) -> names rest l -> below (mkPath true []) l p -> resolves cwd file v p.

(** a value that names the plugin file in the directory [d] *)
Definition plugin_in (cwd file : path) (dll : string) (d : path) (v : text) : Prop :=
  exists q, resolves cwd file v q /\ below d [s2t dll] q.
