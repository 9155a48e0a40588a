(** Model of src/prf.rs. *)
From Verif Require Import Base Num Peg Grammars Trees Paths.
Local Open Scope string_scope.
Local Open Scope list_scope.

(** prf.rs:145-157 [parse_setting]; [unreachable!] is a panic *)
Definition prf_setting (pair : tree) : outcome (option ((text * text) * text)) :=
  if is_rule pair "setting" then
    let setting := kids_of pair in
    do (p, setting) <- next setting;
    let category := text_of p in
    do (p, setting) <- next setting;
    let key := text_of p in
    do (p, _) <- next setting;
    let value := text_of p in
    Ret (Some ((category, key), value))
  else if is_rule pair "EOI" then Ret None
  else Panic.
(** prf.rs:31 [TwoKeyMap] *)
Definition settings_map := list ((text * text) * text).
(** prf.rs:29-33 [Prf] *)
Record prf := mkPrf { settings : settings_map; prf_path : path }.
(** prf.rs:129-136: [filter_map] and [collect] into a hash map *)
Definition prf_collect (acc : settings_map) (pair : tree) : outcome settings_map :=
  do o <- prf_setting pair;
  Ret match o with Some (k, v) => put k v acc | None => acc end.
Definition parse_settings (t : text) : outcome settings_map :=
  do kids <- top prf_grammar "prf" t;
  ofold prf_collect kids [].
(** prf.rs:127-143 [Prf::parse], after [read_to_string] (Decode.v).  [canon] is the result of [canonicalize] on the
    path: the file system's answer or an error. *)
Definition prf_parse (canon : option path) (t : text) : outcome prf :=
  do m <- parse_settings t;
  match canon with Some p => Ret (mkPrf m p) | None => Err end.

(** [str::trim_end]: the Unicode property White_Space *)
Definition is_white (c : N) : bool :=
  ((9 <=? c) && (c <=? 13) || (c =? 32) || (c =? 133) || (c =? 160) || (c =? 5760) || (8192 <=? c) && (c <=? 8202)
   || (c =? 8232) || (c =? 8233) || (c =? 8239) || (c =? 8287) || (c =? 12288))%N.
Fixpoint trim_start (s : text) : text :=
  match s with
  | c :: r => if is_white c then trim_start r else s
  | [] => []
  end.
Definition trim_end (s : text) : text := rev (trim_start (rev s)).

Section Accessors.
  (** [current_dir]; the call is assumed to succeed *)
  Variable cwd : path.

  (** prf.rs:38-45 [join_settings_path] *)
  Definition join_settings_path (self : prf) (p : text) : outcome path :=
    let normalised_path := map (fun c => if (c =? 92)%N then 47%N else c) (trim_end p) in
    match strip (s2t "/") normalised_path with
    | Some rel_path => do d <- unwrap (parent (prf_path self)); Ret (join d (to_path rel_path))
    | None => Ret (join cwd (to_path normalised_path))
    end.
  (** indexing a [HashMap] panics when the key is missing *)
  Definition setting (self : prf) (k : string) : outcome text := unwrap (get (s2t "Settings", s2t k) (settings self)).
  (** prf.rs:46-88 *)
  Definition sct_path (self : prf) : outcome path := do v <- setting self "sector"; join_settings_path self v.
  Definition ese_path (self : prf) : outcome path :=
    do v <- setting self "sector"; do p <- join_settings_path self v; Ret (with_extension (s2t "ese") p).
  Definition airways_path (self : prf) : outcome path := do v <- setting self "airways"; join_settings_path self v.
  Definition isec_path (self : prf) : outcome path :=
    do v <- setting self "airways"; do p <- join_settings_path self v; Ret (with_file_name (s2t "isec.txt") p).
  Definition navdata_airports_path (self : prf) : outcome path := do v <- setting self "airportcoords"; join_settings_path self v.
  Definition airlines_path (self : prf) : outcome path := do v <- setting self "airlines"; join_settings_path self v.
  Definition aircraft_path (self : prf) : outcome path := do v <- setting self "aircraft"; join_settings_path self v.
  Definition airports_path (self : prf) : outcome path := do v <- setting self "airports"; join_settings_path self v.
  Definition symbology_path (self : prf) : outcome path := do v <- setting self "SettingsfileSYMBOLOGY"; join_settings_path self v.

  (** [Iterator::find_map] over the entries, in the iteration order [it] of the hash map *)
  Fixpoint find_plugin (self : prf) (dll : string) (f : path -> option path) (it : settings_map) : outcome (option path) :=
    match it with
    | [] => Ret None
    | (_, v) :: it =>
      do p <- join_settings_path self v;
      match (if eqb (file_name p) (Some (s2t dll)) then f p else None) with
      | Some q => Ret (Some q)
      | None => find_plugin self dll f it
      end
    end.
  Definition in_prf_dir (self : prf) (o : option path) : outcome (option path) :=
    match o with
    | Some p => do d <- unwrap (parent (prf_path self)); Ret (Some (join d p))
    | None => Ret None
    end.
  (** prf.rs:90-104 *)
  Definition squawks_path (self : prf) (it : settings_map) : outcome (option path) :=
    do o <- find_plugin self "Squawks.dll" (fun p => option_map (fun d => join d (pth "squawks.json")) (parent p)) it;
    in_prf_dir self o.
  (** prf.rs:106-119 *)
  Definition topsky_path (self : prf) (it : settings_map) : outcome (option path) :=
    do o <- find_plugin self "TopSky.dll" parent it; in_prf_dir self o.
  (** prf.rs:121-126; [fmt_uint] writes the number *)
  Definition recent_path (self : prf) (num : N) : outcome (option path) :=
    match get (s2t "RecentFiles", s2t "Recent" ++ fmt_uint 10 num) (settings self) with
    | Some v => do p <- join_settings_path self v; Ret (Some p)
    | None => Ret None
    end.
End Accessors.

Definition lf : text := [10]%N.
(** in the style of the repository's tests (prf.rs:159-213) *)
Definition prf_test : text :=
  s2t "Settings	SettingsfileSYMBOLOGY	\EDMM\Settings\iCAS2\Symbology.txt" ++ [13; 10]%N ++ s2t "Settings	sector	\EDMM.sct" ++ lf
  ++ s2t "Plugins	Plugin0	\EDMM\Plugins\Topsky\iCAS2\TopSky.dll" ++ lf ++ s2t "RecentFiles	Recent1	\EDMM\ASR\iCAS2\EDMM_CTR.asr" ++ lf.
Example prf_test_ok :
  match prf_parse (Some (pth "/w/fixtures/iCAS2.prf")) prf_test with
  | Ret p => symbology_path (pth "/w") p = Ret (pth "/w/fixtures/EDMM/Settings/iCAS2/Symbology.txt")
    /\ topsky_path (pth "/w") p (settings p) = Ret (Some (pth "/w/fixtures/EDMM/Plugins/Topsky/iCAS2"))
    /\ sct_path (pth "/w") p = Ret (pth "/w/fixtures/EDMM.sct") /\ ese_path (pth "/w") p = Ret (pth "/w/fixtures/EDMM.ese")
    /\ recent_path (pth "/w") p 1 = Ret (Some (pth "/w/fixtures/EDMM/ASR/iCAS2/EDMM_CTR.asr")) /\ recent_path (pth "/w") p 2 = Ret None
  | _ => False
  end.
Proof. vm_compute. repeat split; reflexivity. Qed.
