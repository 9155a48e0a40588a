(** Specification vocabulary for locations (C21-C26), in terms of the input files. *)
From Verif Require Import Base Float Unicode Locations.

Definition ascii (d : text) : Prop := Forall (fun c => (c < 128)%N) d.
Definition digit (c : N) : Prop := (48 <= c <= 57)%N.

(** Every decimal digit of [d] (Unicode category Nd) is an ASCII one. *)
Definition plain_digits (d : text) : Prop := forall c, In c d -> is_nd c = true -> (c < 128)%N.

(** The first element of that name *)
Definition first_named {A} (name : A -> text) (d : text) (l : list A) : option A :=
  find (fun x => eqb (name x) d) l.

(** ** Airports: the entry [o] of designator [d] *)
Definition last_sct (i : loc_input) (d : text) (s : sct_airport) : Prop :=
  exists pre post, i_airports i = pre ++ s :: post /\ sa_des s = d /\ ~ In d (map sa_des post).
Definition in_sct (i : loc_input) (d : text) : Prop := In d (map sa_des (i_airports i)).

Definition airport_entry (i : loc_input) (d : text) (o : option airport) : Prop :=
  match o with
  | None => ~ in_sct i d /\ ~ In d (keys (i_navdata i))
  | Some a =>
    ap_des a = d /\
    ((exists s, last_sct i d s /\ ap_pos a = sa_pos s /\
        ap_runways a = filter (fun r => eqb (r_ad r) d) (i_runways i)) \/
     (~ in_sct i d /\ exists n, get d (i_navdata i) = Some n /\ ap_pos a = nd_pos n /\ ap_runways a = [])) /\
    ap_name a = match get d (i_navdata i) with
                | Some n => Some (nd_name n)
                | None => option_map ic_name (get d (i_icao i))
                end /\
    ap_country a = option_map ic_country (get d (i_icao i))
  end.

(** The hash maps have unique keys. *)
Definition input_ok (i : loc_input) : Prop :=
  NoDup (keys (i_navdata i)) /\ NoDup (keys (i_icao i)).

(** ** Runway thresholds: four bytes of aerodrome, two or three of runway; the first runway of the
    aerodrome with an end of that name, its first end preferred. *)
Definition named (rw : text) (r : runway) : Prop := fst (r_des r) = rw \/ snd (r_des r) = rw.
Definition threshold (i : loc_input) (d : text) (f : fix_) : Prop :=
  exists ad rw ap pre r post,
    d = ad ++ rw /\ utf8_len ad = 4 /\ (utf8_len rw = 2 \/ utf8_len rw = 3) /\
    airport_entry i ad (Some ap) /\ ap_runways ap = pre ++ r :: post /\
    (forall r', In r' pre -> ~ named rw r') /\ named rw r /\
    f = mkFix d (if eqb (fst (r_des r)) rw then fst (r_loc r) else snd (r_loc r)).

(** ** Coordinate waypoints *)
Definition decimal (s : text) : N := fold_left (fun a c => (a * 10 + (c - 48))%N) s 0%N.
Definition number (s : text) : f64 := f64_of_Z (Z.of_N (decimal s)).

(** Degrees ([w] digits), optional minutes and optional seconds (two digits each) *)
Definition degrees (w : nat) (s : text) : f64 :=
  let deg := number (firstn w s) in
  let min := number (firstn 2 (skipn w s)) in
  let sec := number (firstn 2 (skipn (w + 2) s)) in
  let l := List.length s in
  if Nat.eqb l w then deg
  else if Nat.eqb l (w + 2) then fadd deg (fdiv min (f64_of_Z 60))
  else fadd (fadd deg (fdiv min (f64_of_Z 60))) (fdiv sec (f64_of_Z 3600)).

(** [w] is [full], or [full] without its leading zero provided the next digit is not zero. *)
Definition written_for (full w : text) : Prop :=
  w = full \/ (full = 48%N :: w /\ exists c t, w = c :: t /\ c <> 48%N).

Definition coordinate_waypoint (d : text) (f : fix_) : Prop :=
  exists wlat lat ns wlng lng ew k,
    d = wlat ++ [ns] ++ wlng ++ [ew] /\
    (ns = 78%N \/ ns = 83%N) /\ (ew = 69%N \/ ew = 87%N) /\
    Forall digit lat /\ Forall digit lng /\ written_for lat wlat /\ written_for lng wlng /\
    1 <= k <= 3 /\ List.length lat = 2 * k /\ List.length lng = 2 * k + 1 /\
    f = mkFix (lat ++ [ns] ++ lng ++ [ew])
          (fmul (f64_of_Z (if (ew =? 69)%N then 1 else -1)) (degrees 3 lng),
           fmul (f64_of_Z (if (ns =? 78)%N then 1 else -1)) (degrees 2 lat)).

(** ** Designators *)
Inductive resolves_fix (i : loc_input) (d : text) : option fix_ -> Prop :=
| rf_vor v : first_named n_des d (i_vors i) = Some v -> resolves_fix i d (Some (mkFix d (n_pos v)))
| rf_ndb n : first_named n_des d (i_vors i) = None -> first_named n_des d (i_ndbs i) = Some n ->
    resolves_fix i d (Some (mkFix d (n_pos n)))
| rf_fix f : first_named n_des d (i_vors i) = None -> first_named n_des d (i_ndbs i) = None ->
    first_named f_des d (i_fixes i) = Some f -> resolves_fix i d (Some f)
| rf_airport a : first_named n_des d (i_vors i) = None -> first_named n_des d (i_ndbs i) = None ->
    first_named f_des d (i_fixes i) = None -> airport_entry i d (Some a) ->
    resolves_fix i d (Some (mkFix d (ap_pos a)))
| rf_threshold f : first_named n_des d (i_vors i) = None -> first_named n_des d (i_ndbs i) = None ->
    first_named f_des d (i_fixes i) = None -> airport_entry i d None -> threshold i d f ->
    resolves_fix i d (Some f)
| rf_none : first_named n_des d (i_vors i) = None -> first_named n_des d (i_ndbs i) = None ->
    first_named f_des d (i_fixes i) = None -> airport_entry i d None -> (forall f, ~ threshold i d f) ->
    resolves_fix i d None.

(** Name of two to five digits or capital letters, three digits of bearing, three of range *)
Definition range_bearing (dest : point -> f64 -> f64 -> point) (i : loc_input) (d : text) (f : fix_) : Prop :=
  exists name brg rng x,
    d = name ++ brg ++ rng /\ 2 <= List.length name <= 5 /\
    Forall (fun c => digit c \/ (65 <= c <= 90)%N) name /\
    List.length brg = 3 /\ List.length rng = 3 /\ Forall digit brg /\ Forall digit rng /\
    resolves_fix i name (Some x) /\ f = mkFix d (dest (f_pos x) (number brg) (number rng)).

Inductive resolves (dest : point -> f64 -> f64 -> point) (i : loc_input) (d : text) : option fix_ -> Prop :=
| rs_fix f : resolves_fix i d (Some f) -> resolves dest i d (Some f)
| rs_coord f : resolves_fix i d None -> coordinate_waypoint d f -> resolves dest i d (Some f)
| rs_rb f : resolves_fix i d None -> (forall g, ~ coordinate_waypoint d g) -> range_bearing dest i d f ->
    resolves dest i d (Some f)
| rs_none : resolves_fix i d None -> (forall g, ~ coordinate_waypoint d g) ->
    (forall g, ~ range_bearing dest i d g) -> resolves dest i d None.

(** ** SIDs and STARs *)
Definition sids_of (l : list sid_star) : list ese_proc :=
  flat_map (fun x => match x with Sid p => [p] | Star _ => [] end) l.
Definition stars_of (l : list sid_star) : list ese_proc :=
  flat_map (fun x => match x with Star p => [p] | Sid _ => [] end) l.
Definition stored (m : list (text * list (text * list procedure))) (ad name : text) : list procedure :=
  match get ad m with Some names => mget_vec name names | None => [] end.

(** The waypoint designators of a SID or STAR *)
Definition wpts_of (x : sid_star) : list text := match x with Sid p => ep_wpts p | Star p => ep_wpts p end.

(** The stored form of a SID or STAR: same names, the resolvable waypoints in order *)
Definition converted dest (i : loc_input) (p : ese_proc) (q : procedure) : Prop :=
  pr_name q = ep_name p /\ pr_airport q = ep_airport p /\ pr_runway q = ep_runway p /\
  exists os, Forall2 (resolves dest i) (ep_wpts p) os /\
    pr_wpts q = flat_map (fun o => match o with Some f => [f] | None => [] end) os.

(** The same files with the two hash maps in another order *)
Definition reordered (i i' : loc_input) : Prop :=
  i_fixes i' = i_fixes i /\ i_vors i' = i_vors i /\ i_ndbs i' = i_ndbs i /\ i_airports i' = i_airports i /\
  i_runways i' = i_runways i /\ i_procs i' = i_procs i /\
  Permutation (i_navdata i) (i_navdata i') /\ Permutation (i_icao i) (i_icao i').
