(** Specification of the text of the ICAO tables and of the navdata airports, line by line (C79). *)
From Verif Require Import Base Unicode Num Float FloatParse SpecText SpecFields Icao SpecIcao.
Local Open Scope string_scope.
Local Open Scope list_scope.

Definition tab : text := [9]%N.
(** the cells of a line have tabs between them *)
Definition cells (w : text) (l : list text) : text := w ++ List.concat (map (fun v => tab ++ v) l).
(** a text without tabs that is not a remark *)
Definition cell (w : text) : Prop := field 9 w /\ unremarked w.
Definition alphanumeric (c : N) : bool := is_letter c || is_digit c.
Definition key (w : text) : Prop := w <> [] /\ Forall (fun c => alphanumeric c = true) w.

(** around lines, remarks and in empty lines *)
Definition icao_space (c : N) : bool := (c =? 32)%N.
Definition navdata_space (c : N) : bool := ((c =? 32) || (c =? 9))%N.
Definition remarks : list text := map s2t [";"; "//"].

(** ** Airlines *)
Definition airline_text (a : airline) : text := cells (al_designator a) [al_name a; al_callsign a; al_country a].
Definition good_airline (a : airline) : Prop :=
  List.length (al_designator a) = 3 /\ Forall (fun c => is_upper c = true) (al_designator a) /\
  cell (al_name a) /\ cell (al_callsign a) /\ cell (al_country a).

(** ** Airports *)
Definition airport_text (a : icao_airport) : text := cells (ia_designator a) [ia_name a; ia_country a].
Definition good_airport (a : icao_airport) : Prop := key (ia_designator a) /\ cell (ia_name a) /\ cell (ia_country a).

(** ** Aircraft types: the letters of category, type and engines, and any lines that continue the name of a type *)
Inductive aircraft_line :=
| Defined (designator wtc type engines engine manufacturer name : text)
| Continued (w : text).
Definition aircraft_text (l : aircraft_line) : text :=
  match l with
  | Defined d w ty n en m name => cells d [w ++ ty ++ n ++ en; m; name]
  | Continued w => w
  end.
Definition reads_aircraft_line (l : aircraft_line) (o : list (text * aircraft)) : Prop :=
  match l with
  | Defined d w ty n en m name => exists a, o = [(d, a)] /\
      key d /\ (List.length d <= 4)%nat /\ cell m /\ cell name /\
      ac_designator a = d /\ In (w, ac_wtc a) wtc_letters /\ In (ty, ac_type a) type_letters /\ In (en, ac_engine a) engine_letters /\
      ((exists c, n = [c] /\ is_digit c = true) \/ n = s2t "C" \/ n = s2t "-") /\ engines_of n (ac_engines a) /\ ac_manufacturer a = m /\ ac_name a = name
  | Continued w => o = [] /\ w <> [] /\ cell w /\ forall a b, w <> a ++ s2t ";" ++ b /\ w <> a ++ s2t "//" ++ b
  end.

(** ** Navdata airports: designator, latitude, longitude and name with white space between them *)
Record navdata_line := mkNavdataLine { n_designator : text; n_lat : text; n_lon : text; n_name : text; n_space : text * text * text }.
Definition navdata_text (l : navdata_line) : text :=
  let '(s1, s2, s3) := n_space l in n_designator l ++ s1 ++ n_lat l ++ s2 ++ n_lon l ++ s3 ++ n_name l.
Definition some_blanks (s : text) : Prop := s <> [] /\ Forall (fun c => navdata_space c = true) s.
Definition reads_navdata_line (l : navdata_line) (a : navdata_airport) : Prop :=
  key (n_designator l) /\ numeral (n_lat l) /\ numeral (n_lon l) /\ n_name l <> [] /\ in_line (n_name l) /\ unremarked (n_name l) /\
  (forall c v, n_name l = c :: v -> is_blank c = false) /\
  (let '(s1, s2, s3) := n_space l in some_blanks s1 /\ some_blanks s2 /\ some_blanks s3) /\
  nd_designator a = n_designator l /\ nd_name a = n_name l /\ parse_f64 (n_lat l) = Some (py (nd_location a)) /\ parse_f64 (n_lon l) = Some (px (nd_location a)).
(** The name goes to the end of its line, so that white space there is not part of the layout. *)
Inductive navdata_laid : list text -> text -> Prop :=
| navdata_nil : navdata_laid [] []
| navdata_cons l ls nl k b t : eol nl -> idles navdata_space remarks k -> spaces navdata_space b -> navdata_laid ls t -> navdata_laid (l :: ls) (l ++ nl ++ k ++ b ++ t).
Definition navdata_layout (ls : list text) (t : text) : Prop :=
  exists k b t', t = k ++ b ++ t' /\ idles navdata_space remarks k /\ spaces navdata_space b /\ navdata_laid ls t'.

(** the first definition of a designator counts *)
Definition first_counts {A} (defs : list (text * A)) (m : list (text * A)) : Prop := forall d, get d m = get d defs.
