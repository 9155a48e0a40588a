(** A way to write numbers, and an adaptation that JSON can express, for the examples of PropJson. *)
From Verif Require Import Base Num NumProofs Float Paths Colours SpecColours Settings Adaptation SpecAdaptation AdaptationMore AdaptationExample Json SpecJson JsonAdaptation.
From Verif Require Constraints Locations Airways Sectors Maps SctData SctItems Icao.
Local Open Scope string_scope.
Local Open Scope list_scope.

(** Floats by sign, mantissa and exponent; integers in decimals *)
Definition ex_write (x : spec_float) : text :=
  match x with
  | S754_finite s m e => [1; if s then 1 else 0; Npos m; Z.to_N (e + 2000)]%N
  | S754_zero s => [0; if s then 1 else 0]%N
  | _ => []
  end.
Definition ex_read (prec emax : Z) (t : text) : option spec_float :=
  match t with
  | [1; s; Npos m; e]%N => let x := S754_finite (s =? 1)%N m (Z.of_N e - 2000) in if SpecFloat.valid_binary prec emax x then Some x else None
  | [0; s]%N => Some (S754_zero (s =? 1)%N)
  | _ => None
  end.
Definition ex_numerals : numerals := mkNumerals ex_write ex_write (ex_read 53 1024) (ex_read 24 128) (parse_int (-9223372036854775808) 18446744073709551615).
Lemma ex_read_write prec emax x : (Z.abs prec + Z.abs emax < 1900)%Z -> number prec emax x -> ex_read prec emax (ex_write x) = Some x.
Proof.
  intros B [V N]. destruct x as [s|s| |s m e]; try destruct N; cbn [ex_write ex_read].
  - destruct s; reflexivity.
  - assert (W := V). unfold SpecFloat.valid_binary, SpecFloat.bounded, SpecFloat.canonical_mantissa, SpecFloat.fexp, SpecFloat.emin in V.
    apply andb_prop in V. destruct V as [V _]. apply Zeq_bool_eq in V.
    assert (E : (0 <= e + 2000)%Z) by lia. rewrite Z2N.id by exact E. replace (e + 2000 - 2000)%Z with e by lia.
    replace ((if s then 1 else 0) =? 1)%N with s by (destruct s; reflexivity). cbv zeta. rewrite W. reflexivity.
Qed.
Lemma ex_read_number prec emax t x : ex_read prec emax t = Some x -> number prec emax x.
Proof.
  intros H. assert (V : SpecFloat.valid_binary prec emax x = true /\ match x with S754_nan | S754_infinity _ => False | _ => True end); [|exact V].
  unfold ex_read in H. cbv zeta in H.
  repeat match type of H with
         | match ?e with _ => _ end = _ => destruct e eqn:?; try discriminate H
         end; injection H as <-; auto.
Qed.
Lemma ex_reads_numbers : reads_numbers ex_numerals.
Proof. split; intros n x; apply ex_read_number. Qed.
Lemma ex_faithful : faithful ex_numerals.
Proof.
  split; [|split].
  - intros x. apply (ex_read_write 53 1024). reflexivity.
  - intros x. apply (ex_read_write 24 128). reflexivity.
  - intros z B. cbn [read_int ex_numerals].
    assert (D : forall n, exists c r, fmt_uint 10 n = c :: r /\ (48 <= c < 58)%N).
    { intros n. pose proof (fmt_aux_chars (S (N.size_nat n)) 10 n [] (fun c => (48 <= c < 58)%N) ltac:(lia)) as F. fold (fmt_uint 10 n) in F.
      destruct (fmt_uint 10 n) as [|c r] eqn:E; [destruct (fmt_uint_nonnil 10 n E)|]. exists c, r. split; [reflexivity|].
      assert (X : Forall (fun c => (48 <= c < 58)%N) (c :: r)); [apply F; [|constructor]|inversion X; assumption].
      intros d L. unfold digit_char. replace (d <? 10)%N with true by lia. lia. }
    assert (V : forall n, digits1_val 10 (fmt_uint 10 n) = Some n).
    { intros n. destruct (D n) as [c [r [E _]]]. unfold digits1_val. rewrite <- (digits_fmt_uint 10 n) by lia. rewrite E. reflexivity. }
    unfold parse_int, fmt_int. destruct (z <? 0)%Z eqn:S.
    + change (45 =? 43)%N with false. change (45 =? 45)%N with true. cbv iota beta. rewrite V. rewrite Z2N.id by lia. rewrite Z.opp_involutive.
      replace (_ && _) with true by lia. reflexivity.
    + destruct (D (Z.to_N z)) as [c [r [E C]]]. pose proof (V (Z.to_N z)) as W. rewrite E in *.
      replace (c =? 43)%N with false by lia. replace (c =? 45)%N with false by lia. rewrite W. rewrite Z2N.id by lia.
      replace (_ && _) with true by lia. reflexivity.
Qed.

(** ** The adaptation of AdaptationExample *)
Definition ex_adaptation : adaptation.
Proof. let x := eval vm_compute in (from_prf ex_env ex_prf) in match x with Ret ?a => exact a end. Defined.
Lemma ex_loaded : from_prf ex_env ex_prf = Ret ex_adaptation.
Proof. vm_compute. reflexivity. Qed.
(** What JSON can express can be checked. *)
Class Check (P : Prop) := { check : bool; check_ok : check = true -> P }.
Arguments check P {_}.
#[local] Instance check_true : Check True := {| check := true; check_ok := fun _ => I |}.
#[local] Instance check_and P Q `{Check P} `{Check Q} : Check (P /\ Q).
Proof. refine {| check := check P && check Q |}. intros. apply andb_prop in H1. destruct H1. split; apply check_ok; assumption. Defined.
#[local] Instance check_lt x y : Check (x < y)%N.
Proof. refine {| check := (x <? y)%N |}. intros. lia. Defined.
#[local] Instance check_ltZ x y : Check (x < y)%Z.
Proof. refine {| check := (x <? y)%Z |}. intros. lia. Defined.
#[local] Instance check_leZ x y : Check (x <= y)%Z.
Proof. refine {| check := (x <=? y)%Z |}. intros. lia. Defined.
#[local] Instance check_eq {A} `{EqDec A} (x y : A) : Check (x = y).
Proof. refine {| check := eqb x y |}. intros. apply eqb_true. assumption. Defined.
#[local] Instance check_nodup {A} `{EqDec A} (l : list A) : Check (NoDup l).
Proof. refine {| check := nodupb l |}. intros. apply nodupb_NoDup. assumption. Defined.
#[local] Instance check_forall {A} (P : A -> Prop) `{forall a, Check (P a)} l : Check (Forall P l).
Proof. refine {| check := forallb (fun a => check (P a)) l |}. intros. apply Forall_forall. intros a I. rewrite forallb_forall in H0. apply check_ok, H0, I. Defined.
#[local] Instance check_entries {K A} `{EqDec K} (P : A -> Prop) `{forall a, Check (P a)} (m : list (K * A)) : Check (entries P m).
Proof.
  refine {| check := nodupb (map fst m) && forallb (fun e => check (P (snd e))) m |}. intros.
  apply andb_prop in H1. destruct H1 as [N F]. split; [apply nodupb_NoDup, N|]. intros k a I. rewrite forallb_forall in F. apply check_ok, (F _ I).
Defined.
#[local] Instance check_when {A} (P : A -> Prop) `{forall a, Check (P a)} o : Check (when P o).
Proof. refine {| check := match o with Some a => check (P a) | None => true end |}. intros. destruct o; [apply check_ok; assumption | exact I]. Defined.
#[local] Instance check_number p e x : Check (number p e x).
Proof. refine {| check := SpecFloat.valid_binary p e x && match x with S754_nan | S754_infinity _ => false | _ => true end |}. intros. apply andb_prop in H. destruct H as [V F]. split; [exact V|]. destruct x; (exact I || discriminate). Defined.
#[local] Instance check_path x : Check (path_ok x).
Proof.
  refine {| check := forallb (fun c => negb (eqb c []) && negb (eqb c (s2t ".")) && negb (existsb (N.eqb 47) c)) (comps x) |}. intros.
  intros c I. rewrite forallb_forall in H. specialize (H c I). apply andb_prop in H. destruct H as [H1 H2]. apply andb_prop in H1. destruct H1 as [H0 H1].
  rewrite negb_true_iff in *. split; [apply (eqb_false c []), H0|]. split; [apply (eqb_false c (s2t ".")), H1|]. intros J.
  rewrite <- not_true_iff_false, existsb_exists in H2. apply H2. exists 47%N. split; [exact J | reflexivity].
Defined.
Ltac named P := let Q := eval red in P in change (Check Q).
#[local] Hint Extern 2 (Check ?P) => progress (named P; cbv beta zeta) : typeclass_instances.
#[local] Instance check_rule x : Check (rule_ok x). Proof. destruct x; cbn [rule_ok]; typeclasses eauto. Defined.
#[local] Instance check_location x : Check (location_ok x). Proof. destruct x; cbn [location_ok]; typeclasses eauto. Defined.
Definition checked (a : adaptation) : bool := check (expressible a).
Lemma checked_ok a : checked a = true -> expressible a.
Proof. exact check_ok. Qed.
Lemma ex_expressible : expressible ex_adaptation.
Proof. apply check_ok. vm_compute. reflexivity. Qed.

(** ** Numbers that are not finite *)
Definition inf_env : env := with_files ex_env (read_from ((pth "/w/TopSky/TopSkySettings.txt", crlf ["Maps_FontSize=inf"]) :: ex_files)).
Definition zoom_maps : list N := crlf ["MAP:One"; "FOLDER:Fixes"; "COLOR:COLOR_APP"; "ZOOM:1000000000000000000000000000000000000000"; "TEXT:ABC:Hello"].
Definition zoom_env : env := with_files ex_env (read_from ((pth "/w/TopSky/TopSkyMaps.txt", zoom_maps) :: ex_files)).
Definition inf_adaptation : adaptation.
Proof. let x := eval vm_compute in (from_prf inf_env ex_prf) in match x with Ret ?a => exact a end. Defined.
Definition zoom_adaptation : adaptation.
Proof. let x := eval vm_compute in (from_prf zoom_env ex_prf) in match x with Ret ?a => exact a end. Defined.
Definition unzoomed : adaptation :=
  let a := zoom_adaptation in
  let group g := Maps.mkGroup (Maps.g_colour g) (Maps.g_font g) (Maps.g_layer g) (Maps.g_asr g) None (Maps.g_lines g) (Maps.g_labels g) (Maps.g_symbols g) (Maps.g_polygons g) (Maps.g_style g) in
  let map_ m := Maps.mkMap (Maps.m_name m) (Maps.m_folder m) (map group (Maps.m_groups m)) (Maps.m_hidden m) (Maps.m_active m) in
  let folder f := Maps.mkFolder (Maps.fo_name f) (Maps.fo_hidden f) (map (fun '(k, m) => (k, map_ m)) (Maps.fo_maps f)) in
  mkAdaptation (ad_name a) (ad_locations a) (ad_positions a) (ad_volumes a) (ad_sectors a) (ad_departure a) (ad_destination a)
    (map (fun '(k, f) => (k, folder f)) (ad_maps a)) (ad_symbols a) (ad_colours a) (ad_line_styles a) (ad_settings a) (ad_aircraft a) (ad_airlines a) (ad_sct_items a) None.
Lemma ex_unzoomed : expressible unzoomed.
Proof. apply check_ok. vm_compute. reflexivity. Qed.
Lemma ex_zoomed_alike nm : document nm zoom_adaptation = document nm unzoomed.
Proof. vm_compute. reflexivity. Qed.

(** ** Overlays: the first renames and takes the volumes away, the second takes the sectors away and has volumes again *)
Definition no_json : json := JObj [].
Definition ex_volume : json := JObj (map (fun '(k, j) => (s2t k, j)) [("id", JStr (s2t "V")); ("lower_level", w_nat 100); ("upper_level", w_nat 200);
  ("lateral_border", w_polygon ex_numerals [(f64_of_Z 1, f64_of_Z 2)]); ("private", JNull)]).
(** a volume as the documentation of the type has it *)
Definition ex_public : json := JObj (map (fun '(k, j) => (s2t k, j)) [("id", JStr (s2t "V")); ("lower_level", w_nat 100); ("upper_level", w_nat 200);
  ("lateral_border", w_polygon ex_numerals [(f64_of_Z 1, f64_of_Z 2)])]).
Definition ex_overlays : list (list (text * json)) := [
  [(s2t "name", JStr (s2t "Other")); (s2t "volumes", no_json)];
  [(s2t "sectors", no_json); (s2t "volumes", JObj [(s2t "V", ex_volume)])]].
Definition ex_merged : json := JObj (rev (merged_all (map (fun '(k, j) => (s2t k, j)) (members ex_numerals ex_adaptation)) ex_overlays)).
(** jsonnet has sorted the members otherwise *)
Definition ex_parse (t : text) : option json := if eqb t (s2t "{merged}") then Some ex_merged else None.
Definition ex_serde : libs := with_serde ex_numerals (fun _ => s2t "{json}") ex_parse ex_libs.
Lemma alike_refl nm j : alike (same_number nm) j j.
Proof.
  assert (S : forall n, same_number nm n n) by (intros n; repeat split; auto).
  revert j. fix IH 1. intros [| | | |l|o].
  - constructor. - constructor. - constructor; apply S. - constructor.
  - constructor. induction l as [|j l IHl]; constructor; [apply IH | exact IHl].
  - apply AlObj with (p := o); [reflexivity|]. induction o as [|[k j] o IHo]; constructor; [split; [reflexivity | apply IH] | exact IHo].
Qed.
Lemma ex_adds : jsonnet_adds ex_numerals (fun _ => s2t "{json}") ex_parse ex_serde (map (fun '(k, j) => (s2t k, j)) (members ex_numerals ex_adaptation))
  [pth "/w/a.jsonnet"; pth "/o/b.jsonnet"] ex_overlays.
Proof.
  intros x P. apply program_fun in P. subst x. exists (s2t "{merged}"), ex_merged. split; [vm_compute; reflexivity|]. split; [reflexivity|].
  unfold ex_merged. set (o := merged_all _ _). apply AlObj with (p := rev o); [apply Permutation_rev|].
  induction (rev o) as [|[k j] l IH]; constructor; [split; [reflexivity | apply alike_refl] | exact IH].
Qed.
