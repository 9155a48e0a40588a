(** Proofs about the ICAO and navdata tables. *)
From Coq Require Import ZifyBool ZifyN ZifyNat.
From Verif Require Import Base Num Float FloatParse Peg Grammars SpecPeg PegProofs PegLang Trees PegTree SpecPairs PairsProofs Icao SpecIcao SpecText TextProofs Numerals.
Local Open Scope string_scope.
Local Open Scope list_scope.

(** ** Tables *)
Section Table.
  Context {A : Type} (key : tree -> text) (val : tree -> A) (reads : tree -> A -> Prop).

  Lemma first_find d defs : (forall p, In p defs -> field "designator" p (key p)) -> forall p,
    first_with (fun p => field "designator" p d) defs p <-> find (fun p => eqb (key p) d) defs = Some p.
  Proof.
    intros K p. assert (E : forall q, In q defs -> field "designator" q d <-> eqb (key q) d = true).
    { intros q I. rewrite eqb_true. specialize (K q I). unfold field in *. rewrite K. split; [intros X; injection X; auto | intros ->; reflexivity]. }
    clear K. split.
    - intros [l1 [l2 [-> [P N]]]]. induction l1 as [|y l1 IH]; cbn [app find].
      + apply E in P; [|left; reflexivity]. rewrite P. reflexivity.
      + destruct (eqb (key y) d) eqn:Y; [|apply IH].
        * apply E in Y; [|left; reflexivity]. exfalso. apply (N y); [left; reflexivity | exact Y].
        * intros q I. apply E. right. exact I.
        * intros q I. apply N. right. exact I.
    - induction defs as [|y l IH]; cbn [find]; [discriminate|]. destruct (eqb (key y) d) eqn:Y.
      + intros [= ->]. exists [], l. split; [reflexivity|]. split; [apply E; [left; reflexivity | exact Y] | intros y []].
      + intros H. apply IH in H; [|intros q I; apply E; right; exact I]. destruct H as [l1 [l2 [-> [P N]]]]. exists (y :: l1), l2.
        split; [reflexivity|]. split; [exact P|]. intros q [<-|I]; [|apply N, I]. rewrite E by (left; reflexivity). congruence.
  Qed.
  Definition table (defs : list tree) (acc : list (text * A)) := fold_left (fun acc p => put_new (key p) (val p) acc) defs acc.
  Lemma get_table defs : forall acc d, get d (table defs acc) =
    match get d acc with Some a => Some a | None => option_map val (find (fun p => eqb (key p) d) defs) end.
  Proof.
    induction defs as [|p defs IH]; intros acc d; cbn [table fold_left find]; [destruct (get d acc); reflexivity|].
    change (fold_left (fun acc p => put_new (key p) (val p) acc) defs (put_new (key p) (val p) acc)) with (table defs (put_new (key p) (val p) acc)).
    rewrite IH, get_put_new. destruct (get d acc) as [a|]; [reflexivity|]. destruct (eqb (key p) d) eqn:E.
    - rewrite eqb_true in E. destruct (eq_dec d (key p)) as [_|X]; [reflexivity | congruence].
    - rewrite eqb_false in E. destruct (eq_dec d (key p)) as [X|_]; [congruence | reflexivity].
  Qed.
  Lemma table_nodup defs : forall acc, NoDup (keys acc) -> NoDup (keys (table defs acc)).
  Proof. induction defs as [|p defs IH]; intros acc N; [exact N|]. apply IH, NoDup_put_new, N. Qed.
  Lemma table_first defs : Forall (fun p => field "designator" p (key p) /\ reads p (val p)) defs -> first_definitions reads defs (table defs []).
  Proof.
    intros F. rewrite Forall_forall in F. assert (K : forall p, In p defs -> field "designator" p (key p)) by (intros; apply F; assumption).
    assert (V : forall d p, find (fun p => eqb (key p) d) defs = Some p -> reads p (val p)) by (intros d p H; apply find_some in H; apply F, H).
    split; [apply table_nodup; constructor|]. split; [|split].
    - intros d a H. rewrite get_table in H. cbn [get] in H. destruct (find (fun p => eqb (key p) d) defs) as [p|] eqn:X; [|discriminate].
      injection H as <-. exists p. split; [apply first_find; assumption | eapply V, X].
    - intros d p H. apply first_find in H; [|exact K]. exists (val p). rewrite get_table. cbn [get]. rewrite H. split; [reflexivity | eapply V, H].
    - intros p I. exists (key p). split; [apply K, I|]. rewrite get_table. cbn [get].
      destruct (find (fun q => eqb (key q) (key p)) defs) eqn:X; [discriminate|].
      pose proof (find_none _ _ X p I) as Y. cbn beta in Y. rewrite eqb_false in Y. congruence.
  Qed.
  Lemma fold_table step kids : (forall acc p, rule_of p <> "definition" -> step acc p = Ret acc) -> forall acc,
    (forall acc p, In p (of_rule "definition" kids) -> step acc p = Ret (put_new (key p) (val p) acc)) ->
    ofold step kids acc = Ret (table (of_rule "definition" kids) acc).
  Proof.
    intros O. induction kids as [|p kids IH]; intros acc D; [reflexivity|]. cbn [ofold of_rule] in *.
    destruct (string_dec (rule_of p) "definition") as [E|E].
    - rewrite D by (left; reflexivity). walk. apply IH. intros acc' q I. apply D. right. exact I.
    - rewrite O by exact E. walk. apply IH, D.
  Qed.
End Table.

Ltac rules := repeat match goal with B : born _ _ _ _ |- _ => apply born_rule in B end.

(** ** Airlines *)
Lemma airlines_kids t kids : parsed icao_airlines_grammar "airlines" t kids ->
  exists ds, kids = ds ++ [T "EOI" [] []] /\ Forall (born icao_airlines_grammar NonAtomic "definition") ds.
Proof.
  intros P. apply parsed_born in P. kids P as K.
  apply shape_plus in K0; [|reflexivity]. destruct K0 as [l [_ [-> F]]]. exists (List.concat l). split; [reflexivity|].
  apply Forall_flat. eapply Forall_impl; [|exact F]. intros u U. rewrite shape_Alt in U. destruct U as [U|U]; [left; exact U|].
  shp U. right. eauto.
Qed.
(** [opened B]: the pair of [B] becomes a tree with known rules *)
Ltac opened B K := let p := match type of B with born _ _ _ ?p => p end in
  kids B as K; apply born_rule in B; rules; destruct p; cbn [kids_of rule_of] in *; subst;
  repeat match goal with R : rule_of ?x = _ |- _ => is_var x; destruct x; cbn [rule_of] in R; subst end.
Definition rd (n : string) (p : tree) : text := match texts n p with s :: _ => s | [] => [] end.
Definition rd2 (n : string) (p : tree) : text := match texts n p with _ :: s :: _ => s | _ => [] end.

Definition airline_val (p : tree) : airline := mkAirline (rd "designator" p) (rd "name" p) (rd "callsign" p) (rd "country" p).
Lemma airline_pair_ok p : born icao_airlines_grammar NonAtomic "definition" p ->
  airline_pair p = Ret (airline_val p) /\ field "designator" p (rd "designator" p) /\ reads_airline p (airline_val p).
Proof.
  intros P. opened P K. repeat split.
Qed.
Lemma airlines_pairs_ok ds : Forall (born icao_airlines_grammar NonAtomic "definition") ds ->
  airlines_pairs (ds ++ [T "EOI" [] []]) = Ret (map airline_val ds) /\ of_rule "definition" (ds ++ [T "EOI" [] []]) = ds.
Proof.
  induction 1 as [|p ds B _ [IH1 IH2]]; [split; reflexivity|]. cbn [app airlines_pairs of_rule map].
  destruct (airline_pair_ok p B) as [E _]. apply born_rule in B. unfold is_rule. rewrite B, E, IH1, IH2. cbn [eqb]. 
  split; [rewrite eqb_refl; reflexivity|]. destruct (string_dec "definition" "definition") as [_|X]; [reflexivity | contradiction X; reflexivity].
Qed.
Lemma airlines_ok t kids : parsed icao_airlines_grammar "airlines" t kids ->
  exists m, parse_airlines t = Ret m /\ first_definitions reads_airline (of_rule "definition" kids) m.
Proof.
  intros P. destruct (top_cases 7 "icao_airlines" icao_airlines_grammar "airlines" eq_refl ltac:(eexists; reflexivity) t) as [[kids' [P' E]]|[U _]];
    [|contradiction (parsed_not _ _ _ _ P U)].
  pose proof (parsed_det _ _ _ _ _ P P') as <-. destruct (airlines_kids t kids P) as [ds [-> F]]. destruct (airlines_pairs_ok ds F) as [E1 E2].
  unfold parse_airlines. rewrite E. walk. rewrite E1, E2. walk. exists (table (rd "designator") airline_val ds []). split.
  - unfold table. f_equal. generalize (@nil (text * airline)). clear. induction ds as [|p ds IH]; intros acc; [reflexivity|]. apply IH.
  - apply table_first. eapply Forall_impl; [|exact F]. intros p B. apply airline_pair_ok, B.
Qed.
Lemma airlines_err t : unparsed icao_airlines_grammar "airlines" t -> parse_airlines t = Err.
Proof.
  intros U. destruct (top_cases 7 "icao_airlines" icao_airlines_grammar "airlines" eq_refl ltac:(eexists; reflexivity) t) as [[kids' [P' _]]|[_ E]];
    [contradiction (parsed_not _ _ _ _ P' U)|]. unfold parse_airlines. rewrite E. reflexivity.
Qed.

(** ** The other tables *)
Section Tables.
  Context {A : Type} (i : nat) (name : string) (g : grammar) (start : string) (parse : text -> outcome (list (text * A)))
    (step : list (text * A) -> tree -> outcome (list (text * A))) (val : tree -> A) (reads : tree -> A -> Prop).
  Hypothesis known : nth_error formats i = Some (name, g, start).
  Hypothesis normal_start : exists e, get start g = Some (KNormal, e).
  Hypothesis parse_eq : forall t, parse t = do kids <- top g start t; ofold step kids [].
  Hypothesis step_other : forall acc p, rule_of p <> "definition" -> step acc p = Ret acc.
  Hypothesis kids_born : forall t kids, parsed g start t kids -> Forall (born g NonAtomic "definition") (of_rule "definition" kids).
  Hypothesis step_def : forall acc p, born g NonAtomic "definition" p -> step acc p = Ret (put_new (rd "designator" p) (val p) acc).
  Hypothesis reads_def : forall p, born g NonAtomic "definition" p -> field "designator" p (rd "designator" p) /\ reads p (val p).

  Lemma tables_ok t kids : parsed g start t kids -> exists m, parse t = Ret m /\ first_definitions reads (of_rule "definition" kids) m.
  Proof.
    intros P. destruct (top_cases i name g start known normal_start t) as [[kids' [P' E]]|[U _]]; [|contradiction (parsed_not _ _ _ _ P U)].
    pose proof (parsed_det _ _ _ _ _ P P') as <-. pose proof (kids_born t kids P) as F.
    exists (table (rd "designator") val (of_rule "definition" kids) []). split.
    - rewrite parse_eq, E. walk. apply fold_table; [exact step_other|]. intros acc p I. apply step_def. rewrite Forall_forall in F. apply F, I.
    - apply table_first. eapply Forall_impl; [|exact F]. exact reads_def.
  Qed.
  Lemma tables_err t : unparsed g start t -> parse t = Err.
  Proof.
    intros U. destruct (top_cases i name g start known normal_start t) as [[kids' [P' _]]|[_ E]]; [contradiction (parsed_not _ _ _ _ P' U)|].
    rewrite parse_eq, E. reflexivity.
  Qed.
End Tables.
Lemma rule_eqb p n : eqb (rule_of p) n = true <-> rule_of p = n.
Proof. apply eqb_true. Qed.
Lemma other_rule p n : rule_of p <> n -> is_rule p n = false.
Proof. intros H. unfold is_rule. apply eqb_false, H. Qed.
Lemma same_rule p n : rule_of p = n -> is_rule p n = true.
Proof. intros H. unfold is_rule. apply eqb_true, H. Qed.
Lemma of_rule_all n ts : Forall (fun t => rule_of t = n) ts -> of_rule n ts = ts.
Proof.
  induction 1 as [|t ts E _ IH]; [reflexivity|]. cbn [of_rule]. rewrite IH. destruct (string_dec (rule_of t) n); congruence.
Qed.

Lemma airports_kids t kids : parsed icao_airports_grammar "aircraft" t kids ->
  Forall (born icao_airports_grammar NonAtomic "definition") (of_rule "definition" kids).
Proof.
  intros P. apply parsed_born in P. kids P as K.
  apply shape_plus in K0; [|reflexivity]. destruct K0 as [l [_ [-> F]]]. rewrite of_rule_app. cbn [of_rule rule_of string_dec]. cbn. rewrite app_nil_r.
  assert (F' : Forall (born icao_airports_grammar NonAtomic "definition") (List.concat l)).
  { apply Forall_flat. eapply Forall_impl; [|exact F]. intros u U. rewrite shape_Alt in U. destruct U as [U|U]; [left; exact U|].
    shp U. right. eauto. }
  rewrite of_rule_all; [exact F'|]. eapply Forall_impl; [|exact F']. intros p B. apply born_rule in B. exact B.
Qed.
Definition airport_val (p : tree) : icao_airport := mkIcaoAirport (rd "designator" p) (rd "name" p) (rd "country" p).
Lemma airport_pair_ok p : born icao_airports_grammar NonAtomic "definition" p ->
  (forall acc, airport_pair acc p = Ret (put_new (rd "designator" p) (airport_val p) acc)) /\ field "designator" p (rd "designator" p) /\ reads_airport p (airport_val p).
Proof. intros P. opened P K. repeat split. Qed.
Lemma airports_ok t kids : parsed icao_airports_grammar "aircraft" t kids ->
  exists m, parse_airports t = Ret m /\ first_definitions reads_airport (of_rule "definition" kids) m.
Proof.
  apply (tables_ok 8 "icao_airports" icao_airports_grammar "aircraft" parse_airports airport_pair airport_val).
  - reflexivity.
  - eexists. reflexivity.
  - reflexivity.
  - intros acc p R. unfold airport_pair. rewrite other_rule by exact R. reflexivity.
  - exact airports_kids.
  - intros acc p B. apply airport_pair_ok, B.
  - intros p B. apply airport_pair_ok, B.
Qed.
Lemma airports_err t : unparsed icao_airports_grammar "aircraft" t -> parse_airports t = Err.
Proof.
  apply (tables_err 8 "icao_airports" icao_airports_grammar "aircraft" parse_airports airport_pair); [reflexivity | eexists; reflexivity | reflexivity].
Qed.

Lemma navdata_kids t kids : parsed navdata_grammar "airports" t kids ->
  Forall (born navdata_grammar NonAtomic "definition") (of_rule "definition" kids).
Proof.
  intros P. apply parsed_born in P. kids P as K.
  apply shape_star in K0; [|reflexivity]. destruct K0 as [l [-> F]]. rewrite of_rule_app. cbn [of_rule rule_of string_dec]. cbn. rewrite app_nil_r.
  assert (F' : Forall (born navdata_grammar NonAtomic "definition") (List.concat l)).
  { apply Forall_flat. eapply Forall_impl; [|exact F]. intros u U. rewrite shape_Alt in U. destruct U as [U|U]; [left; exact U|].
    shp U. right. eauto. }
  rewrite of_rule_all; [exact F'|]. eapply Forall_impl; [|exact F']. intros p B. apply born_rule in B. exact B.
Qed.
Definition num (s : text) : f64 := match parse_f64 s with Some x => x | None => S754_nan end.
Definition navdata_val (p : tree) : navdata_airport := mkNavdata (rd "designator" p) (rd "name" p) (num (rd2 "decimal" p), num (rd "decimal" p)).
Lemma navdata_pair_ok p : born navdata_grammar NonAtomic "definition" p ->
  (forall acc, navdata_pair acc p = Ret (put_new (rd "designator" p) (navdata_val p) acc)) /\ field "designator" p (rd "designator" p) /\ reads_navdata p (navdata_val p).
Proof.
  intros P. kids P as K. apply born_rule in P.
  pose proof (born_decimal navdata_grammar eq_refl eq_refl _ K1) as N1. pose proof (born_decimal navdata_grammar eq_refl eq_refl _ K2) as N2.
  apply numeral_f64 in N1, N2. destruct N1 as [x1 E1], N2 as [x2 E2]. rules.
  destruct p as [n s k], t as [n1 s1 k1], t0 as [n2 s2 k2], t1 as [n3 s3 k3], t2 as [n4 s4 k4]. cbn [rule_of text_of kids_of] in *. subst.
  assert (V : navdata_val (T "definition" s [T "designator" s1 k1; T "decimal" s2 k2; T "decimal" s3 k3; T "name" s4 k4]) = mkNavdata s1 s4 (x2, x1)).
  { unfold navdata_val, num, rd, rd2. cbn. rewrite E1, E2. reflexivity. }
  split; [|split; [reflexivity|]].
  - intros acc. rewrite V. unfold navdata_pair. cbn [is_rule rule_of kids_of]. cbn [next obind text_of]. rewrite E1, E2. reflexivity.
  - rewrite V. split; [reflexivity|]. split; [reflexivity|]. exists s2, s3. auto.
Qed.
Lemma navdata_ok t kids : parsed navdata_grammar "airports" t kids ->
  exists m, parse_navdata_airports t = Ret m /\ first_definitions reads_navdata (of_rule "definition" kids) m.
Proof.
  apply (tables_ok 9 "navdata_airports" navdata_grammar "airports" parse_navdata_airports navdata_pair navdata_val).
  - reflexivity.
  - eexists. reflexivity.
  - reflexivity.
  - intros acc p R. unfold navdata_pair. rewrite other_rule by exact R. reflexivity.
  - exact navdata_kids.
  - intros acc p B. apply navdata_pair_ok, B.
  - intros p B. apply navdata_pair_ok, B.
Qed.
Lemma navdata_err t : unparsed navdata_grammar "airports" t -> parse_navdata_airports t = Err.
Proof.
  apply (tables_err 9 "navdata_airports" navdata_grammar "airports" parse_navdata_airports navdata_pair); [reflexivity | eexists; reflexivity | reflexivity].
Qed.

(** ** Aircraft *)
Lemma aircraft_kids t kids : parsed icao_aircraft_grammar "aircraft" t kids ->
  Forall (born icao_aircraft_grammar NonAtomic "definition") (of_rule "definition" kids).
Proof.
  intros P. apply parsed_born in P. kids P as K.
  apply shape_plus in K0; [|reflexivity]. destruct K0 as [l [_ [-> F]]]. rewrite of_rule_app. cbn [of_rule rule_of string_dec]. cbn. rewrite app_nil_r.
  assert (F' : Forall (fun p => born icao_aircraft_grammar NonAtomic "definition" p \/ rule_of p = "continued_name") (List.concat l)).
  { apply Forall_flat. eapply Forall_impl; [|exact F]. intros u U. rewrite !shape_Alt in U. destruct U as [U|[U|U]]; [left; exact U|..];
    shp U; right; [|apply born_rule in U]; eauto. }
  rewrite Forall_forall in *. intros p I. apply In_of_rule in I. destruct I as [I R]. destruct (F' p I) as [B|R']; [exact B | congruence].
Qed.
Lemma letter_cases g (Q : tacit g = true) n e t : born g NonAtomic n t -> get n g = Some (KAtomic, e) -> exists r, yes g Atomic e (text_of t) r (kids_of t).
Proof. intros B G. exact (born_yes g Q _ _ _ B _ _ G ltac:(discriminate) ltac:(discriminate)). Qed.
Lemma wtc_letter t : born icao_aircraft_grammar NonAtomic "wtc" t -> exists w, wtc_of (text_of t) = Some w /\ In (text_of t, w) wtc_letters.
Proof.
  intros B. destruct (letter_cases icao_aircraft_grammar eq_refl _ _ _ B eq_refl) as [r Y]. cbn [yes] in Y.
  repeat (destruct Y as [[-> _]|[_ Y]]; [eexists; split; [reflexivity | cbn; tauto]|]).
  destruct Y as [-> _]. eexists; split; [reflexivity | cbn; tauto].
Qed.
Lemma type_letter t : born icao_aircraft_grammar NonAtomic "aircrafttype" t -> exists w, aircraft_type_of (text_of t) = Some w /\ In (text_of t, w) type_letters.
Proof.
  intros B. destruct (letter_cases icao_aircraft_grammar eq_refl _ _ _ B eq_refl) as [r Y]. cbn [yes] in Y.
  repeat (destruct Y as [[-> _]|[_ Y]]; [eexists; split; [reflexivity | cbn; tauto]|]).
  destruct Y as [-> _]. eexists; split; [reflexivity | cbn; tauto].
Qed.
Lemma engine_letter t : born icao_aircraft_grammar NonAtomic "enginetype" t -> exists w, engine_type_of (text_of t) = Some w /\ In (text_of t, w) engine_letters.
Proof.
  intros B. destruct (letter_cases icao_aircraft_grammar eq_refl _ _ _ B eq_refl) as [r Y]. cbn [yes] in Y.
  repeat (destruct Y as [[-> _]|[_ Y]]; [eexists; split; [reflexivity | cbn; tauto]|]).
  destruct Y as [-> _]. eexists; split; [reflexivity | cbn; tauto].
Qed.
Definition engine_count (s : text) : N := match parse_u8 s with Some n => n | None => 0%N end.
Lemma engine_count_ok t : born icao_aircraft_grammar NonAtomic "num_engines" t -> engines_of (text_of t) (engine_count (text_of t)).
Proof.
  intros B. destruct (letter_cases icao_aircraft_grammar eq_refl _ _ _ B eq_refl) as [r Y]. cbn [yes] in Y.
  assert (X : exists c, text_of t = [c]).
  { destruct Y as [[x [-> _]]|[_ [[-> _]|[_ [-> _]]]]]; eexists; reflexivity. }
  destruct X as [c ->]. destruct (is_digit c) eqn:D.
  - left. exists c. split; [reflexivity|]. unfold is_digit in D. split; [lia|].
    assert (C : (c = 48 \/ c = 49 \/ c = 50 \/ c = 51 \/ c = 52 \/ c = 53 \/ c = 54 \/ c = 55 \/ c = 56 \/ c = 57)%N) by lia.
    destruct C as [->|[->|[->|[->|[->|[->|[->|[->|[->| ->]]]]]]]]]; reflexivity.
  - right. split; [intros [x [E R]]; injection E as ->; unfold is_digit in D; lia|].
    unfold engine_count, parse_u8, parse_uint. destruct (c =? 43)%N; [reflexivity|]. cbn [digits1_val digits_val].
    assert (V : digit_val 10 c = None).
    { unfold digit_val. rewrite D. destruct (is_upper c) eqn:U.
      - replace (c - 55 <? 10)%N with false; [reflexivity|]. unfold is_upper in U. lia.
      - destruct (is_lower c) eqn:L; [|reflexivity]. replace (c - 87 <? 10)%N with false; [reflexivity|]. unfold is_lower in L. lia. }
    rewrite V. reflexivity.
Qed.
Definition some {A} (o : option A) (a : A) : A := match o with Some x => x | None => a end.
Definition aircraft_val (p : tree) : aircraft :=
  mkAircraft (rd "designator" p) (some (wtc_of (rd "wtc" p)) WtcUnknown) (some (aircraft_type_of (rd "aircrafttype" p)) UnknownType)
    (engine_count (rd "num_engines" p)) (some (engine_type_of (rd "enginetype" p)) UnknownEngine) (rd "manufacturer" p) (rd "name" p).
Lemma aircraft_pair_ok p : born icao_aircraft_grammar NonAtomic "definition" p ->
  (forall acc, aircraft_pair acc p = Ret (put_new (rd "designator" p) (aircraft_val p) acc)) /\ field "designator" p (rd "designator" p) /\ reads_aircraft p (aircraft_val p).
Proof.
  intros P. kids P as K. apply born_rule in P.
  pose proof (wtc_letter _ K1) as [w [W1 W2]]. pose proof (type_letter _ K2) as [ty [T1 T2]]. pose proof (engine_count_ok _ K3) as N1.
  pose proof (engine_letter _ K4) as [en [E1 E2]]. rules.
  destruct p as [n s k], t as [n0 s0 k0], t0 as [n1 s1 k1], t1 as [n2 s2 k2], t2 as [n3 s3 k3], t3 as [n4 s4 k4], t4 as [n5 s5 k5], t5 as [n6 s6 k6].
  cbn [rule_of text_of kids_of] in *. subst.
  match goal with |- context [aircraft_val ?p] => assert (V : aircraft_val p = mkAircraft s0 w ty (engine_count s3) en s5 s6) end.
  { unfold aircraft_val, some. cbn. rewrite W1, T1, E1. reflexivity. }
  rewrite V. split; [|split; [reflexivity|]].
  - intros acc. unfold aircraft_pair. cbn [is_rule rule_of kids_of]. cbn [next obind text_of]. rewrite W1, T1. cbn. rewrite E1. reflexivity.
  - split; [reflexivity|]. split; [reflexivity|]. split; [reflexivity|]. split; [exists s1; split; [reflexivity | exact W2]|].
    split; [exists s2; split; [reflexivity | exact T2]|]. split; [exists s4; split; [reflexivity | exact E2]|].
    exists s3. split; [reflexivity | exact N1].
Qed.
Lemma aircraft_ok t kids : parsed icao_aircraft_grammar "aircraft" t kids ->
  exists m, parse_aircraft t = Ret m /\ first_definitions reads_aircraft (of_rule "definition" kids) m.
Proof.
  apply (tables_ok 6 "icao_aircraft" icao_aircraft_grammar "aircraft" parse_aircraft aircraft_pair aircraft_val).
  - reflexivity.
  - eexists. reflexivity.
  - reflexivity.
  - intros acc p R. unfold aircraft_pair. rewrite other_rule by exact R. reflexivity.
  - exact aircraft_kids.
  - intros acc p B. apply aircraft_pair_ok, B.
  - intros p B. apply aircraft_pair_ok, B.
Qed.
Lemma aircraft_err t : unparsed icao_aircraft_grammar "aircraft" t -> parse_aircraft t = Err.
Proof.
  apply (tables_err 6 "icao_aircraft" icao_aircraft_grammar "aircraft" parse_aircraft aircraft_pair); [reflexivity | eexists; reflexivity | reflexivity].
Qed.
Lemma letters_exact s :
  (forall w, wtc_of s = Some w <-> In (s, w) wtc_letters) /\ (forall w, aircraft_type_of s = Some w <-> In (s, w) type_letters) /\
  (forall w, engine_type_of s = Some w <-> In (s, w) engine_letters).
Proof.
  assert (X : forall A (o : option A) l, (forall w, In (s, w) l -> o = Some w) -> (forall w, o = Some w -> In (s, w) l) -> forall w, o = Some w <-> In (s, w) l)
    by (intros; split; auto).
  split; [|split]; apply X; intros w H.
  1,3,5: cbn [wtc_letters type_letters engine_letters In] in H;
    repeat (destruct H as [H|H]; [injection H as <- <-; reflexivity|]); contradiction.
  all: unfold wtc_of, aircraft_type_of, engine_type_of in H;
    repeat match type of H with context [eqb ?x ?c] => let E := fresh in destruct (eqb x c) eqn:E; [rewrite eqb_true in E; subst; injection H as <-; cbn; tauto|] end;
    discriminate.
Qed.
