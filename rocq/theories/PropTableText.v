(** Property theorems: the text of the ICAO tables and of the navdata airports (C79). *)
From Verif Require Import Base Unicode Num Float FloatParse SpecText SpecFields Trees Icao SpecIcao SpecTableText TableFiles.
Local Open Scope string_scope.
Local Open Scope list_scope.

(** A file with lines of airlines is read, whatever spaces, empty lines, remarks and line ends there are, and has for
    each designator the first of its lines. *)
Theorem C79_airlines ls t : ls <> [] -> Forall good_airline ls -> layout icao_space remarks (map airline_text ls) t ->
  exists m, parse_airlines t = Ret m /\ first_counts (map (fun a => (al_designator a, a)) ls) m.
Proof. exact (airlines_text_reads ls t). Qed.
Print Assumptions C79_airlines.
Theorem C79_airports ls t : ls <> [] -> Forall good_airport ls -> layout icao_space remarks (map airport_text ls) t ->
  exists m, parse_airports t = Ret m /\ first_counts (map (fun a => (ia_designator a, a)) ls) m.
Proof. exact (airports_text_reads ls t). Qed.
Print Assumptions C79_airports.
(** Aircraft types by their letters; lines that continue a name are not read. *)
Theorem C79_aircraft ls defs t : ls <> [] -> Forall2 reads_aircraft_line ls defs -> layout icao_space remarks (map aircraft_text ls) t ->
  exists m, parse_aircraft t = Ret m /\ first_counts (List.concat defs) m.
Proof. intros N F L. apply (aircraft_text_reads ls (List.concat defs) t N); [exists defs; auto | exact L]. Qed.
Print Assumptions C79_aircraft.
(** The name of a navdata airport goes to the end of its line. *)
Theorem C79_navdata ls airports t : Forall2 reads_navdata_line ls airports -> navdata_layout (map navdata_text ls) t ->
  exists m, parse_navdata_airports t = Ret m /\ first_counts (map (fun a => (nd_designator a, a)) airports) m.
Proof. exact (navdata_text_reads ls airports t). Qed.
Print Assumptions C79_navdata.

Definition ex_airlines := [mkAirline (s2t "DLH") (s2t "Lufthansa") (s2t "LUFTHANSA") (s2t "Germany"); mkAirline (s2t "DLH") (s2t "Other") [] []].
Definition ex_airports := [mkIcaoAirport (s2t "EDDM") (s2t "Munich") (s2t "Germany")].
Definition ex_aircraft := [Defined (s2t "C08T") (s2t "L") (s2t "L") (s2t "C") (s2t "T") (s2t "SOLOY") (s2t "208 DualPac"); Continued (s2t "Pathfinder/21");
  Defined (s2t "A320") (s2t "M") (s2t "L") (s2t "2") (s2t "J") (s2t "AIRBUS") (s2t "A-320")].
Definition ex_navdata := [mkNavdataLine (s2t "EDDB") (s2t "52.3622470") (s2t "13.5006720") (s2t "BERLIN BRANDENBURG ") (s2t "    ", tab, s2t " ")].
(** lines, white space, ends, lines without content, and the indentation of the next line *)
Fixpoint ex_rows (odd : bool) (ls : list text) : text :=
  match ls with
  | [] => []
  | l :: ls => if odd then l ++ s2t " " ++ [13; 10]%N ++ (s2t " ; remark" ++ [10]%N ++ []) ++ s2t "  " ++ ex_rows false ls else l ++ [] ++ [10]%N ++ [] ++ [] ++ ex_rows true ls
  end.
Definition ex_file (ls : list text) : text := (s2t "// remark" ++ [10]%N ++ []) ++ [] ++ ex_rows true ls.
Definition ex_navdata_file (l : text) : text := [] ++ s2t " " ++ l ++ [10]%N ++ (s2t " ; remark" ++ [10]%N ++ []) ++ [] ++ [].
Definition ex_berlin := Eval vm_compute in
  match parse_f64 (s2t "52.3622470"), parse_f64 (s2t "13.5006720") with
  | Some lat, Some lon => mkNavdata (s2t "EDDB") (s2t "BERLIN BRANDENBURG ") (lon, lat)
  | _, _ => mkNavdata [] [] (f64_of_dec false 0 0, f64_of_dec false 0 0)
  end.
Example C79_nonvacuous :
  (Forall good_airline ex_airlines /\ layout icao_space remarks (map airline_text ex_airlines) (ex_file (map airline_text ex_airlines))) /\
  (Forall good_airport ex_airports /\ layout icao_space remarks (map airport_text ex_airports) (ex_file (map airport_text ex_airports))) /\
  (exists defs, Forall2 reads_aircraft_line ex_aircraft defs /\ List.length (List.concat defs) = 2 /\ layout icao_space remarks (map aircraft_text ex_aircraft) (ex_file (map aircraft_text ex_aircraft))) /\
  (Forall2 reads_navdata_line ex_navdata [ex_berlin] /\ navdata_layout (map navdata_text ex_navdata) (ex_navdata_file (flat_map navdata_text ex_navdata))).
Proof.
  assert (RM : idle icao_space remarks (s2t " ; remark") /\ idle icao_space remarks (s2t "// remark") /\ idle navdata_space remarks (s2t " ; remark")).
  { split; [|split]; right.
    - exists (s2t " "), (s2t ";"), (s2t " remark"). split; [reflexivity|]. split; [repeat constructor|]. split; [cbn; auto | repeat constructor; discriminate].
    - exists [], (s2t "//"), (s2t " remark"). split; [reflexivity|]. split; [constructor|]. split; [cbn; auto | repeat constructor; discriminate].
    - exists (s2t " "), (s2t ";"), (s2t " remark"). split; [reflexivity|]. split; [repeat constructor|]. split; [cbn; auto | repeat constructor; discriminate]. }
  assert (LA : forall ls odd, laid icao_space remarks ls (ex_rows odd ls)).
  { induction ls as [|l ls IH]; intros odd; [constructor|]. destruct odd; cbn [ex_rows].
    - apply laid_cons; [repeat constructor | right; reflexivity | | repeat constructor | apply IH]. apply idles_cons; [apply RM | left; reflexivity | constructor].
    - apply laid_cons; [constructor | left; reflexivity | constructor | constructor | apply IH]. }
  assert (LF : forall ls, layout icao_space remarks ls (ex_file ls)).
  { intros ls. eexists _, _, _. split; [reflexivity|]. split; [apply idles_cons; [apply RM | left; reflexivity | constructor]|]. split; [constructor | apply LA]. }
  assert (W : forall w c v d, w = c :: v -> w = removelast w ++ [d] -> forallb (fun c => negb (existsb (N.eqb c) [9; 10; 13]%N)) w = true -> forallb (fun c => negb (existsb (N.eqb c) [32; 47; 59]%N)) [c; d] = true -> cell w).
  { intros w c v d E1 E2 F1 F2. rewrite forallb_forall in F1, F2.
    assert (P : forall x, In x w -> ~ In x [9; 10; 13]%N). { intros x I Q. specialize (F1 x I). apply negb_true_iff in F1. assert (existsb (N.eqb x) [9; 10; 13]%N = true); [apply existsb_exists; exists x; split; [exact Q | apply N.eqb_refl] | congruence]. }
    assert (Q : forall x, In x [c; d] -> ~ In x [32; 47; 59]%N). { intros x I R. specialize (F2 x I). apply negb_true_iff in F2. assert (existsb (N.eqb x) [32; 47; 59]%N = true); [apply existsb_exists; exists x; split; [exact R | apply N.eqb_refl] | congruence]. }
    assert (B : forall x, In x w -> In x [c; d] -> is_blank x = false). { intros x I J. unfold is_blank. apply orb_false_iff. split; apply N.eqb_neq; intros ->; [apply (Q 32%N J) | apply (P 9%N I)]; cbn; tauto. }
    split; [split; [|split]|].
    - apply Forall_forall. intros x I. specialize (P x I). cbn in P. intuition congruence.
    - intros x u E. rewrite E1 in E. injection E as <- _. apply B; [rewrite E1; left; reflexivity | left; reflexivity].
    - intros u x E. rewrite E2 in E. apply app_inj_tail in E. destruct E as [_ <-]. apply B; [rewrite E2; apply in_or_app; right; left; reflexivity | right; left; reflexivity].
    - intros x u E. rewrite E1 in E. injection E as <- _. specialize (Q c (or_introl eq_refl)). cbn in Q. intuition congruence. }
  assert (W0 : cell []).
  { split; [split; [constructor|split]|]; [intros c v; discriminate | intros v c E; destruct v; discriminate | intros c v; discriminate]. }
  assert (KY : forall w, forallb alphanumeric w = true -> w <> [] -> key w). { intros w F N. split; [exact N|]. apply Forall_forall, forallb_forall, F. }
  assert (DG : forall w, forallb is_digit w = true -> w <> [] -> digits w). { intros w F N. split; [exact N|]. apply Forall_forall, forallb_forall, F. }
  assert (NM : forall a b, forallb is_digit a = true -> forallb is_digit b = true -> a <> [] -> b <> [] -> numeral (a ++ s2t "." ++ b)).
  { intros a b A B NA NB. exists [], (a ++ s2t "." ++ b). split; [reflexivity|]. split; [auto|]. apply numeral_point; [apply (DG a A NA) | apply (DG b B NB)]. }
  split; [split; [|apply LF]|split; [split; [|apply LF]|split]].
  - repeat (apply Forall_cons; [split; [reflexivity|]; split; [repeat constructor|]; split; [|split]; (exact W0 || (eapply W; reflexivity))|]). apply Forall_nil.
  - apply Forall_cons; [|apply Forall_nil]. split; [apply KY; [vm_compute; reflexivity | discriminate]|]. split; eapply W; reflexivity.
  - eexists. split; [|split; [|apply LF]].
    + constructor; [|constructor; [|constructor; [|constructor]]].
      * exists (mkAircraft (s2t "C08T") WtcLight Landplane 0 Turboprop (s2t "SOLOY") (s2t "208 DualPac")). split; [reflexivity|].
        split; [apply KY; [vm_compute; reflexivity | discriminate]|]. split; [repeat constructor|]. split; [eapply W; reflexivity|]. split; [eapply W; reflexivity|].
        split; [reflexivity|]. split; [cbn; tauto|]. split; [cbn; tauto|]. split; [cbn; tauto|]. split; [tauto|]. split; [|split; reflexivity].
        right. split; [|reflexivity]. intros [c [E [A B]]]. cbn in E. injection E as <-. apply B. reflexivity.
      * split; [reflexivity|]. split; [discriminate|]. split; [eapply W; reflexivity|]. intros a b. split; intros E.
        -- assert (I : In 59%N (s2t "Pathfinder/21")) by (rewrite E; apply in_or_app; right; left; reflexivity). cbn in I. repeat (destruct I as [I|I]; [discriminate I|]). contradiction.
        -- change (s2t "Pathfinder/21") with (s2t "Pathfinder" ++ 47%N :: s2t "21") in E.
           assert (O : forall (x y a b : text), ~ In 47%N x -> ~ In 47%N y -> x ++ 47%N :: y <> a ++ 47%N :: 47%N :: b).
           { induction x as [|c x IH]; intros y a' b' NX NY E'.
             - destruct a' as [|d a']; injection E'; intros; subst; apply NY; [left; reflexivity | apply in_or_app; right; left; reflexivity].
             - destruct a' as [|d a']; injection E'; intros; subst; [apply NX; left; reflexivity|]. apply (IH y a' b'); auto. intros I. apply NX. right. exact I. }
           apply (O (s2t "Pathfinder") (s2t "21") a b); [| |exact E]; cbn; intros I; repeat (destruct I as [I|I]; [discriminate I|]); exact I.
      * exists (mkAircraft (s2t "A320") WtcMedium Landplane 2 Jet (s2t "AIRBUS") (s2t "A-320")). split; [reflexivity|].
        split; [apply KY; [vm_compute; reflexivity | discriminate]|]. split; [repeat constructor|]. split; [eapply W; reflexivity|]. split; [eapply W; reflexivity|].
        split; [reflexivity|]. split; [cbn; tauto|]. split; [cbn; tauto|]. split; [cbn; tauto|]. split; [left; exists 50%N; split; reflexivity|]. split; [|split; reflexivity].
        left. exists 50%N. split; [reflexivity|]. split; [split; discriminate | reflexivity].
    + reflexivity.
  - split.
    + constructor; [|constructor]. split; [apply KY; [vm_compute; reflexivity | discriminate]|]. split; [apply (NM (s2t "52") (s2t "3622470")); (reflexivity || discriminate)|].
      split; [apply (NM (s2t "13") (s2t "5006720")); (reflexivity || discriminate)|]. split; [discriminate|]. split; [repeat constructor; discriminate|].
      split; [intros c v E; injection E as <- _; split; discriminate|]. split; [intros c v E; injection E as <- _; reflexivity|].
      split; [repeat split; try discriminate; repeat constructor|]. repeat split; vm_compute; reflexivity.
    + eexists [], (s2t " "), _. split; [reflexivity|]. split; [constructor|]. split; [repeat constructor|].
      apply (navdata_cons _ [] [10]%N (s2t " ; remark" ++ [10]%N ++ []) [] []); [left; reflexivity | apply idles_cons; [apply RM | left; reflexivity | constructor] | constructor | constructor].
Qed.
