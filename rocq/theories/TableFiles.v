(** Airlines, airports, aircraft types and navdata airports from their text (C79). *)
From Coq Require Import ZifyBool ZifyN ZifyNat.
From Verif Require Import Base Unicode Num Float FloatParse Peg Grammars SpecPeg PegProofs PegLang PegForward PegSkip Trees
  SpecText TextProofs SpecFields FileForward Icao SpecIcao SpecTableText TableText.
Local Open Scope string_scope.
Local Open Scope list_scope.

Lemma cells_cons w v l : cells w (v :: l) = w ++ tab ++ cells v l.
Proof. unfold cells. cbn [map List.concat]. rewrite <- app_assoc. reflexivity. Qed.
Lemma cells_nil w : cells w [] = w.
Proof. apply app_nil_r. Qed.
Lemma tab_icao c : icao_space c = true -> c = 32%N.
Proof. unfold icao_space. lia. Qed.
Lemma first_put_new {A} (l : list (text * A)) : forall m d, get d (fold_left (fun m x => put_new (fst x) (snd x) m) l m) = match get d m with Some a => Some a | None => get d l end.
Proof.
  induction l as [|[k a] l IH]; intros m d; cbn [fold_left fst snd get]; [destruct (get d m); reflexivity|].
  rewrite IH. unfold put_new. destruct (eq_dec d k) as [->|D].
  - destruct (get k m) as [b|] eqn:E; [rewrite E; reflexivity|]. rewrite get_put_same. reflexivity.
  - destruct (get k m) as [b|] eqn:E; [reflexivity|]. rewrite get_put_other by congruence. reflexivity.
Qed.

(** ** Airlines *)
Section Airlines.
Notation G := icao_airlines_grammar.
Lemma tabs_airlines c : sp (g := G) c = true -> c = 32%N.
Proof. exact (tab_icao c). Qed.
Lemma upper_plain c : is_upper c = true -> opening G c /\ is_nl c = false /\ is_blank c = false.
Proof. unfold is_upper. intros H. split; [apply (opening_plain G); unfold is_blank; lia | unfold is_nl, is_blank; lia]. Qed.
Definition airline_tree (a : airline) (tr : tree) : Prop := exists c, tr = T "definition" c [T "designator" (al_designator a) []; T "name" (al_name a) []; T "callsign" (al_callsign a) []; T "country" (al_country a) []].
Lemma airline_line nx a : good_airline a -> reads_at G nx (before G nx) (&"COMMENT" // &"definition") (airline_text a) (fun ts => exists tr, ts = [tr] /\ airline_tree a tr).
Proof.
  intros [LN [UP [C1 [C2 C3]]]]. unfold airline_text. rewrite !cells_cons, cells_nil.
  destruct (al_designator a) as [|d1 [|d2 [|d3 [|]]]] eqn:ED; try discriminate LN. inversion UP as [|? ? U1 UP1]; subst. inversion UP1 as [|? ? U2 UP2]; subst. inversion UP2 as [|? ? U3 _]; subst.
  apply reads_alt2.
  { intros R N LR. apply remark_ko; [reflexivity|]. intros h r' I E. eapply (proj2 (opens_firm G d1 _ (proj1 (upper_plain d1 U1)))); [exact I | exact E]. }
  eapply reads_call; [reflexivity | reflexivity| |].
  - eapply reads_seq with (t1 := [T "designator" [d1; d2; d3] []]).
    + intros R N t LR. eapply (tok G NonAtomic "designator" _ [d1; d2; d3]); [discriminate | reflexivity|].
      apply (ok_seq_at G Atomic _ _ [d1] [d2; d3] _ [] []); [discriminate | apply ok_sat, U1|].
      apply (ok_seq_at G Atomic _ _ [d2] [d3] _ [] []); [discriminate | apply ok_sat, U2 | apply ok_sat, U3].
    + apply (bound_opens G tabs_airlines), bound_tab.
    + apply tab_seq; [apply (cell_opens G tabs_airlines); [exact C1 | apply bound_tab]|].
      apply (cell_seq G tabs_airlines eq_refl); [reflexivity | exact C1 | apply bound_tab|].
      apply tab_seq; [apply (cell_opens G tabs_airlines); [exact C2 | apply bound_tab]|].
      apply (cell_seq G tabs_airlines eq_refl); [reflexivity | exact C2 | apply bound_tab|].
      apply tab_seq; [rewrite <- (app_nil_r (al_country a)); apply (cell_opens G tabs_airlines); [exact C3 | left; reflexivity]|].
      apply (cell_end G tabs_airlines eq_refl); [reflexivity | exact C3].
  - intros c ts [t1 [-> [t2 [-> [t3 [-> <-]]]]]]. eexists. split; [reflexivity|]. exists c. rewrite ED. reflexivity.
Qed.
Lemma airlines_text_reads ls t : ls <> [] -> Forall good_airline ls -> layout icao_space remarks (map airline_text ls) t ->
  exists m, parse_airlines t = Ret m /\ first_counts (map (fun a => (al_designator a, a)) ls) m.
Proof.
  intros NE GD [k [b [t' [-> [K [B LD]]]]]].
  assert (CT : Forall (fun a => content G (airline_text a)) ls).
  { eapply Forall_impl; [|exact GD]. intros a [LN [UP _]]. unfold airline_text. destruct (al_designator a) as [|d1 w]; [discriminate LN|]. inversion UP as [|? ? U1 _]; subst.
    eexists d1, _. split; [reflexivity|]. apply upper_plain, U1. }
  destruct (table_run G (&"COMMENT" // &"definition") airline_text airline_tree ls t') as [trs [RN FQ]]; [exact CT | |exact LD| |].
  - eapply Forall_impl; [|exact GD]. intros a H nx. apply airline_line, H.
  - apply ko_alt; [apply remark_ko; [reflexivity|]; intros h r' [<-|[<-|[]]]; discriminate|]. eapply ko_call; [reflexivity|]. apply ko_seq1. eapply ko_call; [reflexivity|]. apply ko_seq1, ko_sat. exact I.
  - unfold parse_airlines. rewrite (file_plus G "airlines" (&"COMMENT" // &"definition") (k ++ b ++ t') t' trs); [|reflexivity|reflexivity|vm_compute; reflexivity|exists k, b; auto| | |exact RN].
    + cbn [obind]. assert (E : airlines_pairs (trs ++ [T "EOI" [] []]) = Ret ls).
      { clear - FQ. induction FQ as [|a tr ls trs [c ->] _ IH]; [reflexivity|]. cbn [app airlines_pairs]. change (is_rule (T "definition" c _) "definition") with true. cbv iota.
        destruct a as [d n cs co]. unfold airline_pair. cbn [kids_of inner next obind is_rule text_of al_designator al_name al_callsign al_country]. cbn. rewrite IH. reflexivity. }
      rewrite E. cbn [obind]. eexists. split; [reflexivity|]. intros d.
      pose proof (first_put_new (map (fun a => (al_designator a, a)) ls) [] d) as X. cbn [get] in X. rewrite <- X. clear. f_equal. generalize (@nil (text * airline)). induction ls as [|a ls IH]; intros m; [reflexivity | apply IH].
    + eapply laid_firmer; [|exact LD]. apply Forall_map, CT.
    + destruct ls as [|a ls]; [congruence|]. inversion LD as [|l ls' bb nl kk b' tt]; subst. inversion CT as [|? ? [c [v [E _]]] _]; subst. rewrite E. discriminate.
Qed.
End Airlines.

Lemma alnum_one g a : one g a (LETTER // ASCII_DIGIT) alphanumeric.
Proof. apply one_alt; apply one_sat. Qed.
(** letters are neither white space nor signs *)
Lemma letter_not c : In c [9; 10; 13; 32; 47; 59]%N -> is_letter c = false.
Proof. cbn [In]. intros H. repeat (destruct H as [<-|H]; [vm_compute; reflexivity|]). contradiction. Qed.
Lemma alnum_not c : alphanumeric c = true -> ~ In c [9; 10; 13; 32; 47; 59]%N.
Proof.
  unfold alphanumeric. intros H I. rewrite (letter_not c I) in H. cbn [orb] in H. unfold is_digit in H. cbn [In] in I. lia.
Qed.
Lemma alnum_plain c : alphanumeric c = true -> is_blank c = false /\ is_nl c = false /\ c <> 59%N /\ c <> 47%N.
Proof.
  intros H. apply alnum_not in H. cbn [In] in H. unfold is_blank, is_nl. repeat split; [apply orb_false_iff; split; apply N.eqb_neq | apply orb_false_iff; split; apply N.eqb_neq | |]; intros E; apply H; intuition congruence.
Qed.
Lemma key_content g {L : lined g} w l : key w -> content g (w ++ l).
Proof.
  intros [NE F]. destruct F as [|c w C F]; [congruence|]. destruct (alnum_plain c C) as [A [B [D E]]]. exists c, (w ++ l). repeat (split; [reflexivity|]).
  split; [apply (opening_plain g); assumption | split; assumption].
Qed.
Lemma content_remark g {L : lined g} l R : heads (g := g) = remarks -> get "COMMENT" g = Some (KSilent, comment_body) -> content g l -> ko g NonAtomic &"COMMENT" (l ++ R).
Proof.
  intros HD CM [c [v [-> [O _]]]]. apply remark_ko; [exact CM|]. intros h r' I E. rewrite <- HD in I. exact (proj2 (opens_firm g c (v ++ R) O) h r' I E).
Qed.

(** ** Airports *)
Section Airports.
Notation G := icao_airports_grammar.
Lemma tabs_airports c : sp (g := G) c = true -> c = 32%N.
Proof. exact (tab_icao c). Qed.
Definition airport_tree (a : icao_airport) (tr : tree) : Prop := exists c, tr = T "definition" c [T "designator" (ia_designator a) []; T "name" (ia_name a) []; T "country" (ia_country a) []].
Lemma airport_content a : good_airport a -> content G (airport_text a).
Proof. intros [K _]. apply (key_content G), K. Qed.
Lemma airport_line nx a : good_airport a -> reads_at G nx (before G nx) (&"COMMENT" // &"definition") (airport_text a) (fun ts => exists tr, ts = [tr] /\ airport_tree a tr).
Proof.
  intros H. apply reads_alt2.
  { intros R N LR. apply (content_remark G); [reflexivity | reflexivity | apply airport_content, H]. }
  destruct H as [K [C1 C2]]. unfold airport_text. rewrite !cells_cons, cells_nil.
  eapply reads_call; [reflexivity | reflexivity| |].
  - eapply reads_seq with (t1 := [T "designator" (ia_designator a) []]).
    + intros R N t LR. eapply (tok_plus G NonAtomic "designator" _ alphanumeric); [discriminate | reflexivity | apply alnum_one | apply K | apply K|].
      apply (bound_stops G alphanumeric _ R N t); [apply bound_tab | exact LR|]. intros c C. destruct (alnum_plain c C) as [A [B _]]. auto.
    + apply (bound_opens G tabs_airports), bound_tab.
    + apply tab_seq; [apply (cell_opens G tabs_airports); [exact C1 | apply bound_tab]|].
      apply (cell_seq G tabs_airports eq_refl); [reflexivity | exact C1 | apply bound_tab|].
      apply tab_seq; [rewrite <- (app_nil_r (ia_country a)); apply (cell_opens G tabs_airports); [exact C2 | left; reflexivity]|].
      apply (cell_end G tabs_airports eq_refl); [reflexivity | exact C2].
  - intros c ts [t1 [-> [t2 [-> <-]]]]. eexists. split; [reflexivity|]. exists c. reflexivity.
Qed.
Lemma airports_text_reads ls t : ls <> [] -> Forall good_airport ls -> layout icao_space remarks (map airport_text ls) t ->
  exists m, parse_airports t = Ret m /\ first_counts (map (fun a => (ia_designator a, a)) ls) m.
Proof.
  intros NE GD [k [b [t' [-> [K [B LD]]]]]].
  assert (CT : Forall (fun a => content G (airport_text a)) ls) by (eapply Forall_impl; [|exact GD]; intros a H; apply airport_content, H).
  destruct (table_run G (&"COMMENT" // &"definition") airport_text airport_tree ls t') as [trs [RN FQ]]; [exact CT | |exact LD| |].
  - eapply Forall_impl; [|exact GD]. intros a H nx. apply airport_line, H.
  - apply ko_alt; [apply remark_ko; [reflexivity|]; intros h r' [<-|[<-|[]]]; discriminate|]. eapply ko_call; [reflexivity|]. apply ko_seq1. eapply ko_call; [reflexivity|].
    eapply ko_plus_one; [apply alnum_one | exact I].
  - unfold parse_airports. rewrite (file_plus G "aircraft" (&"COMMENT" // &"definition") (k ++ b ++ t') t' trs); [|reflexivity|reflexivity|vm_compute; reflexivity|exists k, b; auto| | |exact RN].
    + cbn [obind]. assert (E : forall m, ofold airport_pair (trs ++ [T "EOI" [] []]) m = Ret (fold_left (fun m x => put_new (fst x) (snd x) m) (map (fun a => (ia_designator a, a)) ls) m)).
      { clear - FQ. induction FQ as [|a tr ls trs [c ->] _ IH]; intros m; [reflexivity|]. cbn [app ofold map fold_left fst snd].
        destruct a as [d n co]. cbn [ia_designator ia_name ia_country]. rewrite <- IH. reflexivity. }
      rewrite E. eexists. split; [reflexivity|]. intros d. rewrite first_put_new. reflexivity.
    + eapply laid_firmer; [|exact LD]. apply Forall_map, CT.
    + destruct ls as [|a ls]; [congruence|]. inversion LD as [|l ls' bb nl kk b' tt]; subst. inversion CT as [|? ? [c [v [E _]]] _]; subst. rewrite E. discriminate.
Qed.
End Airports.

(** ** Aircraft types *)
Section Aircraft.
Notation G := icao_aircraft_grammar.
Lemma tabs_aircraft c : sp (g := G) c = true -> c = 32%N.
Proof. exact (tab_icao c). Qed.
Notation X := (LETTER // ASCII_DIGIT).
Lemma opt_alnum t : exists p t', t = p ++ t' /\ Forall (fun c => alphanumeric c = true) p /\ ok G Atomic (Opt X) p t' [].
Proof.
  destruct (alnum_one G Atomic) as [O1 O2]. destruct t as [|c t]; [exists [], []; repeat split; [constructor|]; apply ok_opt_no, O2; exact I|].
  destruct (alphanumeric c) eqn:C; [exists [c], t | exists [], (c :: t)]; repeat split; [repeat constructor; exact C | apply ok_opt, O1, C | constructor | apply ok_opt_no, O2, C].
Qed.
Lemma opt_yes c r : alphanumeric c = true -> ok G Atomic (Opt X) [c] r [].
Proof. intros C. apply ok_opt, (proj1 (alnum_one G Atomic)), C. Qed.
Lemma opt_no r : stops alphanumeric r -> ok G Atomic (Opt X) [] r [].
Proof. intros S. apply ok_opt_no, (proj2 (alnum_one G Atomic)), S. Qed.
Lemma seq4 p1 p2 p3 p4 r : ok G Atomic X p1 (p2 ++ p3 ++ p4 ++ r) [] -> ok G Atomic (Opt X) p2 (p3 ++ p4 ++ r) [] -> ok G Atomic (Opt X) p3 (p4 ++ r) [] -> ok G Atomic (Opt X) p4 r [] ->
  ok G Atomic (seq [X; Opt X; Opt X; Opt X]) (p1 ++ p2 ++ p3 ++ p4) r [].
Proof.
  intros H1 H2 H3 H4. apply (ok_seq_at G Atomic _ _ p1 (p2 ++ p3 ++ p4) r [] []); [discriminate | rewrite <- !app_assoc; exact H1|].
  apply (ok_seq_at G Atomic _ _ p2 (p3 ++ p4) r [] []); [discriminate | rewrite <- !app_assoc; exact H2|].
  apply (ok_seq_at G Atomic _ _ p3 p4 r [] []); [discriminate | exact H3 | exact H4].
Qed.
Lemma designator_ok w r : key w -> (List.length w <= 4)%nat -> stops alphanumeric r -> okt G NonAtomic &"designator" (w ++ r) r [T "designator" w []].
Proof.
  intros [NE F] LE S. eapply tok; [discriminate | reflexivity|]. destruct F as [|c1 w C1 F]; [congruence|].
  assert (O1 : forall r, ok G Atomic X [c1] r []) by (intros; apply (proj1 (alnum_one G Atomic)), C1).
  destruct F as [|c2 w C2 F]; [apply (seq4 [c1] [] [] [] r); auto using opt_no|].
  destruct F as [|c3 w C3 F]; [apply (seq4 [c1] [c2] [] [] r); auto using opt_no, opt_yes|].
  destruct F as [|c4 w C4 F]; [apply (seq4 [c1] [c2] [c3] [] r); auto using opt_no, opt_yes|].
  destruct F as [|c5 w C5 F]; [apply (seq4 [c1] [c2] [c3] [c4] r); auto using opt_no, opt_yes|]. cbn in LE. lia.
Qed.
Lemma designator_any t : (exists p t', t = p ++ t' /\ Forall (fun c => alphanumeric c = true) p /\ okt G NonAtomic &"designator" t t' [T "designator" p []]) \/ ko G NonAtomic &"designator" t.
Proof.
  destruct (alnum_one G Atomic) as [O1 O2]. destruct t as [|c t]; [right; eapply ko_call; [reflexivity|]; apply ko_seq1, O2; exact I|].
  destruct (alphanumeric c) eqn:C; [|right; eapply ko_call; [reflexivity|]; apply ko_seq1, O2, C]. left.
  destruct (opt_alnum t) as [p2 [t2 [-> [F2 H2]]]]. destruct (opt_alnum t2) as [p3 [t3 [-> [F3 H3]]]]. destruct (opt_alnum t3) as [p4 [t4 [-> [F4 H4]]]].
  exists ([c] ++ p2 ++ p3 ++ p4), t4. split; [cbn; rewrite <- !app_assoc; reflexivity|]. split; [repeat (apply Forall_app; split); try assumption; repeat constructor; exact C|].
  replace (c :: p2 ++ p3 ++ p4 ++ t4) with (([c] ++ p2 ++ p3 ++ p4) ++ t4) by (cbn; rewrite <- !app_assoc; reflexivity).
  eapply tok; [discriminate | reflexivity|]. apply seq4; try assumption. apply O1, C.
Qed.
Lemma letter_seq nx to n e w l P y : get n G = Some (KAtomic, e) -> (forall r, ok G Atomic e w r []) -> opens G l -> reads_at G nx to y l P -> reads_at G nx to (Call n ~~ y) (w ++ l) (cons_to [T n w []] P).
Proof. intros E O OP H. apply reads_seq; [intros R N t LR; eapply tok; [discriminate | exact E | apply O] | exact OP | exact H]. Qed.
Ltac letters := first [apply ok_alt1, ok_str | apply ok_alt2; [apply ko_str; discriminate | letters] | apply ok_str].
Lemma wtc_ok w x r : In (w, x) wtc_letters -> ok G Atomic (str "L" // str "M" // str "H" // str "J" // str "-") w r [].
Proof. intros H. cbn [wtc_letters In] in H. repeat (destruct H as [H|H]; [injection H as <- _; letters|]). contradiction. Qed.
Lemma type_ok w x r : In (w, x) type_letters -> ok G Atomic (str "L" // str "S" // str "A" // str "G" // str "H" // str "T" // str "-") w r [].
Proof. intros H. cbn [type_letters In] in H. repeat (destruct H as [H|H]; [injection H as <- _; letters|]). contradiction. Qed.
Lemma engine_ok w x r : In (w, x) engine_letters -> ok G Atomic (str "P" // str "T" // str "J" // str "E" // str "R" // str "-") w r [].
Proof. intros H. cbn [engine_letters In] in H. repeat (destruct H as [H|H]; [injection H as <- _; letters|]). contradiction. Qed.
Lemma digit_number c : is_digit c = true -> is_number c = true.
Proof.
  unfold is_digit. intros H. assert (D : In c [48; 49; 50; 51; 52; 53; 54; 55; 56; 57]%N) by (cbn [In]; lia). cbn [In] in D.
  repeat (destruct D as [<-|D]; [vm_compute; reflexivity|]). contradiction.
Qed.
Lemma engines_ok n r : (exists c, n = [c] /\ is_digit c = true) \/ n = s2t "C" \/ n = s2t "-" -> ok G Atomic (NUMBER // str "C" // str "-") n r [].
Proof.
  intros [[c [-> C]]|[-> | ->]]; [apply ok_alt1, ok_sat, digit_number, C | |]; (apply ok_alt2; [apply ko_sat; vm_compute; reflexivity|]); letters.
Qed.
Lemma first_letter {A} (l : list (text * A)) w x : In (w, x) l -> forallb (fun p => match fst p with [c] => negb (existsb (N.eqb c) [9; 32; 47; 59]%N) | _ => false end) l = true -> forall k, opens G (w ++ k).
Proof.
  intros I F k. rewrite forallb_forall in F. specialize (F _ I). cbn [fst] in F. destruct w as [|c [|]]; try discriminate. apply negb_true_iff in F. cbn [existsb] in F.
  apply (opening_plain G); unfold is_blank; lia.
Qed.
Lemma engines_opens n k : (exists c, n = [c] /\ is_digit c = true) \/ n = s2t "C" \/ n = s2t "-" -> opens G (n ++ k).
Proof.
  intros [[c [-> C]]|[-> | ->]]; apply (opening_plain G); unfold is_blank, is_digit in *; try reflexivity; try discriminate; lia.
Qed.
Definition aircraft_tree (l : aircraft_line) (tr : tree) : Prop :=
  match l with
  | Defined d w ty n en m name => exists c, tr = T "definition" c [T "designator" d []; T "wtc" w []; T "aircrafttype" ty []; T "num_engines" n []; T "enginetype" en []; T "manufacturer" m []; T "name" name []]
  | Continued _ => exists c ts, tr = T "continued_name" c ts
  end.
Notation U := (until (TAB // NEWLINE)).
Lemma until_one c r : c <> 9%N -> is_nl c = false -> firm G (c :: r) -> okt G NonAtomic U (c :: r) r [].
Proof.
  intros A B F. apply (okt_seq0 G (Not (TAB // NEWLINE)) ANY (c :: r) (c :: r) r [] []); [|exact F | apply (okt_ok G NonAtomic ANY [c] r), ok_sat; reflexivity].
  apply okt_not, ko_alt; [apply (ko_chr G NonAtomic 9%N); cbn [stops]; lia | apply ko_newline; exact B].
Qed.
Lemma until_end R N t : line_rest G R N t -> ko G NonAtomic U N.
Proof.
  intros [b [nl [k [b' [_ [-> [_ [E _]]]]]]]]. apply ko_seq1. eapply ko_nott. apply okt_alt2; [|apply newline_ok; exact E].
  apply (ko_chr G NonAtomic 9%N). destruct E as [-> | ->]; reflexivity.
Qed.
Definition plain (w : text) : Prop := Forall (fun c => c <> 9%N /\ c <> 10%N /\ c <> 13%N) w /\ forall a b, w <> a ++ s2t ";" ++ b /\ w <> a ++ s2t "//" ++ b.
Lemma plain_tail a b : plain (a ++ b) -> plain b.
Proof.
  intros [F P]. split; [apply Forall_app in F; apply F|]. intros x y. split; intros ->; [apply (proj1 (P (a ++ x) y)) | apply (proj2 (P (a ++ x) y))]; rewrite <- !app_assoc; reflexivity.
Qed.
Lemma plain_firm c w R N t : plain (c :: w) -> icao_space c = false -> line_rest G R N t -> firm G ((c :: w) ++ R).
Proof.
  intros [F P] S LR. split; [exact S|]. intros h r' [<-|[<-|[]]] E; cbn in E.
  - injection E as -> _. apply (proj1 (P [] w)). reflexivity.
  - injection E as -> E. destruct w as [|d w].
    + destruct (rest_hd G R N t LR) as [x [R' [-> H]]]. injection E as -> _. destruct H; discriminate.
    + injection E as -> _. apply (proj2 (P [] w)). reflexivity.
Qed.
(** white space before the next character *)
Lemma plain_next w : plain w -> (forall v' d, w = v' ++ [d] -> is_blank d = false) -> w = [] \/ exists b c v, w = b ++ c :: v /\ Forall (fun c => icao_space c = true) b /\ icao_space c = false.
Proof.
  induction w as [|c w IH]; intros P T; [left; reflexivity|]. right. destruct (icao_space c) eqn:C; [|exists [], c, w; repeat split; [constructor | exact C]].
  destruct IH as [-> |[b [d [v [-> [B D]]]]]].
  - apply (plain_tail [c]), P.
  - intros v' d ->. apply (T (c :: v') d). reflexivity.
  - specialize (T [] c eq_refl). unfold is_blank, icao_space in *. rewrite C in T. discriminate.
  - exists (c :: b), d, v. repeat split; [constructor; assumption | exact D].
Qed.
Lemma continued_run R N t : line_rest G R N t -> forall n c w, (List.length w <= n)%nat -> plain (c :: w) -> icao_space c = false -> (forall v' d, c :: w = v' ++ [d] -> is_blank d = false) -> run G U ((c :: w) ++ R) N [].
Proof.
  intros LR. induction n as [|n IH]; intros c w LE P S T.
  - destruct w; [|cbn in LE; lia]. apply (run_cons G U _ R N N [] []); [|eapply rest_skip, LR | apply run_nil; eapply until_end, LR].
    pose proof P as [F _]. inversion F as [|? ? [A [B C]] _]; subst. apply until_one; [exact A | unfold is_nl; lia | apply (plain_firm c [] R N t P S LR)].
  - pose proof P as [F _]. inversion F as [|? ? [A [B C]] _]; subst.
    assert (O : okt G NonAtomic U ((c :: w) ++ R) (w ++ R) []) by (apply (until_one c (w ++ R)); [exact A | unfold is_nl; lia | apply (plain_firm c w R N t P S LR)]).
    destruct (plain_next w) as [-> |[b [d [v [-> [BL D]]]]]].
    + apply (plain_tail [c]), P.
    + intros v' d ->. apply (T (c :: v') d). reflexivity.
    + apply (run_cons G U _ R N N [] []); [exact O | eapply rest_skip, LR | apply run_nil; eapply until_end, LR].
    + assert (PT : plain (d :: v)) by (apply (plain_tail (c :: b)), P).
      apply (run_cons G U _ ((b ++ d :: v) ++ R) ((d :: v) ++ R) N [] []); [exact O | | apply IH].
      * rewrite <- app_assoc. apply (skip_firm G); [exact BL | apply (plain_firm d v R N t PT D LR)].
      * rewrite app_length in LE. cbn in LE. lia.
      * exact PT.
      * exact D.
      * intros v' x E. apply (T (c :: b ++ v') x). rewrite E. cbn. rewrite <- app_assoc. reflexivity.
Qed.
Lemma no_definition w R N t : plain w -> w <> [] -> (forall v' d, w = v' ++ [d] -> is_blank d = false) -> line_rest G R N t -> ko G NonAtomic &"definition" (w ++ R).
Proof.
  intros P NE T LR. eapply ko_call; [reflexivity|]. change (body_atom "definition" KNormal NonAtomic) with NonAtomic.
  destruct (designator_any (w ++ R)) as [[p [t' [E [F O]]]]|K]; [|apply ko_seq1, K].
  assert (X : exists w', w = p ++ w' /\ t' = w' ++ R).
  { destruct (rest_hd G R N t LR) as [x [R' [-> H]]]. clear - E F H. revert w E. induction F as [|c p C F IH]; intros w E; [exists w; auto|].
    destruct w as [|d w]; [cbn in E; injection E as -> _; destruct (alnum_plain c C) as [A [B _]]; destruct H; congruence|].
    cbn in E. injection E as -> E. destruct (IH w E) as [w' [-> ->]]. exists w'. auto. }
  destruct X as [w' [-> ->]]. destruct (plain_next w') as [-> |[b [d [v [-> [BL D]]]]]].
  - apply (plain_tail p), P.
  - intros v' d ->. apply (T (p ++ v') d). apply app_assoc.
  - eapply ko_seq2; [exact O | eapply rest_skip, LR|]. apply ko_seq1. apply (ko_chr G NonAtomic 9%N).
    destruct LR as [b [nl [k [b' [_ [-> [_ [E' _]]]]]]]]. destruct E' as [-> | ->]; reflexivity.
  - assert (PT : plain (d :: v)) by (apply (plain_tail (p ++ b)); rewrite <- app_assoc; exact P).
    eapply ko_seq2; [exact O | rewrite <- app_assoc; apply (skip_firm G); [exact BL | apply (plain_firm d v R N t PT D LR)]|].
    apply ko_seq1. apply (ko_chr G NonAtomic 9%N). cbn [stops app]. destruct PT as [PF _]. inversion PF as [|? ? [A _] _]; subst. lia.
Qed.
Lemma aircraft_content l o : reads_aircraft_line l o -> content G (aircraft_text l).
Proof.
  destruct l as [d w ty n en m name|w]; cbn [reads_aircraft_line aircraft_text].
  - intros [a [_ [K _]]]. apply (key_content G), K.
  - intros [_ [NE [[[F [T _]] U] _]]]. destruct w as [|c w]; [congruence|]. destruct (U c w eq_refl). inversion F as [|? ? [_ [A B]] _]; subst. exists c, w. split; [reflexivity|].
    split; [apply (opening_plain G); [apply (T c w eq_refl) | assumption | assumption]|]. split; [unfold is_nl; lia | apply (T c w eq_refl)].
Qed.
Lemma aircraft_line_ok nx l o : reads_aircraft_line l o -> reads_at G nx (before G nx) (&"COMMENT" // &"definition" // &"continued_name") (aircraft_text l) (fun ts => exists tr, ts = [tr] /\ aircraft_tree l tr).
Proof.
  intros H. apply reads_alt2.
  { intros R N LR. apply (content_remark G); [reflexivity | reflexivity | eapply aircraft_content, H]. }
  destruct l as [d w ty n en m name|w]; cbn [reads_aircraft_line aircraft_text] in *.
  - destruct H as [a [_ [K [LE [C1 [C2 [_ [W [TY [EN [NE _]]]]]]]]]]]. apply reads_alt1. rewrite !cells_cons, cells_nil. rewrite <- !app_assoc.
    eapply reads_call; [reflexivity | reflexivity| |].
    + eapply reads_seq with (t1 := [T "designator" d []]).
      * intros R N t LR. apply designator_ok; [exact K | exact LE|]. apply (bound_stops G alphanumeric _ R N t); [apply bound_tab | exact LR|]. intros c C. destruct (alnum_plain c C) as [A [B _]]. auto.
      * apply (bound_opens G tabs_aircraft), bound_tab.
      * apply tab_seq; [eapply first_letter; [exact W | reflexivity]|].
        eapply letter_seq; [reflexivity | intros r; eapply wtc_ok, W | eapply first_letter; [exact TY | reflexivity]|].
        eapply letter_seq; [reflexivity | intros r; eapply type_ok, TY | apply engines_opens, NE|].
        eapply letter_seq; [reflexivity | intros r; apply engines_ok, NE | eapply first_letter; [exact EN | reflexivity]|].
        eapply letter_seq; [reflexivity | intros r; eapply engine_ok, EN | apply (bound_opens G tabs_aircraft), bound_tab|].
        apply tab_seq; [apply (cell_opens G tabs_aircraft); [exact C1 | apply bound_tab]|].
        apply (cell_seq G tabs_aircraft eq_refl); [reflexivity | exact C1 | apply bound_tab|].
        apply tab_seq; [rewrite <- (app_nil_r name); apply (cell_opens G tabs_aircraft); [exact C2 | left; reflexivity]|].
        apply (cell_end G tabs_aircraft eq_refl); [reflexivity | exact C2].
    + intros c ts [t1 [-> [t2 [-> [t3 [-> [t4 [-> [t5 [-> [t6 [-> <-]]]]]]]]]]]]. eexists. split; [reflexivity|]. exists c. reflexivity.
  - destruct H as [_ [NE [[[F [T1 T2]] UN] P]]]. assert (PL : plain w) by (split; assumption).
    apply reads_alt2; [intros R N LR; eapply no_definition; eassumption|].
    eapply reads_call; [reflexivity | reflexivity| |].
    + apply (reads_line_opt G nx _ _ (fun _ => True)). intros R N LR. destruct w as [|c w]; [congruence|]. assert (S : icao_space c = false).
      { specialize (T1 c w eq_refl). unfold is_blank in T1. unfold icao_space. lia. }
      pose proof (continued_run R N nx LR (List.length w) c w (le_n _) PL S T2) as RN. remember ((c :: w) ++ R) as tt eqn:ET. inversion RN as [u KU|t0 u t1 r ts1 ts2 O1 S1 R1]; subst.
      * exfalso. destruct LR as [b [nl [k [b' [ER _]]]]].
        apply (f_equal (@List.length _)) in ER. rewrite ?app_length in ER. cbn in ER. rewrite ?app_length in ER. lia.
      * match goal with H : ts1 ++ ts2 = [] |- _ => apply app_eq_nil in H; destruct H as [-> ->] end. destruct (run_plus G U _ u t1 N [] [] O1 S1 R1) as [v [OP SP]]; [apply (skip_none G), (rest_firm G R N nx LR)|].
        exists v, []. split; [exact OP|]. split; [exact SP | exact I].
    + intros c ts _. eexists. split; [reflexivity|]. exists c, ts. reflexivity.
Qed.
Lemma letters_value {A} (f : text -> option A) l w x : In (w, x) l -> map (fun p => f (fst p)) l = map (fun p => Some (snd p)) l -> f w = Some x.
Proof. intros I E. induction l as [|p l IH]; [contradiction|]. cbn [map] in E. injection E as E1 E2. destruct I as [-> |I]; [exact E1 | auto]. Qed.
Lemma engines_value n k : (exists c, n = [c] /\ is_digit c = true) \/ n = s2t "C" \/ n = s2t "-" -> engines_of n k -> match parse_u8 n with Some v => v | None => 0%N end = k.
Proof.
  intros D E. destruct D as [[c [-> C]]|H].
  - destruct E as [[c' [E [R ->]]]|[X _]]; [|contradiction X; exists c; split; [reflexivity | unfold is_digit in C; lia]]. injection E as <-.
    unfold is_digit in C. assert (I : In c [48; 49; 50; 51; 52; 53; 54; 55; 56; 57]%N) by (cbn [In]; lia). cbn [In] in I. repeat (destruct I as [<-|I]; [vm_compute; reflexivity|]). contradiction.
  - destruct E as [[c' [E [R ->]]]|[_ ->]]; [destruct H as [-> | ->]; cbn in E; injection E as <-; lia|]. destruct H as [-> | ->]; vm_compute; reflexivity.
Qed.
Definition values (l : list aircraft_line) (defs : list (text * aircraft)) : Prop := exists os, Forall2 reads_aircraft_line l os /\ defs = List.concat os.
Lemma aircraft_value l o tr m : reads_aircraft_line l o -> aircraft_tree l tr -> aircraft_pair m tr = Ret (fold_left (fun m x => put_new (fst x) (snd x) m) o m).
Proof.
  destruct l as [d w ty n en ma name|w]; cbn [reads_aircraft_line aircraft_tree].
  - intros [a [-> [_ [_ [_ [_ [E1 [W [TY [EN [NE [NV [E2 E3]]]]]]]]]]]]] [c ->]. cbn [fold_left fst snd].
    pose proof (letters_value wtc_of _ _ _ W eq_refl) as V1. pose proof (letters_value aircraft_type_of _ _ _ TY eq_refl) as V2. pose proof (letters_value engine_type_of _ _ _ EN eq_refl) as V3.
    pose proof (engines_value _ _ NE NV) as V4. unfold aircraft_pair. change (is_rule (T "definition" c _) "definition") with true. cbv iota. cbn [kids_of next obind text_of].
    rewrite V1, V2, V3. cbn [unwrap obind]. rewrite V4. destruct a. cbn in *. subst. reflexivity.
  - intros [-> _] [c [ts ->]]. reflexivity.
Qed.
Lemma aircraft_text_reads ls defs t : ls <> [] -> values ls defs -> layout icao_space remarks (map aircraft_text ls) t -> exists m, parse_aircraft t = Ret m /\ first_counts defs m.
Proof.
  intros NE [os [GD ->]] [k [b [t' [-> [K [B LD]]]]]].
  assert (GD' : Forall (fun l => exists o, reads_aircraft_line l o) ls) by (clear - GD; induction GD; constructor; eauto).
  assert (CT : Forall (fun a => content G (aircraft_text a)) ls) by (eapply Forall_impl; [|exact GD']; intros a [o H]; eapply aircraft_content, H).
  destruct (table_run G (&"COMMENT" // &"definition" // &"continued_name") aircraft_text aircraft_tree ls t') as [trs [RN FQ]]; [exact CT | |exact LD| |].
  - eapply Forall_impl; [|exact GD']. intros a [o H] nx. eapply aircraft_line_ok, H.
  - apply ko_alt; [apply remark_ko; [reflexivity|]; intros h r' [<-|[<-|[]]]; discriminate|]. apply ko_alt.
    + eapply ko_call; [reflexivity|]. apply ko_seq1. eapply ko_call; [reflexivity|]. apply ko_seq1. apply (proj2 (alnum_one G Atomic)). exact I.
    + eapply ko_call; [reflexivity|]. apply ko_seq1, ko_seq1. apply (ko_seq0 G (Not (TAB // NEWLINE)) ANY [] [] []); [|apply firm_nil | apply ko_sat; exact I].
      apply okt_not, ko_alt; [apply (ko_chr G NonAtomic 9%N); exact I | apply ko_newline; exact I].
  - unfold parse_aircraft. rewrite (file_plus G "aircraft" (&"COMMENT" // &"definition" // &"continued_name") (k ++ b ++ t') t' trs); [|reflexivity|reflexivity|vm_compute; reflexivity|exists k, b; auto| | |exact RN].
    + cbn [obind]. assert (E : forall m, ofold aircraft_pair (trs ++ [T "EOI" [] []]) m = Ret (fold_left (fun m x => put_new (fst x) (snd x) m) (List.concat os) m)).
      { clear - FQ GD. revert os GD. induction FQ as [|a tr ls trs H _ IH]; intros os GD m; inversion GD as [|? o ? os' R GD']; subst; [reflexivity|]. cbn [app ofold List.concat].
        rewrite (aircraft_value _ _ _ _ R H). cbn [obind]. rewrite (IH os' GD'), fold_left_app. reflexivity. }
      rewrite E. eexists. split; [reflexivity|]. intros d. rewrite first_put_new. reflexivity.
    + eapply laid_firmer; [|exact LD]. apply Forall_map, CT.
    + destruct ls as [|a ls]; [congruence|]. inversion LD as [|l ls' bb nl kk b' tt]; subst. inversion CT as [|? ? [c [v [E _]]] _]; subst. rewrite E. discriminate.
Qed.
End Aircraft.

(** ** Navdata airports *)
Section Navdata.
Notation G := navdata_grammar.
Definition navdata_tree (l : navdata_line) (tr : tree) : Prop :=
  exists c, tr = T "definition" c [T "designator" (n_designator l) []; T "decimal" (n_lat l) []; T "decimal" (n_lon l) []; T "name" (n_name l) []].
Lemma blanks_stop f s l : some_blanks s -> (forall c, f c = true -> is_blank c = false) -> stops f (s ++ l).
Proof. intros [NE F] H. destruct F as [|c s C F]; [congruence|]. cbn [stops app]. destruct (f c) eqn:E; [|reflexivity]. specialize (H c E). unfold navdata_space, is_blank in *. congruence. Qed.
Lemma numeral_firm w l : numeral w -> firm G (w ++ l).
Proof.
  intros [sg [u [-> [SG U]]]]. rewrite <- app_assoc. destruct SG as [->|[->| ->]]; [|apply firm_char; try reflexivity; discriminate..].
  destruct (unsigned_hd u l U) as [c [v [E C]]]. cbn [app]. rewrite E. unfold number_stop, is_digit in C. apply firm_char; unfold is_blank; lia.
Qed.
Lemma navdata_content l a : reads_navdata_line l a -> content G (navdata_text l).
Proof. intros [K _]. unfold navdata_text. destruct (n_space l) as [[s1 s2] s3]. apply (key_content G), K. Qed.
Lemma navdata_line_ok l a nl k b t : reads_navdata_line l a -> eol nl -> voids G k -> spaced G b -> firmer G t ->
  exists v tr, okt G NonAtomic (&"COMMENT" // &"definition") (navdata_text l ++ nl ++ k ++ b ++ t) v [tr] /\ skipped G v t /\ navdata_tree l tr.
Proof.
  intros H E V B F. pose proof (navdata_content l a H) as CT. destruct H as [K [LA [LO [NE [IL [UN [NB [SP _]]]]]]]].
  assert (KC : ko G NonAtomic &"COMMENT" (navdata_text l ++ nl ++ k ++ b ++ t)) by (apply (content_remark G); [reflexivity | reflexivity | exact CT]). revert KC.
  unfold navdata_text. destruct (n_space l) as [[s1 s2] s3]. destruct SP as [S1 [S2 S3]]. rewrite <- !app_assoc. intros KC.
  destruct (nl_ok G nl k b t E V B F) as [v [ON SN]].
  assert (FN : firm G (n_name l ++ nl ++ k ++ b ++ t)).
  { destruct (n_name l) as [|c w] eqn:EN; [congruence|]. destruct (UN c w eq_refl). apply firm_char; [apply (NB c w eq_refl) | assumption | assumption]. }
  destruct (okt_normal G "definition" _ eq_refl eq_refl (n_designator l ++ s1 ++ n_lat l ++ s2 ++ n_lon l ++ s3 ++ n_name l ++ nl ++ k ++ b ++ t) v
    ([T "designator" (n_designator l) []] ++ [T "decimal" (n_lat l) []] ++ [T "decimal" (n_lon l) []] ++ [T "name" (n_name l) []] ++ [])) as [c [_ O]].
  - eapply okt_seq; [eapply (tok_plus G NonAtomic "designator" _ alphanumeric); [discriminate | reflexivity | apply alnum_one | apply K | apply K|]; apply blanks_stop; [exact S1|]; intros c C; apply (alnum_plain c C)| |].
    { apply (skip_firm G); [apply S1 | apply numeral_firm, LA]. }
    eapply okt_seq; [apply (decimal_tok G); [discriminate | reflexivity | exact LA|]; apply blanks_stop; [exact S2|]; unfold number_stop, is_digit, is_blank; lia| |].
    { apply (skip_firm G); [apply S2 | apply numeral_firm, LO]. }
    eapply okt_seq; [apply (decimal_tok G); [discriminate | reflexivity | exact LO|]; apply blanks_stop; [exact S3|]; unfold number_stop, is_digit, is_blank; lia| |].
    { apply (skip_firm G); [apply S3 | exact FN]. }
    eapply (okt_seq G _ _ _ (nl ++ k ++ b ++ t) (nl ++ k ++ b ++ t)); [eapply (tok_plus G NonAtomic "name" _ (fun c => negb (is_nl c))); [discriminate | reflexivity | apply one_not_newline; discriminate | exact NE | eapply Forall_impl; [|exact IL]; intros x [A C]; unfold is_nl; clear - A C; lia|]| |].
    { destruct E as [-> | ->]; reflexivity. }
    { apply (skip_none G), firm_line, E. }
    apply okt_opt, ON.
  - exists v. eexists. split; [apply okt_alt2; [exact KC | exact O]|]. split; [exact SN|]. exists c. reflexivity.
Qed.
Lemma navdata_firmer xs t : Forall (fun x => content G (navdata_text x)) xs -> navdata_laid (map navdata_text xs) t -> firmer G t.
Proof. intros F H. destruct F as [|x xs C F]; inversion H; subst; [apply firmer_nil|]. apply content_firmer, C. Qed.
Lemma navdata_run xs t : Forall (fun x => exists a, reads_navdata_line x a) xs -> navdata_laid (map navdata_text xs) t ->
  exists trs, run G (&"COMMENT" // &"definition") t [] trs /\ Forall2 navdata_tree xs trs.
Proof.
  intros F. revert t. induction F as [|x xs [a X] F IH]; intros t H; cbn [map] in H.
  - inversion H; subst. exists []. split; [|constructor]. apply run_nil, ko_alt; [apply remark_ko; [reflexivity|]; intros h r' [<-|[<-|[]]]; discriminate|].
    eapply ko_call; [reflexivity|]. apply ko_seq1. eapply ko_call; [reflexivity|]. eapply ko_plus_one; [apply alnum_one | exact I].
  - inversion H as [|l ls nl k b u E V B H' E1 E2]; subst. destruct (IH u H') as [trs [RN FQ]].
    destruct (navdata_line_ok x a nl k b u X E V B) as [v [tr [O [S Q]]]].
    + eapply navdata_firmer; [|exact H']. eapply Forall_impl; [|exact F]. intros y [z Y]. eapply navdata_content, Y.
    + exists (tr :: trs). split; [|constructor; assumption]. apply (run_cons G _ _ v u [] [tr] trs); assumption.
Qed.
Lemma navdata_text_reads ls vs t : Forall2 reads_navdata_line ls vs -> navdata_layout (map navdata_text ls) t ->
  exists m, parse_navdata_airports t = Ret m /\ first_counts (map (fun a => (nd_designator a, a)) vs) m.
Proof.
  intros GD [k [b [t' [-> [K [B LD]]]]]]. assert (GD' : Forall (fun l => exists a, reads_navdata_line l a) ls) by (clear - GD; induction GD; constructor; eauto).
  destruct (navdata_run ls t' GD' LD) as [trs [RN FQ]].
  unfold parse_navdata_airports. rewrite (file_star G "airports" (&"COMMENT" // &"definition") (k ++ b ++ t') t' trs); [|reflexivity|reflexivity|vm_compute; reflexivity|exists k, b; auto| |exact RN].
  - cbn [obind]. assert (E : forall m, ofold navdata_pair (trs ++ [T "EOI" [] []]) m = Ret (fold_left (fun m x => put_new (fst x) (snd x) m) (map (fun a => (nd_designator a, a)) vs) m)).
    { clear - FQ GD. revert vs GD. induction FQ as [|l tr ls trs [c ->] _ IH]; intros vs GD m; inversion GD as [|? a ? vs' R GD']; subst; [reflexivity|]. cbn [app ofold map fold_left fst snd].
      destruct R as [_ [_ [_ [_ [_ [_ [_ [_ [E1 [E2 [E3 E4]]]]]]]]]]]. destruct a as [d n [x y]]. cbn [nd_designator nd_name nd_location px py fst snd] in *. subst d n.
      unfold navdata_pair at 1. change (is_rule (T "definition" c _) "definition") with true. cbv iota. cbn [kids_of next obind text_of]. rewrite E3. cbn [unwrap obind next text_of]. rewrite E4. cbn [unwrap obind next text_of].
      apply IH, GD'. }
    rewrite E. eexists. split; [reflexivity|]. intros d. rewrite first_put_new. reflexivity.
  - eapply navdata_firmer; [|exact LD]. eapply Forall_impl; [|exact GD']. intros y [z Y]. eapply navdata_content, Y.
Qed.
End Navdata.
