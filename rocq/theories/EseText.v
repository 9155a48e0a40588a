(** .ese files that are written line by line are read (C78). *)
From Coq Require Import ZifyBool ZifyN ZifyNat.
From Verif Require Import Base Unicode Num Float FloatParse Dms Sectors Constraints Peg Grammars SpecPeg PegProofs PegLang PegForward PegSkip Trees
  SpecText TextProofs SpecFields FileForward EseParse SpecEseText.
Local Open Scope string_scope.
Local Open Scope list_scope.
Notation G := ese_grammar.

Lemma ws_one a : one G a (Call "WHITESPACE") ese_space.
Proof. apply (one_call G a "WHITESPACE" KSilent SPTAB ese_space eq_refl); [apply one_sptab | exact I]. Qed.
Lemma semi_ko a r : (forall r', r <> s2t ";" ++ r') -> ko G a (Call "COMMENT") r.
Proof. intros H. eapply ko_call; [reflexivity|]. apply ko_seq1, ko_str, H. Qed.
Lemma in_line_nl c : in_line c -> Forall (fun x => negb (is_nl x) = true) c.
Proof. apply Forall_impl. intros x [A B]. unfold is_nl. lia. Qed.
#[export] Instance ese_lined : lined G.
Proof.
  assert (W : get "WHITESPACE" G <> None) by discriminate. assert (D : defined G "WHITESPACE" /\ defined G "COMMENT").
  { split; unfold defined; eapply get_Some_key; reflexivity. }
  refine {| sp := ese_space; heads := [s2t ";"]; lined_breaks := Build_broken G eq_refl |}; try reflexivity.
  - intros b r B S H i k. eapply m_skip; [apply skipped_both; apply D|].
    rewrite <- (app_nil_r b).
    apply (ok_then G NonAtomic (Many (Call "WHITESPACE")) _ b [] r [] []).
    + apply (ok_many_one G NonAtomic _ ese_space b r (ws_one NonAtomic) B S).
    + apply ok_many_nil, ko_then1, semi_ko. intros r'. apply H. left. reflexivity.
  - intros b h c r B [<-|[]] C S i k. eapply m_skip; [apply skipped_both; apply D|].
    assert (F : stops ese_space r /\ forall r', r <> s2t ";" ++ r').
    { split; [|intros r' ->; discriminate S]. destruct r as [|x r]; [exact I|]. cbn [stops] in *. apply negb_false_iff in S. unfold is_nl, ese_space in *. lia. }
    apply (ok_then G NonAtomic (Many (Call "WHITESPACE")) _ b (s2t ";" ++ c) r [] []).
    + apply (ok_many_one G NonAtomic _ ese_space b _ (ws_one NonAtomic) B). reflexivity.
    + rewrite <- (app_nil_r (s2t ";" ++ c)). apply (ok_many_cons G NonAtomic _ (s2t ";" ++ c) [] r [] []); [|apply ok_many_nil, ko_then1, semi_ko, F].
      rewrite <- (app_nil_r (s2t ";" ++ c)). apply (ok_then G NonAtomic _ _ (s2t ";" ++ c) [] r [] []).
      * eapply ok_eq; [eapply ok_call; [reflexivity|]|reflexivity|reflexivity]. change (body_atom "COMMENT" KSilent NonAtomic) with Atomic.
        apply (ok_seq_at G Atomic _ _ (s2t ";") c r [] []); [discriminate | apply ok_str|].
        eapply ok_star_one; [discriminate | apply one_not_newline; discriminate | apply in_line_nl, C | exact S].
      * apply (ok_many_one G NonAtomic _ ese_space _ _ (ws_one NonAtomic)); [constructor | apply F].
  - intros c. unfold ese_space, is_blank. auto.
  - intros h [<-|[]]. exists 59%N, []. split; [reflexivity | left; reflexivity].
Defined.
Notation okt := (okt G).
Notation line_rest := (line_rest G).

Section At.
Variable nx : text.
Notation reads := (reads_at G nx (skipped G)).

(** ** Tokens *)
Lemma words_opens w l : words w -> opens G l -> opens G (w ++ l).
Proof.
  intros [[_ [T _]] C] O. destruct w as [|c w]; [exact O|]. split; [apply (T c w), eq_refl|]. intros h' [E|[]]. injection E as <- _. exact (C w eq_refl).
Qed.
Lemma listed_colon l r : l <> [] -> exists r', listed l ++ r = colon ++ r'.
Proof. destruct l as [|w l]; [congruence|]. intros _. eexists. unfold listed. cbn [map List.concat]. rewrite <- !app_assoc. reflexivity. Qed.
Lemma colon_opens l : opens G (colon ++ l).
Proof. apply (opening_plain G); [reflexivity | discriminate | discriminate]. Qed.
Lemma listed_opens l k : opens G k -> opens G (listed l ++ k).
Proof. destruct l; [auto|]. intros _. apply colon_opens. Qed.
(** what may follow a field *)
Definition bound (l : text) : Prop := l = [] \/ exists l', l = colon ++ l'.
Lemma bound_nil : bound []. Proof. left. reflexivity. Qed.
Lemma bound_colon l : bound (colon ++ l). Proof. right. eauto. Qed.
Lemma bound_listed l k : bound k -> bound (listed l ++ k).
Proof. destruct l; [auto|]. intros _. apply bound_colon. Qed.
Lemma bound_opens l : bound l -> opens G l.
Proof. intros [-> |[l' ->]]; [exact I | apply colon_opens]. Qed.
Lemma bound_ends l R N t : bound l -> line_rest R N t -> ends (fun c => c =? 58)%N (l ++ R).
Proof.
  intros [-> |[l' ->]] L; [eapply rest_ends, L|]. right. left. exists 58%N. eexists. split; [reflexivity | reflexivity].
Qed.
Lemma bound_stops f l R N t : bound l -> line_rest R N t -> (forall c, f c = true -> is_blank c = false /\ is_nl c = false /\ c <> 58%N) -> stops f (l ++ R).
Proof.
  intros [-> |[l' ->]] L F; [eapply rest_stops; [exact L|]; intros c E; destruct (F c E) as [A [B _]]; auto|].
  cbn. destruct (f 58%N) eqn:E; [|reflexivity]. destruct (F _ E) as [_ [_ X]]. congruence.
Qed.
Notation CT := (&"colon_delimited_text").
Definition ct (w : text) : tree := T "colon_delimited_text" w [].
Lemma ct_ok w l R N t : field 58 w -> bound l -> line_rest R N t -> okt NonAtomic CT (w ++ l ++ R) (l ++ R) [ct w].
Proof. intros W B L. apply (field_tok G); [discriminate | reflexivity | exact W | eapply bound_ends; eassumption]. Qed.
Lemma ct_seq to y w l P : words w -> bound l -> reads_at G nx to y l P -> reads_at G nx to (CT ~~ y) (w ++ l) (cons_to [ct w] P).
Proof. intros W B H. apply reads_seq; [intros R N t L; eapply ct_ok; try eassumption; apply W | apply bound_opens, B | exact H]. Qed.
Lemma ct_end w : words w -> reads CT w (eq [ct w]).
Proof. intros W. apply reads_tok. intros R N t L. apply (ct_ok w [] R N t); [apply W | left; reflexivity | exact L]. Qed.
Lemma colon_seq to y l P : opens G l -> reads_at G nx to y l P -> reads_at G nx to (str ":" ~~ y) (colon ++ l) P.
Proof. apply reads_str. Qed.
Definition it (w : text) : tree := T "integer" w [].
Lemma int_stop c : is_digit c = true -> is_blank c = false /\ is_nl c = false /\ c <> 58%N.
Proof. unfold is_digit, is_blank, is_nl. lia. Qed.
Lemma num_stop c : number_stop c = true -> is_blank c = false /\ is_nl c = false /\ c <> 58%N.
Proof. unfold number_stop, is_digit, is_blank, is_nl. lia. Qed.
Lemma int_ok w l R N t : whole w -> bound l -> line_rest R N t -> okt NonAtomic &"integer" (w ++ l ++ R) (l ++ R) [it w].
Proof. intros W B L. apply (integer_tok G); [discriminate | reflexivity | exact W | eapply bound_stops; try eassumption; apply int_stop]. Qed.
Lemma int_seq to y w l P : whole w -> bound l -> reads_at G nx to y l P -> reads_at G nx to (&"integer" ~~ y) (w ++ l) (cons_to [it w] P).
Proof. intros W B H. apply reads_seq; [intros R N t L; eapply int_ok; eassumption | apply bound_opens, B | exact H]. Qed.
Lemma int_end w : whole w -> reads &"integer" w (eq [it w]).
Proof. intros W. apply reads_tok. intros R N t L. apply (int_ok w [] R N t); [apply W | left; reflexivity | exact L]. Qed.
Lemma number_opens w l : numeral w -> opens G (w ++ l).
Proof.
  intros [sg [u [-> [SG U]]]]. rewrite <- app_assoc. destruct SG as [->|[->| ->]]; [|apply (opening_plain G); [reflexivity | discriminate | discriminate]..].
  destruct (unsigned_hd u l U) as [c [v [E C]]]. cbn [app]. rewrite E. unfold number_stop, is_digit in C. apply (opening_plain G); unfold is_blank; lia.
Qed.
Lemma whole_numeral w : whole w -> numeral w.
Proof. intros [sg [u [-> [SG U]]]]. exists sg, u. repeat split; auto. constructor. exact U. Qed.
Lemma whole_opens w l : whole w -> opens G (w ++ l).
Proof. intros W. apply number_opens, whole_numeral, W. Qed.
Definition dg (w : text) : tree := T "designator" w [].
Lemma code_one a : a = Atomic -> one G a (ASCII_ALPHA_UPPER // ASCII_DIGIT // str "-") designator_char.
Proof.
  intros ->. eapply one_ext; [apply one_alt; [apply one_sat | apply one_alt; [apply one_sat | apply (one_chr G Atomic 45)]]|].
  intros c. unfold designator_char. apply orb_assoc.
Qed.
Lemma code_stop c : designator_char c = true -> is_blank c = false /\ is_nl c = false /\ c <> 58%N.
Proof. unfold designator_char, is_upper, is_digit, is_blank, is_nl. lia. Qed.
Lemma code_tok w r : code w -> stops designator_char r -> okt NonAtomic &"designator" (w ++ r) r [dg w].
Proof. intros [W F] S. eapply tok_plus; [discriminate | reflexivity | apply code_one; reflexivity | exact W | exact F | exact S]. Qed.
Lemma code_opens w l : code w -> opens G (w ++ l).
Proof. intros [W F]. destruct F as [|c w C F]; [congruence|]. unfold designator_char, is_upper, is_digit in C. apply (opening_plain G); unfold is_blank; lia. Qed.
Lemma code_seq to y w l P : code w -> bound l -> reads_at G nx to y l P -> reads_at G nx to (&"designator" ~~ y) (w ++ l) (cons_to [dg w] P).
Proof. intros W B H. apply reads_seq; [intros R N t L; apply code_tok; [exact W | eapply bound_stops; try eassumption; apply code_stop] | apply bound_opens, B | exact H]. Qed.
Lemma code_end w : code w -> reads &"designator" w (eq [dg w]).
Proof. intros W. apply reads_tok. intros R N t L. apply code_tok; [exact W|]. apply (bound_stops designator_char [] R N t); [left; reflexivity | exact L | apply code_stop]. Qed.

(** ** Coordinates *)
Definition dms_tree (d : dms) : tree :=
  T "coord_part" (dms_text d) [T "sct_coord_part" (dms_text d) [T "hemi" (d_letter d) []; T "deg" (d_deg d) []; T "min" (d_min d) []; T "sec" (d_sec d) []]].
Lemma hemi_ok h r : In h (map s2t ["N"; "E"; "n"; "e"; "S"; "W"; "s"; "w"]) -> okt Compound &"hemi" (h ++ r) r [T "hemi" h []].
Proof.
  intros I. eapply tok; [discriminate | reflexivity|]. cbn [map In] in I.
  repeat (destruct I as [<-|I]; [repeat first [apply ok_alt1, ok_str | apply ok_str | apply ok_alt2; [apply ko_str; discriminate|]]|]). contradiction.
Qed.
Lemma dms_ok d v r : reads_dms d v -> stops number_stop r -> okt NonAtomic &"coord_part" (dms_text d ++ r) r [dms_tree d].
Proof.
  destruct v as [[[h deg] min] sec]. intros [LT [DD [DM [NS [_ [_ _]]]]]] S.
  assert (O : ok G Compound (&"hemi" ~~ &"deg" ~~ str "." ~~ &"min" ~~ str "." ~~ &"sec") (dms_text d) r
    [T "hemi" (d_letter d) []; T "deg" (d_deg d) []; T "min" (d_min d) []; T "sec" (d_sec d) []]).
  { unfold dms_text.
    assert (X : okt Compound (&"hemi" ~~ &"deg" ~~ str "." ~~ &"min" ~~ str "." ~~ &"sec") ((d_letter d ++ d_deg d ++ s2t "." ++ d_min d ++ s2t "." ++ d_sec d) ++ r) r
      ([T "hemi" (d_letter d) []] ++ [T "deg" (d_deg d) []] ++ [] ++ [T "min" (d_min d) []] ++ [] ++ [T "sec" (d_sec d) []])).
    { rewrite <- !app_assoc.
      eapply okt_seq_at; [discriminate | apply hemi_ok; destruct h; cbn in LT |- *; tauto|].
      eapply okt_seq_at; [discriminate | eapply tok; [discriminate | reflexivity | apply digits_plus; [discriminate | exact DD | reflexivity]]|].
      eapply okt_seq_at; [discriminate | apply okt_str|].
      eapply okt_seq_at; [discriminate | eapply tok; [discriminate | reflexivity | apply digits_plus; [discriminate | exact DM | reflexivity]]|].
      eapply okt_seq_at; [discriminate | apply okt_str|].
      eapply tok; [discriminate | reflexivity|]. apply (ok_call G Atomic "decimal" KAtomic _ (d_sec d) r [] eq_refl). apply numeral_ok; assumption. }
    destruct X as [c [E X]]. apply app_inv_tail in E. rewrite E. exact X. }
  apply okt_ok. apply (ok_call G NonAtomic "coord_part" KNormal (&"sct_coord_part" // &"decimal") _ r); [reflexivity|].
  apply ok_alt1. apply (ok_call G NonAtomic "sct_coord_part" KCompound _ _ r _ eq_refl O).
Qed.
Lemma dms_value_ok d v : reads_dms d v -> ese_coord_part (dms_tree d) = Ret v.
Proof.
  destruct v as [[[h deg] min] sec]. intros [LT [_ [_ [_ [D [M S]]]]]]. unfold ese_coord_part, dms_tree. cbn [kids_of next obind text_of].
  assert (H : hemi_from (d_letter d) = Ret h).
  { destruct h; cbn [map In] in LT; repeat (destruct LT as [<-|LT]; [reflexivity|]); contradiction. }
  rewrite H, D, M, S. reflexivity.
Qed.
Lemma dms_opens d v l : reads_dms d v -> opens G (dms_text d ++ l).
Proof.
  destruct v as [[[h deg] min] sec]. intros [LT _]. unfold dms_text. rewrite <- app_assoc.
  destruct h; cbn [map In] in LT; repeat (destruct LT as [<-|LT]; [apply (opening_plain G); [reflexivity | discriminate | discriminate]|]); contradiction.
Qed.
Definition place_tree (c : dms * dms) : tree := T "coordinate" (place_text c) [dms_tree (fst c); dms_tree (snd c)].
Lemma place_ok c p r : reads_place c p -> stops number_stop r -> okt NonAtomic &"coordinate" (place_text c ++ r) r [place_tree c].
Proof.
  intros [lat [lng [LA [LO _]]]] S.
  assert (X : okt NonAtomic (&"coord_part" ~~ str ":" ~~ &"coord_part") (place_text c ++ r) r ([dms_tree (fst c)] ++ [] ++ [dms_tree (snd c)])).
  { unfold place_text. rewrite <- !app_assoc. eapply okt_seq0; [eapply dms_ok; [exact LA | reflexivity] | apply opens_firm; apply (opening_plain G); [reflexivity | discriminate | discriminate]|].
    eapply okt_seq0; [apply okt_str| |eapply dms_ok; [exact LO | exact S]].
    pose proof (dms_opens _ _ r LO) as O. destruct (dms_text (snd c) ++ r) eqn:E; [|apply (opens_firm G), O].
    unfold dms_text in E. destruct (snd c) as [w ? ? ?]. cbn in E. apply app_eq_nil in E. destruct E as [E _]. apply app_eq_nil in E. destruct E as [_ E].
    apply app_eq_nil in E. destruct E as [_ E]. discriminate E. }
  destruct X as [x [E X]]. apply app_inv_tail in E. subst x. apply okt_ok. apply (ok_call G NonAtomic "coordinate" KNormal _ _ r _ eq_refl X).
Qed.
Lemma place_value_ok c p : reads_place c p -> ese_coordinate (place_tree c) = Ret p.
Proof.
  intros [lat [lng [LA [LO ->]]]]. unfold ese_coordinate, place_tree. cbn [kids_of next obind]. rewrite (dms_value_ok _ _ LA), (dms_value_ok _ _ LO). reflexivity.
Qed.
Lemma place_opens c p l : reads_place c p -> opens G (place_text c ++ l).
Proof. intros [lat [lng [LA _]]]. unfold place_text. rewrite <- app_assoc. eapply dms_opens, LA. Qed.
Lemma places_value cs ps : Forall2 reads_place cs ps -> omap ese_coordinate (map place_tree cs) = Ret ps.
Proof. induction 1 as [|c p cs ps H _ IH]; [reflexivity|]. cbn [map omap]. rewrite (place_value_ok c p H), IH. reflexivity. Qed.

(** ** Positions *)
Lemma opt_none to x y P : (forall R N t, line_rest R N t -> ko G NonAtomic x R) -> reads_at G nx to y [] P -> reads_at G nx to (Opt x ~~ y) [] P.
Proof.
  intros K H. eapply reads_mono; [eapply (reads_seq G nx to (Opt x) y [] [] P []); [intros R N t L; apply okt_opt_no; eapply K, L | exact I | exact H]|].
  intros ts [t2 [-> X]]. exact X.
Qed.
Lemma opt_none_end x : (forall R N t, line_rest R N t -> ko G NonAtomic x R) -> reads (Opt x) [] (eq []).
Proof. intros K. apply (reads_tok G nx _ []). intros R N t L. apply okt_opt_no. eapply K, L. Qed.
Lemma colon_ko y R N t : line_rest R N t -> ko G NonAtomic (str ":" ~~ y) R.
Proof. intros L. apply ko_seq1, (ko_chr G NonAtomic 58). eapply rest_stops; [exact L|]. intros c E. unfold is_blank, is_nl. lia. Qed.
Lemma colon_ko' R N t : line_rest R N t -> ko G NonAtomic (str ":") R.
Proof. intros L. apply (ko_chr G NonAtomic 58). eapply rest_stops; [exact L|]. intros c E. unfold is_blank, is_nl. lia. Qed.
Definition gapish (R : text) : Prop := exists c R', R = c :: R' /\ (is_blank c = true \/ is_nl c = true).
Lemma integer_ko R : gapish R -> ko G NonAtomic &"integer" R.
Proof.
  intros [c [R' [-> H]]]. eapply ko_tok; [reflexivity|]. eapply (ko_seq2_at G Atomic _ _ [] (c :: R') []); [discriminate| |].
  - apply ok_opt_no, ko_alt; [apply (ko_chr G Atomic 45) | apply (ko_chr G Atomic 43)]; cbn [stops]; unfold is_blank, is_nl in H; lia.
  - apply ko_plus_sat. cbn [stops]. unfold is_digit, is_blank, is_nl in *. lia.
Qed.
Lemma coordinate_ko R : gapish R -> ko G NonAtomic &"coordinate" R.
Proof.
  intros [c [R' [-> H]]]. unfold is_blank, is_nl in H. eapply ko_call; [reflexivity|]. apply ko_seq1. eapply ko_call; [reflexivity|]. apply ko_alt.
  - eapply ko_call; [reflexivity|]. apply ko_seq1. eapply ko_call; [reflexivity|]. repeat apply ko_alt; apply ko_str; intros r' E; cbn in E; injection E as E _; lia.
  - eapply ko_tok; [reflexivity|]. eapply (ko_seq2_at G Atomic _ _ [] (c :: R') []); [discriminate| |].
    + apply ok_opt_no, ko_alt; [apply (ko_chr G Atomic 45) | apply (ko_chr G Atomic 43)]; cbn [stops]; lia.
    + apply ko_alt; [|apply ko_plus_sat; cbn [stops]; unfold is_digit; lia].
      eapply (ko_seq2_at G Atomic _ _ [] (c :: R') []); [discriminate | apply ok_star_nil, ko_sat; cbn [stops]; unfold is_digit; lia|].
      apply ko_seq1, (ko_chr G Atomic 46). cbn [stops]. lia.
Qed.
Lemma rest_gapish R N t : line_rest R N t -> gapish R.
Proof. apply rest_hd. Qed.
Lemma pt_some to y c p l P : reads_place c p -> bound l -> reads_at G nx to y l P -> reads_at G nx to (Opt (str ":" ~~ &"coordinate") ~~ y) ((colon ++ place_text c) ++ l) (cons_to [place_tree c] P).
Proof.
  intros PL B H. apply reads_seq; [|apply bound_opens, B | exact H]. intros R N t L. apply okt_opt. rewrite <- app_assoc.
  eapply okt_eq; [eapply okt_seq0; [apply okt_str | | eapply place_ok; [exact PL | eapply bound_stops; try eassumption; apply num_stop]] | reflexivity].
  pose proof (place_opens c p (l ++ R) PL) as O. destruct (place_text c ++ l ++ R) eqn:E; [apply firm_nil | apply opens_firm, O].
Qed.
Lemma pt_last c p : reads_place c p -> reads (Opt (str ":" ~~ &"coordinate")) (colon ++ place_text c) (eq [place_tree c]).
Proof.
  intros PL. apply reads_tok. intros R N t L. apply okt_opt. rewrite <- app_assoc.
  eapply okt_eq; [eapply okt_seq0; [apply okt_str | | eapply place_ok; [exact PL | apply (bound_stops number_stop [] R N t); [left; reflexivity | exact L | apply num_stop]]] | reflexivity].
  pose proof (place_opens c p R PL) as O. destruct (place_text c ++ R) eqn:E; [apply firm_nil | apply opens_firm, O].
Qed.
Notation PT := (Opt (str ":" ~~ &"coordinate")).
Lemma listed_cons w l : listed (w :: l) = colon ++ w ++ listed l.
Proof. unfold listed. cbn [map List.concat]. rewrite <- app_assoc. reflexivity. Qed.
Lemma pts_ok cs ps : Forall2 reads_place cs ps -> (List.length cs <= 3)%nat -> reads (PT ~~ PT ~~ PT) (listed (map place_text cs)) (eq (map place_tree cs)).
Proof.
  intros F LE. assert (K : forall R N t, line_rest R N t -> ko G NonAtomic (str ":" ~~ &"coordinate") R) by (intros; eapply colon_ko; eassumption).
  destruct F as [|c1 p1 cs ps H1 F]; [apply opt_none; [exact K | apply opt_none; [exact K | apply opt_none_end, K]]|].
  cbn [map]. rewrite listed_cons, app_assoc.
  destruct F as [|c2 p2 cs ps H2 F].
  { eapply reads_mono; [eapply pt_some; [exact H1 | left; reflexivity | apply opt_none; [exact K | apply opt_none_end, K]]|].
    intros ts [t2 [-> <-]]. reflexivity. }
  cbn [map]. rewrite listed_cons, (app_assoc colon (place_text c2)).
  destruct F as [|c3 p3 cs ps H3 F].
  { eapply reads_mono; [eapply pt_some; [exact H1 | rewrite <- app_assoc; apply bound_colon | eapply pt_some; [exact H2 | left; reflexivity | apply opt_none_end, K]]|].
    intros ts [t2 [-> [t3 [-> <-]]]]. reflexivity. }
  destruct F; [|cbn in LE; lia]. cbn [map]. rewrite listed_cons. change (listed []) with (@nil N). rewrite app_nil_r.
  eapply reads_mono; [eapply pt_some; [exact H1 | rewrite <- app_assoc; apply bound_colon | eapply pt_some; [exact H2 | apply bound_colon | eapply pt_last, H3]]|].
  intros ts [t2 [-> [t3 [-> <-]]]]. reflexivity.
Qed.
Lemma points_ok cs ps : Forall2 reads_place cs ps -> (List.length cs <= 4)%nat ->
  reads (Opt (str ":") ~~ Opt &"coordinate" ~~ PT ~~ PT ~~ PT) (listed (map place_text cs)) (eq (map place_tree cs)).
Proof.
  intros F LE. destruct F as [|c p cs ps H F].
  - apply opt_none; [intros; eapply colon_ko'; eassumption|]. apply opt_none; [intros; eapply coordinate_ko, rest_gapish; eassumption|].
    apply (pts_ok [] []); [constructor | cbn; lia].
  - cbn [map]. rewrite listed_cons.
    eapply reads_mono; [eapply (reads_seq G nx _ (Opt (str ":")) _ colon _ _ []); [intros R N t L; apply okt_opt, okt_str | eapply place_opens, H|]|].
    + eapply (reads_seq G nx _ (Opt &"coordinate")); [|apply bound_opens; rewrite <- (app_nil_r (listed _)); apply bound_listed, bound_nil | eapply pts_ok; [exact F | cbn in LE; lia]].
      intros R N t L. apply okt_opt. eapply place_ok; [exact H|]. eapply bound_stops; [|exact L | apply num_stop].
      rewrite <- (app_nil_r (listed _)). apply bound_listed, bound_nil.
    + intros ts [t2 [-> [t3 [-> <-]]]]. reflexivity.
Qed.
Definition squawk_tree (a b : text) : tree := T "squawk_range" (a ++ colon ++ b) [it a; it b].
Lemma squawk_ok a b l R N t : whole a -> whole b -> bound l -> line_rest R N t -> okt NonAtomic &"squawk_range" ((a ++ colon ++ b) ++ l ++ R) (l ++ R) [squawk_tree a b].
Proof.
  intros WA WB B L. apply okt_ok.
  assert (X : okt NonAtomic (&"integer" ~~ str ":" ~~ &"integer") ((a ++ colon ++ b) ++ l ++ R) (l ++ R) ([it a] ++ [] ++ [it b])).
  { rewrite <- !app_assoc. eapply okt_seq0; [apply integer_tok; [discriminate | reflexivity | exact WA | reflexivity] | apply firm_char; [reflexivity | discriminate | discriminate]|].
    eapply okt_seq0; [apply okt_str| |eapply int_ok; eassumption].
    pose proof (whole_opens b (l ++ R) WB) as O. destruct (b ++ l ++ R) eqn:E; [apply firm_nil | apply opens_firm, O]. }
  destruct X as [x [E X]]. apply app_inv_tail in E. subst x. apply (ok_call G NonAtomic "squawk_range" KNormal _ _ _ _ eq_refl X).
Qed.
Definition fq (w : text) : tree := T "frequency" w [].
Lemma freq_seq to y w l P : numeral w -> bound l -> reads_at G nx to y l P -> reads_at G nx to (&"frequency" ~~ y) (w ++ l) (cons_to [fq w] P).
Proof.
  intros W B H. apply reads_seq; [|apply bound_opens, B | exact H]. intros R N t L. eapply tok; [discriminate | reflexivity|].
  apply (ok_call G Atomic "decimal" KAtomic _ w (l ++ R) [] eq_refl). apply numeral_ok; [exact W|]. eapply bound_stops; try eassumption. apply num_stop.
Qed.
Ltac uncons := repeat match goal with H : cons_to _ _ _ |- _ => destruct H as [? [-> H]] end.
Ltac one_field :=
  first [apply ct_seq; [assumption | apply bound_colon|] | apply freq_seq; [assumption | apply bound_colon|]];
  apply colon_seq; [first [apply words_opens; [assumption | apply colon_opens] | apply number_opens; assumption]|].
Lemma position_body p x : reads_position p x -> reads
  (CT ~~ str ":" ~~ CT ~~ str ":" ~~ &"frequency" ~~ str ":" ~~ CT ~~ str ":" ~~ CT ~~ str ":" ~~ CT ~~ str ":"
     ~~ CT ~~ str ":" ~~ CT ~~ str ":" ~~ CT ~~ str ":" ~~ Opt &"squawk_range" ~~ Opt (str ":")
     ~~ Opt &"coordinate" ~~ PT ~~ PT ~~ PT) (position_text p)
  (eq ([ct (p_name p); ct (p_callsign p); fq (p_freq p); ct (p_ident p); ct (p_middle p); ct (p_prefix p); ct (p_suffix p); ct (p_x p); ct (p_y p)]
    ++ match p_squawk p with Some (a, b) => [squawk_tree a b] | None => [] end ++ map place_tree (p_points p))).
Proof.
  intros [W [FQ [_ [_ [_ [_ [_ [_ [_ [SQ [LE PS]]]]]]]]]]]. unfold position_text. rewrite !listed_cons. change (listed []) with (@nil N). cbn [app]. rewrite <- !app_assoc.
  repeat match goal with H : Forall _ (_ :: _) |- _ => inversion H; clear H; subst end. cbn [app].
  eapply reads_mono.
  - do 8 one_field. apply ct_seq; [assumption | apply bound_colon|].
    apply colon_seq.
    + destruct (p_squawk p) as [[a b]|]; [|cbn [app]; rewrite <- (app_nil_r (listed _)); apply listed_opens; exact I].
      destruct (po_squawk x) as [[m n]|]; [|contradiction]. rewrite <- !app_assoc. apply whole_opens, SQ.
    + instantiate (1 := eq (match p_squawk p with Some (a, b) => [squawk_tree a b] | None => [] end ++ map place_tree (p_points p))).
      destruct (p_squawk p) as [[a b]|].
      * destruct (po_squawk x) as [[m n]|]; [|contradiction]. destruct SQ as [WA [WB _]].
        eapply reads_mono; [eapply (reads_seq G nx _ (Opt &"squawk_range")); [|apply bound_opens; rewrite <- (app_nil_r (listed _)); apply bound_listed, bound_nil | eapply points_ok; eassumption]|].
        -- intros R N t L. apply okt_opt. eapply squawk_ok; try eassumption. rewrite <- (app_nil_r (listed _)). apply bound_listed, bound_nil.
        -- intros ts [t2 [-> <-]]. reflexivity.
      * destruct (po_squawk x); [contradiction|]. rewrite SQ in *. cbn [app map]. change (listed []) with (@nil N).
        apply opt_none; [|apply (points_ok [] []); [constructor | cbn; lia]]. intros R N t L. eapply ko_call; [reflexivity|]. apply ko_seq1, integer_ko. eapply rest_gapish, L.
  - intros ts H. uncons. subst. reflexivity.
Qed.
Lemma position_ok p x : reads_position p x -> reads &"position" (position_text p) (fun ts => exists tr, ts = [tr] /\ parse_position tr = Ret (po_ident x, x)).
Proof.
  intros H. eapply reads_call; [reflexivity | reflexivity | eapply position_body, H|].
  intros c ts <-. eexists. split; [reflexivity|]. destruct H as [_ [_ [E1 [E2 [E3 [E4 [E5 [E6 [E7 [SQ [_ PS]]]]]]]]]]].
  apply places_value in PS. destruct p as [n cs f i m pr su xx yy sq pts], x as [n' cs' f' i' pr' m' su' sq' pts']. cbn in *. subst.
  unfold parse_position. cbn [kids_of next obind text_of ct fq app skipn hd_error].
  destruct sq as [[a b]|], sq' as [[u v]|]; try contradiction.
  - cbn [app hd_error tl squawk_range is_rule]. unfold squawk_range, squawk_tree. change (is_rule (T "squawk_range" (a ++ colon ++ b) [it a; it b]) "squawk_range") with true. cbv iota.
    cbn [kids_of next obind text_of it]. destruct SQ as [_ [_ [-> ->]]]. cbn [unwrap obind]. rewrite PS. reflexivity.
  - subst pts. cbn [map omap] in PS. injection PS as <-. cbn. reflexivity.
Qed.

End At.
