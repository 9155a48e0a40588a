(** ICAO tables and navdata airports that are written line by line are read (C79). *)
From Coq Require Import ZifyBool ZifyN ZifyNat.
From Verif Require Import Base Unicode Num Float FloatParse Peg Grammars SpecPeg PegProofs PegLang PegForward PegSkip Trees
  SpecText TextProofs SpecFields FileForward Icao SpecIcao SpecTableText.
Local Open Scope string_scope.
Local Open Scope list_scope.

Section Remarks.
  Variable g : grammar.
  Variable f : N -> bool.
  Hypothesis WS : one g NonAtomic (Call "WHITESPACE") f.
  Hypothesis FB : forall c, f c = true -> is_blank c = true.
  Hypothesis DEF : defined g "WHITESPACE" /\ defined g "COMMENT".
  Hypothesis CM : get "COMMENT" g = Some (KSilent, comment_body).
  Hypothesis NL : get "NL" g = Some (KSilent, Plus (Star SPTAB ~~ NEWLINE)).
  Lemma remark_ko a r : (forall h r', In h remarks -> r <> h ++ r') -> ko g a (Call "COMMENT") r.
  Proof.
    intros H. eapply ko_call; [exact CM|]. apply ko_seq1, ko_alt; apply ko_str; intros r'; apply H; cbn; auto.
  Qed.
  Lemma in_line_nl c : in_line c -> Forall (fun x => negb (is_nl x) = true) c.
  Proof. apply Forall_impl. intros x [A B]. unfold is_nl. lia. Qed.
  Definition remarks_lined : lined g.
  Proof.
    refine {| sp := f; heads := remarks; lined_breaks := {| nl_rule := NL |} |}; [| |exact FB|].
    - intros b r B S H i k. eapply m_skip; [apply skipped_both; apply DEF|].
      rewrite <- (app_nil_r b). apply (ok_then g NonAtomic (Many (Call "WHITESPACE")) _ b [] r [] []).
      + apply (ok_many_one g NonAtomic _ f b r WS B S).
      + apply ok_many_nil, ko_then1, remark_ko, H.
    - intros b h c r B HI C S i k. eapply m_skip; [apply skipped_both; apply DEF|].
      assert (F : stops f r /\ forall h r', In h remarks -> r <> h ++ r').
      { destruct r as [|x r]; [split; [exact I|]; intros h' r' [<-|[<-|[]]]; discriminate|]. cbn [stops] in *. apply negb_false_iff in S. unfold is_nl in S. split.
        - destruct (f x) eqn:E; [|reflexivity]. apply FB in E. unfold is_blank in E. lia.
        - intros h' r' [<-|[<-|[]]] E; cbn in E; injection E as -> _; discriminate S. }
      assert (HB : stops f (h ++ c ++ r)).
      { destruct HI as [<-|[<-|[]]]; cbn; [destruct (f 59%N) eqn:E | destruct (f 47%N) eqn:E]; try reflexivity; apply FB in E; discriminate E. }
      apply (ok_then g NonAtomic (Many (Call "WHITESPACE")) _ b (h ++ c) r [] []).
      + rewrite <- app_assoc. apply (ok_many_one g NonAtomic _ f b _ WS B HB).
      + rewrite <- (app_nil_r (h ++ c)). apply (ok_many_cons g NonAtomic _ (h ++ c) [] r [] []); [|apply ok_many_nil, ko_then1, remark_ko, F].
        rewrite <- (app_nil_r (h ++ c)). apply (ok_then g NonAtomic _ _ (h ++ c) [] r [] []).
        * eapply ok_eq; [eapply ok_call; [exact CM|]|reflexivity|reflexivity]. change (body_atom "COMMENT" KSilent NonAtomic) with Atomic.
          apply (ok_seq_at g Atomic _ _ h c r [] []); [discriminate| |].
          -- destruct HI as [<-|[<-|[]]]; [apply ok_alt1, ok_str | apply ok_alt2; [apply ko_str; discriminate | apply ok_str]].
          -- eapply ok_star_one; [discriminate | apply one_not_newline; discriminate | apply in_line_nl, C | exact S].
        * apply (ok_many_one g NonAtomic _ f _ _ WS); [constructor | apply F].
    - intros h [<-|[<-|[]]]; [exists 59%N, [] | exists 47%N, (s2t "/")]; split; auto.
  Defined.
End Remarks.
#[export] Instance airlines_lined : lined icao_airlines_grammar.
Proof.
  apply (remarks_lined icao_airlines_grammar icao_space); try reflexivity.
  - apply (one_call icao_airlines_grammar NonAtomic "WHITESPACE" KSilent (str " ") icao_space eq_refl); [apply (one_chr _ _ 32%N) | exact I].
  - intros c. unfold icao_space, is_blank. intros ->. reflexivity.
  - split; unfold defined; eapply get_Some_key; reflexivity.
Defined.
#[export] Instance airports_lined : lined icao_airports_grammar.
Proof.
  apply (remarks_lined icao_airports_grammar icao_space); try reflexivity.
  - apply (one_call icao_airports_grammar NonAtomic "WHITESPACE" KSilent (str " ") icao_space eq_refl); [apply (one_chr _ _ 32%N) | exact I].
  - intros c. unfold icao_space, is_blank. intros ->. reflexivity.
  - split; unfold defined; eapply get_Some_key; reflexivity.
Defined.
#[export] Instance aircraft_lined : lined icao_aircraft_grammar.
Proof.
  apply (remarks_lined icao_aircraft_grammar icao_space); try reflexivity.
  - apply (one_call icao_aircraft_grammar NonAtomic "WHITESPACE" KSilent (str " ") icao_space eq_refl); [apply (one_chr _ _ 32%N) | exact I].
  - intros c. unfold icao_space, is_blank. intros ->. reflexivity.
  - split; unfold defined; eapply get_Some_key; reflexivity.
Defined.
#[export] Instance navdata_lined : lined navdata_grammar.
Proof.
  apply (remarks_lined navdata_grammar navdata_space); try reflexivity.
  - apply (one_call navdata_grammar NonAtomic "WHITESPACE" KSilent SPTAB navdata_space eq_refl); [apply one_sptab | exact I].
  - intros c E. exact E.
  - split; unfold defined; eapply get_Some_key; reflexivity.
Defined.

(** ** Cells *)
Section Cells.
  Variable g : grammar.
  Context {L : lined g}.
  Hypothesis TAB9 : forall c, sp (g := g) c = true -> c = 32%N.
  Hypothesis TD : get "tab_delimited_text" g = Some (KAtomic, Star (until (&"NL" // (Star (str " ") ~~ TAB)))).
  (** what may follow a cell *)
  Definition bound (l : text) : Prop := l = [] \/ exists l', l = tab ++ l'.
  Lemma spaces_one a : one g a (str " ") icao_space.
  Proof. apply (one_chr g a 32%N). Qed.
  Lemma delim_ko c v r : Forall (fun c => c <> 9%N /\ c <> 10%N /\ c <> 13%N) (c :: v) -> (forall v' d, c :: v = v' ++ [d] -> is_blank d = false) ->
    ko g Atomic (Star (str " ") ~~ TAB) ((c :: v) ++ r).
  Proof.
    intros F T.
    assert (P : exists b d v', c :: v = b ++ d :: v' /\ Forall (fun c => icao_space c = true) b /\ icao_space d = false).
    { clear F. revert c T. induction v as [|d v IH]; intros c T.
      - exists [], c, []. repeat split; [constructor|]. specialize (T [] c eq_refl). unfold is_blank in T. unfold icao_space. lia.
      - destruct (icao_space c) eqn:C; [|exists [], c, (d :: v); repeat split; [constructor | exact C]].
        destruct (IH d) as [b [e [v' [E [B D]]]]]. { intros v' x E. apply (T (c :: v') x). rewrite E. reflexivity. }
        exists (c :: b), e, v'. rewrite E. repeat split; [constructor; assumption | exact D]. }
    destruct P as [b [d [v' [E [B D]]]]]. rewrite E in *. rewrite <- app_assoc. cbn [app].
    apply (ko_seq2_at g Atomic (Star (str " ")) TAB b (d :: v' ++ r) []); [discriminate| |].
    - eapply ok_star_one; [discriminate | apply spaces_one | exact B | exact D].
    - apply (ko_chr g Atomic 9%N). cbn [stops]. apply Forall_elt in F. lia.
  Qed.
  Lemma cell_stop l R N t : bound l -> line_rest g R N t -> ko g Atomic (until (&"NL" // (Star (str " ") ~~ TAB))) (l ++ R).
  Proof.
    intros [-> |[l' ->]] LR; apply ko_seq1.
    - destruct LR as [b [nl [k [b' [-> [-> [B [E _]]]]]]]]. destruct (nl_seen g b nl (k ++ b' ++ t)) as [u O]; [|exact E | eapply ko_nott, okt_alt1, O].
      eapply Forall_impl; [|exact B]. intros c. apply (sp_blank (g := g)).
    - assert (X : okt g Atomic (Star (str " ") ~~ TAB) (tab ++ l' ++ R) (l' ++ R) []).
      { apply (okt_ok g Atomic _ tab). apply (ok_seq_at g Atomic (Star (str " ")) TAB [] tab (l' ++ R) [] []); [discriminate | |apply ok_str].
        eapply ok_star_one; [discriminate | apply spaces_one | constructor | reflexivity]. }
      rewrite <- app_assoc. destruct (at_eol g (tab ++ l' ++ R)) as [[v [d [Q [NE O]]]]|K].
      + assert (S : exists u, okt g Atomic &"NL" (tab ++ l' ++ R) u []).
        { destruct (at_eol g v) as [[v' [d' [_ [_ O']]]]|K].
          - destruct (many_eol g (Datatypes.length v') v' (le_n _)) as [w W]. exists w. apply (okt_silent g Atomic "NL" _ _ w [] nl_rule eq_refl).
            apply (okt_seq_at g Atomic _ _ _ v w [] []); [discriminate | exact O|]. apply okt_opt. apply (okt_then g Atomic _ _ v v' w [] []); assumption.
          - exists v. apply (okt_silent g Atomic "NL" _ _ v [] nl_rule eq_refl). apply (okt_seq_at g Atomic _ _ _ v v [] []); [discriminate | exact O|]. apply okt_star_nil, K. }
        destruct S as [u S]. eapply ko_nott, okt_alt1, S.
      + eapply ko_nott. apply okt_alt2; [|exact X]. apply (ko_call g Atomic "NL" KSilent (Plus (Star SPTAB ~~ NEWLINE))); [apply nl_rule|]. apply ko_seq1, K.
  Qed.
  Lemma cell_ok w l R N t : cell w -> bound l -> line_rest g R N t -> ok g Atomic (Star (until (&"NL" // (Star (str " ") ~~ TAB)))) w (l ++ R) [].
  Proof.
    intros [[F [_ T]] _] B LR. pose proof (cell_stop l R N t B LR) as K.
    assert (GO : forall c v, Forall (fun c => c <> 9%N /\ c <> 10%N /\ c <> 13%N) (c :: v) -> (forall v' d, c :: v = v' ++ [d] -> is_blank d = false) ->
      ok g Atomic (until (&"NL" // (Star (str " ") ~~ TAB))) [c] (v ++ l ++ R) []).
    { intros c v F' T'. apply (ok_seq_at g Atomic (Not _) ANY [] [c] (v ++ l ++ R) [] []); [discriminate | | apply ok_sat; reflexivity].
      apply ok_not, ko_alt; [apply (blank_inside g c v (l ++ R)); [|exact T'] | apply (delim_ko c v (l ++ R)); assumption].
      eapply Forall_impl; [|exact F']. intros d [_ D]. exact D. }
    destruct w as [|c w]; [apply ok_star_nil, K|]. apply ok_opt. apply (ok_then g Atomic _ _ [c] w (l ++ R) [] []); [apply GO; assumption|].
    assert (F' : Forall (fun c => c <> 9%N /\ c <> 10%N /\ c <> 13%N) w) by (inversion F; assumption).
    assert (T' : forall v' d, w = v' ++ [d] -> is_blank d = false) by (intros v' d X; apply (T (c :: v') d); rewrite X; reflexivity).
    clear F T. induction w as [|d w IH].
    - apply ok_many_nil. apply (ko_then2 g Atomic Skip _ [] (l ++ R) []); [apply ok_skip_atomic; discriminate | exact K].
    - apply (ok_many_cons g Atomic _ [d] w (l ++ R) [] []).
      + apply (ok_then g Atomic Skip _ [] [d] (w ++ l ++ R) [] []); [apply ok_skip_atomic; discriminate | apply GO; assumption].
      + apply IH; [inversion F'; assumption|]. intros v' e X. apply (T' (d :: v') e). rewrite X. reflexivity.
  Qed.
  (** the rules of the cells call that of texts up to a tab *)
  Lemma cell_tok n w l R N t : get n g = Some (KAtomic, &"tab_delimited_text") -> cell w -> bound l -> line_rest g R N t -> okt g NonAtomic (Call n) (w ++ l ++ R) (l ++ R) [T n w []].
  Proof.
    intros E C B LR. eapply tok; [discriminate | exact E|]. pose proof (ok_call g Atomic "tab_delimited_text" KAtomic _ w (l ++ R) [] TD) as X. apply X. exact (cell_ok w l R N t C B LR).
  Qed.
  Lemma bound_opens l : bound l -> opens g l.
  Proof.
    intros [-> |[l' ->]]; [exact I|]. cbn. split; [destruct (sp (g := g) 9%N) eqn:E; [|reflexivity]; specialize (TAB9 _ E); discriminate|].
    intros h' I. destruct (heads_hd (g := g) _ I) as [d [h'' [E D]]]. injection E as <- _. destruct D; discriminate.
  Qed.
  Lemma cell_opens w l : cell w -> bound l -> opens g (w ++ l).
  Proof.
    intros [[_ [T _]] U] B. destruct w as [|c w]; [apply bound_opens, B|]. destruct (U c w eq_refl). apply (opening_plain g); [apply (T c w), eq_refl | assumption | assumption].
  Qed.
  Lemma bound_tab l : bound (tab ++ l).
  Proof. right. eauto. Qed.
  Lemma bound_stops (f : N -> bool) l R N t : bound l -> line_rest g R N t -> (forall c, f c = true -> is_blank c = false /\ is_nl c = false) -> stops f (l ++ R).
  Proof.
    intros [-> |[l' ->]] LR F; [eapply rest_stops; [exact LR | exact F]|]. cbn. destruct (f 9%N) eqn:E; [|reflexivity]. destruct (F _ E). discriminate.
  Qed.
  Lemma cell_seq nx to n y w l P : get n g = Some (KAtomic, &"tab_delimited_text") -> cell w -> bound l -> reads_at g nx to y l P -> reads_at g nx to (Call n ~~ y) (w ++ l) (cons_to [T n w []] P).
  Proof. intros E W B H. apply reads_seq; [intros R N t LR; eapply cell_tok; eassumption | apply bound_opens, B | exact H]. Qed.
  Lemma tab_seq nx to y l P : opens g l -> reads_at g nx to y l P -> reads_at g nx to (TAB ~~ y) (tab ++ l) P.
  Proof. apply reads_str. Qed.
  (** the end of the line *)
  Lemma reads_line_opt nx e l P : reads_at g nx (skipped g) e l P -> reads_at g nx (before g nx) (e ~~ Opt &"NL") l P.
  Proof.
    intros H R N L0. destruct (H R N L0) as [v [ts [O [S PT]]]]. destruct (rest_nl g R N nx L0) as [w [O' S']]. exists w, ts. split; [|split; assumption].
    eapply okt_eq; [eapply okt_seq; [exact O | exact S | apply okt_opt, O'] | rewrite app_nil_r; reflexivity].
  Qed.
  Lemma cell_end nx n w : get n g = Some (KAtomic, &"tab_delimited_text") -> cell w -> reads_at g nx (before g nx) (Call n ~~ Opt &"NL") w (eq [T n w []]).
  Proof. intros E W. apply reads_line_opt, reads_tok. intros R N t LR. apply (cell_tok n w [] R N t E W); [left; reflexivity | exact LR]. Qed.
  (** files with one line for each of [xs] *)
  Lemma table_run {X} (e : expr) (f : X -> text) (Q : X -> tree -> Prop) xs t :
    Forall (fun x => content g (f x)) xs -> Forall (fun x => forall nx, reads_at g nx (before g nx) e (f x) (fun ts => exists tr, ts = [tr] /\ Q x tr)) xs ->
    laid (sp (g := g)) (heads (g := g)) (map f xs) t -> ko g NonAtomic e [] -> exists trs, run g e t [] trs /\ Forall2 Q xs trs.
  Proof.
    intros C F LD K. destruct (laid_split g (map f xs) [] t) as [T0 [LT L0]]; [rewrite app_nil_r; apply Forall_map, C | rewrite app_nil_r; exact LD|].
    inversion L0; subst T0. replace (map f xs) with (flat_map (fun x => [f x]) xs) in LT by (clear; induction xs as [|x xs IH]; [reflexivity | cbn; rewrite IH; reflexivity]).
    destruct (entries_run g e (fun x => [f x]) (fun _ => True) Q xs t []) as [_ RN].
    - eapply Forall_impl; [|exact F]. intros x H t0 T0 LL _. inversion LL as [|l1 ls1 R N u T1 F0 LR LT' E1 E2 E3]; subst. inversion LT'; subst.
      destruct (H T0 R N LR) as [v [ts [O [S [tr [-> QX]]]]]]. exists v, tr. auto.
    - apply Forall_forall. auto.
    - exact LT.
    - exact I.
    - exact K.
    - exact RN.
  Qed.
End Cells.
Lemma file_star g {L : lined g} start e t t' ts : get start g = Some (KNormal, SOI ~~ Opt &"NL" ~~ Star e ~~ EOI) -> body_atom start KNormal NonAtomic = NonAtomic -> checks g start = true ->
  (exists k b, t = k ++ b ++ t' /\ voids g k /\ spaced g b) -> firmer g t' -> run g e t' [] ts -> top g start t = Ret (ts ++ [T "EOI" [] []]).
Proof.
  intros E B C X F RN. destruct (run_star g e t' [] ts RN) as [w [O S]]; [apply (skip_none g), firm_nil|].
  apply (file_top g start (Star e ~~ EOI) _ t'); try assumption.
  apply (okt_seq g (Star e) EOI t' w [] [] ts [T "EOI" [] []]); [exact O | exact S|]. apply (okt_ok g NonAtomic EOI [] []), ok_eoi. discriminate.
Qed.
Lemma file_plus g {L : lined g} start e t t' ts : get start g = Some (KNormal, SOI ~~ Opt &"NL" ~~ Plus e ~~ EOI) -> body_atom start KNormal NonAtomic = NonAtomic -> checks g start = true ->
  (exists k b, t = k ++ b ++ t' /\ voids g k /\ spaced g b) -> firmer g t' -> t' <> [] -> run g e t' [] ts -> top g start t = Ret (ts ++ [T "EOI" [] []]).
Proof.
  intros E B C X F NE RN. inversion RN as [|t0 u t1 r ts1 ts2 O1 S1 R1]; subst; [congruence|]. destruct (run_plus g e t' u t1 [] ts1 ts2 O1 S1 R1) as [w [O S]]; [apply (skip_none g), firm_nil|].
  apply (file_top g start (Plus e ~~ EOI) _ t'); try assumption.
  apply (okt_seq g (Plus e) EOI t' w [] [] (ts1 ++ ts2) [T "EOI" [] []]); [exact O | exact S|]. apply (okt_ok g NonAtomic EOI [] []), ok_eoi. discriminate.
Qed.
