(** .ese files that are written line by line are read (C78): procedures, sections and whole files. *)
From Coq Require Import ZifyBool ZifyN ZifyNat.
From Verif Require Import Base Unicode Num Float FloatParse Numerals Dms Sectors Constraints Peg Grammars SpecPeg PegProofs PegLang PegForward PegSkip Trees
  SpecText TextProofs SpecFields FileForward EseParse SpecEseText EseText EseEntries.
Local Open Scope string_scope.
Local Open Scope list_scope.

(** ** SIDs and STARs *)
Section At.
Variable nx : text.
Notation reads := (reads_at G nx (skipped G)).
Definition hop (e : text * text) : Prop := let '(b, w) := e in blanks b /\ code w.
Definition apart (e : text * text) : Prop := let '(b, _) := e in b <> [].
Definition route_text (l : list (text * text)) : text := List.concat (map (fun '(b, w) => b ++ w) l).
Lemma blanks_spaced b : blanks b -> spaced G b.
Proof. apply Forall_impl. intros c H. exact H. Qed.
Lemma designator_ko R N : line_rest R N nx -> ko G NonAtomic &"designator" R.
Proof.
  intros L. eapply ko_tok; [reflexivity|]. apply ko_seq1. apply (code_one Atomic eq_refl). eapply rest_stops; [exact L|]. intros c C. destruct (code_stop c C) as [A [B _]]. auto.
Qed.
Lemma route_stops l R N : Forall hop l -> Forall apart l -> line_rest R N nx -> stops designator_char (route_text l ++ R).
Proof.
  intros F NE L. destruct l as [|[b w] l].
  - eapply (rest_stops G); [exact L|]. intros c C. destruct (code_stop c C) as [A [B _]]. auto.
  - apply Forall_inv in F. destruct F as [B _]. apply Forall_inv in NE. cbn in NE. unfold route_text. cbn [map List.concat]. rewrite <- !app_assoc. destruct B as [|c b C B]; [contradiction NE; reflexivity|].
    cbn [app stops]. destruct (designator_char c) eqn:D; [|reflexivity]. destruct (code_stop c D) as [X _]. congruence.
Qed.
Lemma route_run l R N : Forall hop l -> Forall apart (tl l) -> line_rest R N nx ->
  exists u, skipped G (route_text l ++ R) u /\ FileForward.run G &"designator" u N (map (fun e => dg (snd e)) l).
Proof.
  induction l as [|[b w] l IH]; intros F NE L.
  - exists N. split; [eapply (rest_skip G), L|]. apply run_nil. eapply designator_ko, (rest_here G), L.
  - inversion F as [|? ? F1 F']; subst. destruct F1 as [B W]. cbn [tl] in NE. destruct (IH F') as [u [S RN]]; [destruct l; [constructor | inversion NE; assumption] | exact L|].
    exists (w ++ route_text l ++ R). split.
    + unfold route_text. cbn [map List.concat]. rewrite <- !app_assoc. apply (skip_firm G); [apply blanks_spaced, B|].
      pose proof (code_opens w (route_text l ++ R) W) as O. unfold route_text in O. destruct (w ++ List.concat (map (fun '(b0, w0) => b0 ++ w0) l) ++ R); [apply firm_nil | apply opens_firm, O].
    + cbn [map snd]. change (dg w :: map (fun e => dg (snd e)) l) with ([dg w] ++ map (fun e => dg (snd e)) l). eapply run_cons; [apply code_tok; [exact W|] | exact S | exact RN].
      eapply route_stops; eassumption.
Qed.
Lemma route_ok l : Forall hop l -> Forall apart (tl l) ->
  reads (str ":" ~~ &"route") (colon ++ route_text l) (fun ts => exists c, ts = [T "route" c (map (fun e => dg (snd e)) l)]).
Proof.
  intros F NE R N L. destruct (route_run l R N F NE L) as [u [S RN]].
  destruct (run_star G _ u N _ RN) as [v [O SV]]; [apply (skip_none G); eapply (rest_firm G), L|].
  destruct (okt_normal G "route" _ eq_refl eq_refl _ _ _ O) as [c [_ OR]]. exists v, [T "route" c (map (fun e => dg (snd e)) l)]. split; [|split; [exact SV | eauto]].
  rewrite <- app_assoc. apply (okt_seq G (str ":") &"route" _ (route_text l ++ R) u v [] _); [apply okt_str | exact S | exact OR].
Qed.
Definition rw (o : option text) : tree := match o with Some r => T "runway_designator" r [] | None => T "none" [] [] end.
Definition rw_text (o : option text) : text := match o with Some r => r | None => [] end.
Lemma runway_ok o l R : (forall r, o = Some r -> runway r) -> okt NonAtomic (&"runway_designator" // &"none") (rw_text o ++ (colon ++ l) ++ R) ((colon ++ l) ++ R) [rw o].
Proof.
  intros H. destruct o as [r|].
  - apply okt_alt1. destruct (H r eq_refl) as [a [b [s [-> [A [B I]]]]]]. eapply tok; [discriminate | reflexivity|].
    change (rw_text (Some (a :: b :: s))) with ([a; b] ++ s). apply (ok_seq_at G Atomic _ _ [a; b] s _ [] []); [discriminate| |].
    + apply (ok_seq_at G Atomic _ _ [a] [b] _ [] []); [discriminate | apply ok_sat, A | apply ok_sat, B].
    + cbn [map In] in I. repeat (destruct I as [<-|I]); [apply ok_opt_no; repeat apply ko_alt; apply ko_str; clash | | | | | contradiction];
        apply ok_opt; repeat first [apply ok_str | apply ok_alt1, ok_str | apply ok_alt2; [apply ko_str; clash|]].
  - apply okt_alt2; [eapply ko_tok; [reflexivity|]; apply ko_seq1, ko_seq1, ko_sat; reflexivity|].
    apply okt_ok. apply (ok_call G NonAtomic "none" KNormal _ [] _ [] eq_refl). apply ok_str.
Qed.
Lemma runway_opens o l : (forall r, o = Some r -> runway r) -> opens G (rw_text o ++ colon ++ l).
Proof.
  intros H. destruct o as [r|]; [|apply colon_opens]. destruct (H r eq_refl) as [a [b [s [-> [A _]]]]]. unfold is_digit in A. apply (opening_plain G); unfold is_blank; lia.
Qed.
Lemma proc_body p : good_procedure p -> reads
  (&"designator" ~~ str ":" ~~ (&"runway_designator" // &"none") ~~ str ":" ~~ CT ~~ str ":" ~~ &"route")
  (q_airport p ++ colon ++ rw_text (q_runway p) ++ colon ++ q_name p ++ colon ++ route_text (q_route p))
  (cons_to [dg (q_airport p)] (cons_to [rw (q_runway p)] (cons_to [ct (q_name p)] (fun ts => exists c, ts = [T "route" c (map (fun e => dg (snd e)) (q_route p))])))).
Proof.
  intros [A [W [M [F NE]]]]. apply code_seq; [exact A | apply bound_colon|]. apply colon_seq; [apply runway_opens, W|].
  apply reads_seq; [intros R N t L; apply runway_ok, W | apply colon_opens|]. apply colon_seq; [apply words_opens; [exact M | apply colon_opens]|].
  apply ct_seq; [exact M | apply bound_colon | apply route_ok; assumption].
Qed.
Lemma route_texts l : map text_of (map (fun e : text * text => dg (snd e)) l) = map snd l.
Proof. rewrite map_map. reflexivity. Qed.
Lemma procedure_ok p : good_procedure p -> reads (&"sid" // &"star") (procedure_text p) (fun ts => exists tr, ts = [tr] /\ parse_sid_star tr = Ret (procedure_of p)).
Proof.
  intros H. pose proof (proc_body p H) as B. unfold procedure_text, procedure_of. fold (rw_text (q_runway p)) (route_text (q_route p)).
  destruct H as [A [RW [M _]]]. destruct p as [st ap rwy nm rt]. cbn [q_star q_airport q_runway q_name q_route] in *. destruct st.
  - apply reads_alt2; [intros R N L; rewrite keyed_colon, <- !app_assoc; other|]. rewrite (keyed_text "STAR" "STAR:") by reflexivity. rewrite !listed_cons, <- !app_assoc. cbn [listed map List.concat app].
    eapply reads_call; [reflexivity | reflexivity | apply reads_str; [apply code_opens, A | exact B]|].
    intros c ts X. uncons. destruct X as [d ->]. eexists. split; [reflexivity|]. unfold parse_sid_star. cbn [kids_of next obind app text_of dg]. destruct rwy; cbn; rewrite route_texts; reflexivity.
  - apply reads_alt1. rewrite (keyed_text "SID" "SID:") by reflexivity. rewrite !listed_cons, <- !app_assoc. cbn [listed map List.concat app].
    eapply reads_call; [reflexivity | reflexivity | apply reads_str; [apply code_opens, A | exact B]|].
    intros c ts X. uncons. destruct X as [d ->]. eexists. split; [reflexivity|]. unfold parse_sid_star. cbn [kids_of next obind app text_of dg]. destruct rwy; cbn; rewrite route_texts; reflexivity.
Qed.
End At.

(** ** Sections *)
Definition named (n : text) : Prop := Forall (fun c => header_char c = true) n.
Definition brk (t : text) : Prop := t = [] \/ exists n R N u, t = header n ++ R /\ line_rest R N u /\ named n.
Lemma brk_fresh t : brk t -> fresh t.
Proof. intros [->|[n [R [N [u [-> _]]]]]]; [left; reflexivity|]. right. exists "[". eexists. split; [unfold header; rewrite <- app_assoc; reflexivity | left; reflexivity]. Qed.
Lemma header_field n : named n -> field 58 (header n).
Proof.
  intros F. split.
  - unfold header. apply Forall_app. split; [repeat constructor; discriminate|]. apply Forall_app. split; [|repeat constructor; discriminate].
    eapply Forall_impl; [|exact F]. intros c. cbn beta. unfold header_char, is_upper. lia.
  - split; [intros c v E; injection E as <- _; reflexivity|]. intros v c E. unfold header in E. rewrite app_assoc in E. apply app_inj_tail in E. destruct E as [_ <-]. reflexivity.
Qed.
Lemma brk_position t y : brk t -> ko G NonAtomic (&"position" ~~ y) t.
Proof.
  intros B. apply ko_seq1. eapply ko_call; [reflexivity|]. change (body_atom "position" KNormal NonAtomic) with NonAtomic.
  destruct B as [->|[n [R [N [u [-> [L F]]]]]]].
  - eapply (ko_seq2 G _ _ [] [] [] [ct []]); [|apply (skip_none G), firm_nil | apply ko_seq1, ko_str; clash].
    apply (field_tok G NonAtomic [] []); [discriminate | reflexivity | split; [constructor | split; intros; [discriminate | destruct v; discriminate]] | left; reflexivity].
  - eapply (ko_seq2 G _ _ _ R N [ct (header n)]); [apply (ct_ok (header n) [] R N u); [apply header_field, F | apply bound_nil | exact L] | eapply rest_skip, L|].
    eapply (colon_ko _ N N u), rest_here, L.
Qed.
Lemma brk_procs t y : brk t -> ko G NonAtomic ((&"sid" // &"star") ~~ y) t.
Proof. intros B. apply ko_seq1. destruct B as [->|[n [R [N [u [-> _]]]]]]; [|unfold header; rewrite <- app_assoc]; apply ko_alt; other. Qed.
Lemma brk_entry t : brk t -> ko G NonAtomic ENTRY t.
Proof. intros [->|[n [R [N [u [-> _]]]]]]; [apply nothing_entry | unfold header; rewrite <- app_assoc; apply bracket_entry]. Qed.
Lemma brk_line t : brk t -> firmer t -> ko G NonAtomic &"line" t.
Proof.
  intros B F. eapply ko_call; [reflexivity|]. change (body_atom "line" KSilent NonAtomic) with NonAtomic. destruct B as [->|[n [R [N [u [-> _]]]]]].
  - eapply (ko_seq2 G _ _ [] [] [] [T "broken" [] []]); [|apply (skip_none G), firm_nil | apply (nl_ko G); [exact I | exact I | intros _; apply firm_nil]].
    eapply (tok G NonAtomic "broken" _ [] []); [discriminate | reflexivity|]. apply (ok_seq_at G Atomic _ _ [] [] [] [] []); [discriminate | apply ok_not, ko_str; clash|].
    apply ok_star_nil. eapply (ko_seq2_at G Atomic (Not _) ANY [] [] []); [discriminate | apply ok_not, (nl_ko G); [exact I | exact I | discriminate] | apply ko_sat; exact I].
  - apply ko_seq1. eapply ko_tok; [reflexivity|]. apply ko_seq1. unfold header. rewrite <- app_assoc. eapply ko_nott. apply okt_str.
Qed.
(** a line of a section that is not read *)
Definition plain_line (w : text) : Prop := w <> [] /\ in_line w /\ trimmed w /\ forall c v, w = c :: v -> c <> 91%N /\ c <> 59%N.
Lemma broken_ok w R N t : plain_line w -> line_rest R N t -> okt NonAtomic &"broken" (w ++ R) R [T "broken" w []].
Proof.
  intros [NE [F [[_ TE] H]]] L. eapply tok; [discriminate | reflexivity|]. apply (ok_seq_at G Atomic _ _ [] w R [] []); [discriminate| |].
  - apply ok_not, ko_str. destruct w as [|c w]; [congruence|]. intros r' E. cbn in E. injection E as -> _. destruct (H _ _ eq_refl). congruence.
  - assert (K : ko G Atomic (until &"NL") R).
    { destruct L as [b [nl [k [b' [-> [-> [B [E _]]]]]]]]. apply ko_seq1. destruct (nl_seen G b nl (k ++ b' ++ t)) as [u O]; [|exact E | eapply ko_nott, O].
      eapply Forall_impl; [|exact B]. intros c. apply (sp_blank (g := G)). }
    assert (GO : forall c v, in_line (c :: v) -> (forall v' d, c :: v = v' ++ [d] -> is_blank d = false) -> ok G Atomic (until &"NL") [c] (v ++ R) []).
    { intros c v F' T'. apply (ok_seq_at G Atomic (Not _) ANY [] [c] (v ++ R) [] []); [discriminate | | apply ok_sat; reflexivity].
      apply ok_not. apply (blank_inside G c v R F' T'). }
    destruct w as [|c w]; [congruence|]. apply ok_opt. apply (ok_then G Atomic _ _ [c] w R [] []); [apply GO; assumption|].
    assert (F' : in_line w) by (inversion F; assumption).
    assert (T' : forall v' d, w = v' ++ [d] -> is_blank d = false) by (intros v' d X; apply (TE (c :: v') d); rewrite X; reflexivity).
    clear NE F TE H. induction w as [|d w IH].
    + apply ok_many_nil. apply (ko_then2 G Atomic Skip _ [] R []); [apply ok_skip_atomic; discriminate | exact K].
    + apply (ok_many_cons G Atomic _ [d] w R [] []).
      * apply (ok_then G Atomic Skip _ [] [d] (w ++ R) [] []); [apply ok_skip_atomic; discriminate | apply GO; assumption].
      * apply IH; [inversion F'; assumption|]. intros v' e X. apply (T' (d :: v') e). rewrite X. reflexivity.
Qed.
Lemma line_ok w t T0 : plain_line w -> lines_to [w] t T0 -> exists v tr, okt NonAtomic &"line" t v [tr] /\ skipped G v T0 /\ True.
Proof.
  intros P H. inversion H as [|l1 ls1 R N u T1 F0 L0 LT E1 E2 E3]; subst. inversion LT; subst.
  destruct (FileForward.reads_line G T0 &"broken" w (eq [T "broken" w []])) with (R := R) (N := N) as [v [ts [O [S <-]]]]; [|exact L0|].
  - apply reads_tok. intros R' N' t L. eapply broken_ok; eassumption.
  - exists v, (T "broken" w []). split; [|split; [exact S | exact I]]. eapply okt_silent; [reflexivity | reflexivity | exact O].
Qed.
Lemma header_one : one G Atomic (ASCII_ALPHA_UPPER // &"WHITESPACE") header_char.
Proof.
  eapply one_ext; [apply one_alt; [apply one_sat | apply ws_one]|]. intros c. unfold header_char, ese_space. rewrite <- orb_assoc. reflexivity.
Qed.
Lemma header_ok nx n : n <> [] -> named n -> (forall v, n <> 32%N :: v) -> (forall v, n <> 9%N :: v) ->
  reads_at G nx (skipped G) &"section_header" (header n) (eq [T "header_name" n []]).
Proof.
  intros NE F A B. apply reads_tok. intros R N t L. eapply okt_silent; [reflexivity | reflexivity|]. unfold header. rewrite <- !app_assoc.
  apply (okt_seq0 G (str "[") _ _ (n ++ s2t "]" ++ R) R [] [T "header_name" n []]); [apply okt_str| |].
  - destruct n as [|c n]; [congruence|]. inversion F as [|? ? C _]; subst. cbn [app].
    assert (c <> 32%N) by (intros ->; exact (A n eq_refl)). assert (c <> 9%N) by (intros ->; exact (B n eq_refl)).
    unfold header_char, is_upper in C. apply firm_char; unfold is_blank; lia.
  - apply (okt_seq0 G &"header_name" (str "]") _ (s2t "]" ++ R) R [T "header_name" n []] []); [|apply firm_char; [reflexivity | discriminate | discriminate] | apply okt_str].
    eapply tok_plus; [discriminate | reflexivity | apply header_one | exact NE | exact F | reflexivity].
Qed.
Lemma header_other n m R r : named n -> named m -> n <> m -> header n ++ R <> header m ++ r.
Proof.
  intros F F' D E. unfold header in E. rewrite <- !app_assoc in E. apply app_inv_head in E. apply D. clear D. revert m F' E. induction F as [|c n C F IH]; intros m F' E.
  - destruct F' as [|d m D F']; [reflexivity|]. cbn in E. injection E as <- _. discriminate D.
  - destruct F' as [|d m D F']; [cbn in E; injection E as -> _; discriminate C|]. cbn [app] in E. injection E as -> E. f_equal. apply IH; assumption.
Qed.
Definition sec_reads (s : section) (y : ese_name * ese_section) : Prop :=
  match s with
  | Positions l => exists ps, Forall2 reads_position l ps /\ y = (NPosition, SecPositions (put_all (map (fun p => (po_ident p, p)) ps) []))
  | Airspace l => exists xs, Forall2 entry_reads l xs /\ y = (NAirspace, SecSectors (combine_sectors (fold_left collect_sectors xs (mkCollected [] [] [] [] []))))
  | Procedures l => y = (NSidsStars, SecProcs (map procedure_of l))
  | Other _ _ => y = (NOther, SecOther)
  end.
Definition sec_tree (s : section) (tr : tree) : Prop := exists y, ese_section_of tr = Ret y /\ sec_reads s y.
Lemma section_of nx n k e T0 v0 ts0 R N s : get n G = Some (KNormal, str k ~~ &"NL" ~~ e) -> body_atom n KNormal NonAtomic = NonAtomic -> line_rest R N nx ->
  okt NonAtomic e nx v0 ts0 -> skipped G v0 T0 -> (forall c, sec_tree s (T n c ts0)) ->
  exists v tr, okt NonAtomic (Call n) (s2t k ++ R) v [tr] /\ skipped G v T0 /\ sec_tree s tr.
Proof.
  intros E B L O S V.
  assert (X : reads_at G nx (before G T0) (Call n) (s2t k) (fun ts => exists tr, ts = [tr] /\ sec_tree s tr)).
  { eapply reads_call; [exact E | exact B | eapply (reads_line_then G nx (before G T0) (str k) (s2t k) (eq [])); [apply reads_tok; intros; apply okt_str | exact O | intros ?; exact S]|].
    intros c ts [t1 [-> <-]]. eexists. split; [reflexivity|]. apply V. }
  destruct (X R N L) as [v [ts [OK [SK [tr [-> Z]]]]]]. exists v, tr. auto.
Qed.
Ltac sect X := let v := fresh "v" in let tr := fresh "tr" in let OK := fresh "OK" in let SK := fresh "SK" in let Z := fresh "Z" in
  destruct X as [v [tr [OK [SK Z]]]]; [.. | exists v, tr; split; [|split; [exact SK | exact Z]]; (eapply okt_silent; [reflexivity | reflexivity|]);
    repeat (apply okt_alt2; [other|]); first [exact OK | apply okt_alt1; exact OK]].
Lemma forall2_exists {A B} (P : A -> B -> Prop) l : Forall (fun a => exists b, P a b) l -> exists m, Forall2 P l m.
Proof. induction 1 as [|a l [b H] _ [m F]]; [exists []; constructor | exists (b :: m); constructor; assumption]. Qed.
Lemma section_ok s : good_section s -> forall t T0, lines_to (section_lines s) t T0 -> brk T0 -> exists v tr, okt NonAtomic &"section" t v [tr] /\ skipped G v T0 /\ sec_tree s tr.
Proof.
  intros GS t T0 H B. pose proof (lines_firmer G _ _ _ H) as FT. destruct s as [l|l|l|n l]; cbn [section_lines good_section] in *; inversion H as [|l1 ls1 R N u T1 F0 L0 LT E1 E2 E3]; subst; clear H.
  - destruct (lines_star G &"position" position_text (fun p tr => exists x, reads_position p x /\ parse_position tr = Ret (po_ident x, x)) l u T0) as [v0 [trs [O [S FQ]]]].
    + eapply Forall_impl; [|exact GS]. intros p [x X] nx. eapply reads_mono; [eapply position_ok, X|]. intros ts [tr [-> E]]. exists tr. eauto.
    + exact LT.
    + apply brk_position, B.
    + sect (section_of u "position_section" "[POSITIONS]" _ T0 v0 trs R N (Positions l) eq_refl eq_refl L0 O S). intros c.
      assert (V : exists ps, Forall2 reads_position l ps /\ omap parse_position trs = Ret (map (fun p => (po_ident p, p)) ps)).
      { clear - FQ. induction FQ as [|p tr l trs [x [X E]] _ [ps [F O]]]; [exists []; split; [constructor | reflexivity]|]. exists (x :: ps). split; [constructor; assumption|]. cbn [omap map]. rewrite E, O. reflexivity. }
      destruct V as [ps [F V]]. eexists. split; [|exists ps; split; [exact F | reflexivity]]. unfold ese_section_of. cbn -[put_all omap parse_position]. rewrite V. reflexivity.
  - destruct GS as [GA [G1 G2]].
    destruct (entries_run G ENTRY airspace_lines fresh entry_tree l u T0) as [_ [trs [RN FQ]]].
    + apply Forall_forall. intros a I. rewrite Forall_forall in GA, G1, G2. intros t T1. apply entry_ok; auto.
    + apply Forall_forall. intros a _ t T1. apply entry_fresh.
    + exact LT.
    + apply brk_fresh, B.
    + apply brk_entry, B.
    + destruct (run_star G _ u T0 _ RN) as [v0 [O S]]; [apply (skip_none G), FT|].
      sect (section_of u "airspace_section" "[AIRSPACE]" _ T0 v0 trs R N (Airspace l) eq_refl eq_refl L0 O S). intros c.
      assert (V : exists xs, Forall2 entry_reads l xs /\ omap parse_airspace trs = Ret xs).
      { clear - FQ. induction FQ as [|p tr l trs [x [E X]] _ [ps [F O]]]; [exists []; split; [constructor | reflexivity]|]. exists (x :: ps). split; [constructor; assumption|]. cbn [omap]. rewrite E, O. reflexivity. }
      destruct V as [xs [F V]]. eexists. split; [|exists xs; split; [exact F | reflexivity]]. unfold ese_section_of. cbn -[omap parse_airspace collect_sectors combine_sectors fold_left]. rewrite V. reflexivity.
  - destruct (lines_star G (&"sid" // &"star") procedure_text (fun p tr => parse_sid_star tr = Ret (procedure_of p)) l u T0) as [v0 [trs [O [S FQ]]]].
    + eapply Forall_impl; [|exact GS]. intros p X nx. apply procedure_ok, X.
    + exact LT.
    + apply brk_procs, B.
    + sect (section_of u "sidsstars_section" "[SIDSSTARS]" _ T0 v0 trs R N (Procedures l) eq_refl eq_refl L0 O S). intros c.
      eexists. split; [|reflexivity]. unfold ese_section_of. cbn -[omap parse_sid_star]. rewrite (omap_forall2 _ procedure_of _ _ FQ). reflexivity.
  - destruct GS as [NE [F [NS [NT [NI FL]]]]].
    destruct (entries_run G &"line" (fun w => [w]) (fun _ => True) (fun _ _ => True) l u T0) as [_ [trs [RN _]]].
    + eapply Forall_impl; [|exact FL]. intros w P t T1 H _. eapply line_ok; [exact P | exact H].
    + apply Forall_forall. auto.
    + replace (flat_map (fun w => [w]) l) with l; [exact LT|]. clear. induction l as [|w l IH]; [reflexivity|]. cbn. rewrite <- IH. reflexivity.
    + exact I.
    + apply brk_line; assumption.
    + destruct (run_star G _ u T0 _ RN) as [v0 [O S]]; [apply (skip_none G), FT|].
      assert (X : reads_at G u (before G T0) &"unparsed_section" (header n) (fun ts => exists tr, ts = [tr] /\ sec_tree (Other n l) tr)).
      { eapply reads_call; [reflexivity | reflexivity | eapply (reads_line_then G u (before G T0)); [apply header_ok; assumption | exact O | intros ?; exact S]|].
        intros c ts _. eexists. split; [reflexivity|]. eexists. split; [reflexivity | reflexivity]. }
      destruct (X R N L0) as [v [ts [OK [SK [tr [-> Z]]]]]]. exists v, tr. split; [|auto]. eapply okt_silent; [reflexivity | reflexivity|].
      assert (K : forall m, In m (map s2t ["POSITIONS"; "AIRSPACE"; "SIDSSTARS"]) -> forall r', header n ++ R <> header m ++ r').
      { intros m I. intros r'. apply header_other; [exact F | | intros ->; contradiction]. cbn [map In] in I. repeat (destruct I as [<-|I]); [repeat constructor..|contradiction]. }
      apply okt_alt2; [eapply ko_call; [reflexivity|]; apply ko_seq1, ko_str, (K (s2t "POSITIONS")); cbn; tauto|].
      apply okt_alt2; [eapply ko_call; [reflexivity|]; apply ko_seq1, ko_str, (K (s2t "AIRSPACE")); cbn; tauto|].
      apply okt_alt2; [eapply ko_call; [reflexivity|]; apply ko_seq1, ko_str, (K (s2t "SIDSSTARS")); cbn; tauto|]. exact OK.
Qed.
Lemma section_named s : good_section s -> exists n ls, section_lines s = header n :: ls /\ named n.
Proof.
  intros H. destruct s as [l|l|l|n l]; cbn [section_lines]; [exists (s2t "POSITIONS") | exists (s2t "AIRSPACE") | exists (s2t "SIDSSTARS") | exists n]; eexists; (split; [reflexivity|]); [repeat constructor..|apply H].
Qed.
Lemma section_brk s t T0 : good_section s -> lines_to (section_lines s) t T0 -> brk t.
Proof.
  intros GS H. destruct (section_named s GS) as [n [ls [E F]]]. rewrite E in H. inversion H as [|l1 ls1 R N u T1 F0 L0 LT E1 E2 E3]; subst. right. exists n, R, N, u. auto.
Qed.

(** ** Every line has content *)
Lemma content_plain c v : is_blank c = false -> is_nl c = false -> c <> 59%N -> c <> 47%N -> content G (c :: v).
Proof. intros B N A D. exists c, v. split; [reflexivity|]. split; [apply opening_plain; assumption | auto]. Qed.
Ltac key := apply content_plain; [reflexivity | reflexivity | discriminate | discriminate].
Lemma position_content p x : reads_position p x -> content G (position_text p).
Proof.
  intros [F _]. inversion F as [|? ? W _]; subst. unfold position_text. destruct W as [[I [TR _]] S]. destruct (p_name p) as [|c w]; [rewrite listed_cons; key|].
  cbn [app]. exists c. eexists. split; [reflexivity|]. inversion I as [|? ? C _]; subst. pose proof (TR c w eq_refl) as B. split; [|split; [unfold is_nl; lia | exact B]].
  split; [exact B|]. intros h' [E|[]]. injection E as <- _. exact (S w eq_refl).
Qed.
Lemma airspace_content a : Forall (content G) (airspace_lines a).
Proof.
  assert (I : forall i, content G (border_text i)) by (intros []; key). assert (D : forall d, content G (detail_text d)) by (intros []; key).
  destruct a; cbn [airspace_lines]; repeat constructor; try (apply Forall_map, Forall_forall; auto); try key.
  all: first [apply I | destruct fir; key | intros [[? ?] ?] _; apply I].
Qed.
Lemma section_content s : good_section s -> Forall (content G) (section_lines s).
Proof.
  intros H. destruct s as [l|l|l|n l]; cbn [section_lines good_section] in *; (constructor; [key|]).
  - apply Forall_map. eapply Forall_impl; [|exact H]. intros p [x X]. eapply position_content, X.
  - apply Forall_flat_map, Forall_forall. intros a _. apply airspace_content.
  - apply Forall_map, Forall_forall. intros p _. unfold procedure_text, keyed. destruct (q_star p); key.
  - destruct H as [_ [_ [_ [_ [_ F]]]]]. eapply Forall_impl; [|exact F]. intros w [NE [I [[TR _] C]]]. destruct w as [|c w]; [congruence|]. destruct (C c w eq_refl) as [_ C2].
    exists c, w. split; [reflexivity|]. inversion I as [|? ? N _]; subst. pose proof (TR c w eq_refl) as B. split; [|split; [unfold is_nl; lia | exact B]].
    split; [exact B|]. intros h' [E|[]]. injection E as <- _. congruence.
Qed.

(** ** What the sections contribute *)
Lemma forall2_rev {A B} (R : A -> B -> Prop) l m : Forall2 R l m -> Forall2 R (rev l) (rev m).
Proof. induction 1 as [|a b l m H _ IH]; [constructor|]. cbn [rev]. apply Forall2_app; [exact IH | repeat constructor; exact H]. Qed.
Lemma get_last {A} (f : section -> option (list A)) (nm : ese_name) l ys : Forall2 sec_reads l ys ->
  (forall s y, sec_reads s y -> (exists x, f s = Some x) <-> fst y = nm) ->
  match get nm (rev ys) with
  | Some y => exists s x, f s = Some x /\ sec_reads s (nm, y) /\ last_of f l = x
  | None => last_of f l = []
  end.
Proof.
  intros F H. unfold last_of. apply forall2_rev in F. induction F as [|s [n y] l' ys' S F IH]; [reflexivity|]. cbn [get flat_map]. pose proof (H s (n, y) S) as E. cbn [fst] in E.
  destruct (eq_dec nm n) as [<-|D].
  - destruct (proj2 E eq_refl) as [x X]. exists s, x. rewrite X. auto.
  - destruct (f s) as [x|] eqn:X; [contradiction D; symmetry; apply E; eauto|]. exact IH.
Qed.
Ltac kinds := let s := fresh in let y := fresh in let R := fresh in intros s y R; destruct s; cbn [sec_reads] in R; repeat match goal with H : ex _ |- _ => destruct H | H : _ /\ _ |- _ => destruct H end; subst; cbn [fst];
  split; intros X; try discriminate; try (destruct X; discriminate); eauto.
(** the lines, sectors and coordination points of the airspace *)
Definition line_in (x : sector_rule) : list (text * sector_line) := match x with XLine id l => [(id, l)] | _ => [] end.
Definition sector_in (x : sector_rule) : list (text * (list text * ese_sector)) := match x with XSector b s => [(es_id s, (b, s))] | _ => [] end.
Definition cop_in (x : sector_rule) : list constraint := match x with XCop c | XFirCop c => [c] | _ => [] end.
Lemma collected_all xs : forall c, let r := fold_left collect_sectors xs c in
  co_lines r = put_all (flat_map line_in xs) (co_lines c) /\
  co_sectors r = put_all (map (fun e => (fst e, snd (snd e))) (flat_map sector_in xs)) (co_sectors c) /\
  co_borders r = put_all (map (fun e => (fst e, fst (snd e))) (flat_map sector_in xs)) (co_borders c) /\
  co_constraints r = co_constraints c ++ flat_map cop_in xs.
Proof.
  induction xs as [|x xs IH]; intros [s ci l b k]; cbn [fold_left flat_map map]; [rewrite app_nil_r; auto|].
  destruct (IH (collect_sectors (mkCollected s ci l b k) x)) as [A [B [C D]]]. rewrite A, B, C, D. clear. destruct x; cbn [collect_sectors co_lines co_sectors co_borders co_constraints line_in sector_in cop_in app map fst snd put_all fold_left];
    rewrite <- ?app_assoc; auto.
Qed.
Lemma get_map {K A B} `{EqDec K} (h : K -> A -> B) k m : get k (map (fun '(i, s) => (i, h i s)) m) = option_map (h k) (get k m).
Proof. induction m as [|[i s] m IH]; [reflexivity|]. cbn [map get]. destruct (eq_dec k i) as [->|_]; [reflexivity | exact IH]. Qed.
Lemma get_map_value {K A B} `{EqDec K} (h : A -> B) k (m : list (K * A)) : get k (map (fun e => (fst e, h (snd e))) m) = option_map h (get k m).
Proof. induction m as [|[i s] m IH]; [reflexivity|]. cbn [map get fst snd]. destruct (eq_dec k i); [reflexivity | exact IH]. Qed.
Lemma filter_flat {A B} (f : A -> option B) l : filter_map f l = flat_map (fun x => match f x with Some y => [y] | None => [] end) l.
Proof. induction l as [|x l IH]; [reflexivity|]. cbn [filter_map flat_map]. rewrite IH. destruct (f x); reflexivity. Qed.
Lemma airspace_result l xs : Forall2 entry_reads l xs ->
  let c := fold_left collect_sectors xs (mkCollected [] [] [] [] []) in
  (exists lines sectors, collects reads_line l lines /\ collects (reads_sector lines) l sectors /\ forall k, get k (fst (combine_sectors c)) = get k (rev sectors)) /\
  collects reads_cop l (snd (combine_sectors c)).
Proof.
  intros F c. destruct (collected_all xs (mkCollected [] [] [] [] [])) as [CL [CS [CB CC]]]. fold c in CL, CS, CB, CC. cbn [co_lines co_sectors co_borders co_constraints app] in *. split.
  - set (lines := flat_map line_in xs) in *.
    set (border := fun b : list text => flat_map (fun k => match get k (rev lines) with Some s => [s] | None => [] end) b).
    exists lines, (map (fun e => (fst e, (fun q : list text * ese_sector => with_border (snd q) (border (fst q))) (snd e))) (flat_map sector_in xs)). split; [|split].
    + exists (map line_in xs). split; [|unfold lines; apply flat_map_concat_map]. clear - F. induction F as [|a x l xs H _ IH]; [constructor|]. cbn [map]. constructor; [|exact IH].
      destruct a; cbn [entry_reads reads_line] in *; [destruct H as [ps [-> P]]; exists ps; auto | destruct H as [y ->]; reflexivity | subst; reflexivity
        | destruct H as [n [m [_ [_ ->]]]]; reflexivity | destruct H as [y [-> _]]; destruct fir; reflexivity | destruct H as [m ->]; reflexivity].
    + exists (map (fun x => map (fun e => (fst e, (fun q : list text * ese_sector => with_border (snd q) (border (fst q))) (snd e))) (sector_in x)) xs).
      split; [|rewrite flat_map_concat_map, concat_map, map_map; reflexivity].
      clearbody lines. clear - F. induction F as [|a x l xs H _ IH]; [constructor|]. cbn [map]. constructor; [|exact IH].
      destruct a; cbn [entry_reads reads_sector] in *; [destruct H as [ps [-> P]]; reflexivity | destruct H as [y ->]; reflexivity | subst; reflexivity
        | | destruct H as [y [-> _]]; destruct fir; reflexivity | destruct H as [m ->]; reflexivity].
      destruct H as [n [m [PN [PM ->]]]]. eexists. split; [reflexivity|]. cbn [es_id es_bottom es_top es_border es_owner es_dep es_arr es_runways with_border snd fst]. repeat split; assumption.
    + intros k. unfold combine_sectors. cbn [fst]. rewrite get_map, CS, get_put_all. rewrite <- !map_rev, (get_map_value (fun q => with_border (snd q) (border (fst q)))), get_map_value.
      rewrite CB, get_put_all, <- map_rev, get_map_value. destruct (get k (rev (flat_map sector_in xs))) as [[b s]|]; [|reflexivity].
      cbn [option_map fst snd get]. do 2 f_equal. rewrite filter_flat. unfold border. apply flat_map_ext. intros i. rewrite CL, get_put_all. destruct (get i (rev lines)); reflexivity.
  - unfold combine_sectors. cbn [snd]. rewrite CC. exists (map cop_in xs). split; [|apply flat_map_concat_map]. clear - F. induction F as [|a x l xs H _ IH]; [constructor|]. cbn [map]. constructor; [|exact IH].
    destruct a; cbn [entry_reads reads_cop] in *; [destruct H as [ps [-> P]]; reflexivity | destruct H as [y ->]; reflexivity | subst; reflexivity
        | destruct H as [n [m [_ [_ ->]]]]; reflexivity | destruct H as [y [-> R]]; destruct fir; exact R | destruct H as [m ->]; reflexivity].
Qed.

(** ** Whole files *)
Lemma sections_value l trs : Forall2 sec_tree l trs -> exists ys, Forall2 sec_reads l ys /\ omap ese_section_of trs = Ret ys.
Proof.
  induction 1 as [|a r l trs [y [E Y]] _ [ys [F OM]]]; [exists []; split; [constructor | reflexivity]|]. exists (y :: ys). split; [constructor; assumption|]. cbn [omap]. rewrite E, OM. reflexivity.
Qed.
Lemma ese_text_reads l t : l <> [] -> Forall good_section l -> ese_text l t -> exists e, parse_ese t = Ret e /\ ese_reads l e.
Proof.
  intros NE GS [k [b [t' [ET [K [B L]]]]]].
  assert (CO : Forall (content G) (flat_map section_lines l)) by (apply Forall_flat_map; eapply Forall_impl; [|exact GS]; apply section_content).
  assert (LT : lines_to (flat_map section_lines l) t' []).
  { destruct (laid_split G (flat_map section_lines l) [] t') as [T0 [LT LN]]; rewrite ?app_nil_r; try assumption. inversion LN; subst. exact LT. }
  assert (KN : ko G NonAtomic &"section" []).
  { eapply ko_call; [reflexivity|]. repeat apply ko_alt; try other. eapply ko_call; [reflexivity|]. apply ko_seq1. eapply ko_call; [reflexivity|]. apply ko_seq1, ko_str. clash. }
  destruct l as [|s l]; [congruence|]. cbn [flat_map] in LT. destruct (lines_app G _ _ _ _ LT) as [u [L1 L2]]. inversion GS as [|? ? G1 G2]; subst.
  destruct (entries_run G &"section" section_lines brk sec_tree l u []) as [BU [trs [RN FQ]]].
  - eapply Forall_impl; [|exact G2]. intros x X. apply section_ok, X.
  - eapply Forall_impl; [|exact G2]. intros x X v T0. apply section_brk, X.
  - exact L2.
  - left. reflexivity.
  - exact KN.
  - destruct (section_ok s G1 t' u L1 BU) as [v [tr [O [S QS]]]].
    destruct (run_plus G &"section" t' v u [] [tr] trs O S RN) as [w [OP SP]]; [apply (skip_none G), firm_nil|].
    assert (TP : top G "ese" (k ++ b ++ t') = Ret ((tr :: trs) ++ [T "EOI" [] []])).
    { apply (file_top G "ese" (Plus &"section" ~~ EOI) _ t'); [reflexivity | reflexivity | vm_compute; reflexivity | exists k, b; auto | eapply lines_start, LT|].
      apply (okt_seq G (Plus &"section") EOI t' w [] [] (tr :: trs) [T "EOI" [] []]); [exact OP | exact SP|]. apply (okt_ok G NonAtomic EOI [] []), ok_eoi. discriminate. }
    assert (V : exists ys, Forall2 sec_reads (s :: l) ys /\ omap ese_section_of (tr :: trs) = Ret ys).
    { apply sections_value. constructor; assumption. }
    destruct V as [ys [FY OM]].
    assert (OM' : omap ese_section_of ((tr :: trs) ++ [T "EOI" [] []]) = Ret (ys ++ [(NOther, SecOther)])).
    { clear - OM. revert ys OM. generalize (tr :: trs). intros l. induction l as [|x l IH]; intros ys E; [injection E as <-; reflexivity|].
      cbn [app omap] in *. destruct (ese_section_of x); [|discriminate..]. cbn [obind] in *. destruct (omap ese_section_of l) as [zs| |]; [|discriminate..]. cbn [obind] in *. injection E as <-.
      rewrite (IH zs eq_refl). reflexivity. }
    unfold parse_ese. rewrite TP. cbn [obind]. rewrite OM'. cbn [obind]. clear TP OM OM'.
    assert (GET : forall nm, nm <> NOther -> get nm (put_all (ys ++ [(NOther, SecOther)]) []) = get nm (rev ys)).
    { intros nm D. rewrite get_put_all, rev_app_distr. cbn [rev app get]. destruct (eq_dec nm NOther) as [->|_]; [congruence|]. destruct (get nm (rev ys)); reflexivity. }
    rewrite !GET by discriminate. clear GET.
    pose proof (get_last (fun s => match s with Positions l => Some l | _ => None end) NPosition _ _ FY ltac:(kinds)) as P1.
    pose proof (get_last (fun s => match s with Airspace l => Some l | _ => None end) NAirspace _ _ FY ltac:(kinds)) as P2.
    pose proof (get_last (fun s => match s with Procedures l => Some l | _ => None end) NSidsStars _ _ FY ltac:(kinds)) as P3.
    fold (positions_in (s :: l)) in P1. fold (airspace_in (s :: l)) in P2. fold (procedures_in (s :: l)) in P3.
    set (pos := match get NPosition (rev ys) with Some (SecPositions p) => p | _ => [] end).
    assert (Q1 : exists ps, Forall2 reads_position (positions_in (s :: l)) ps /\ forall i, get i pos = get i (rev (map (fun p => (po_ident p, p)) ps))).
    { subst pos. destruct (get NPosition (rev ys)) as [y|]; [|rewrite P1; exists []; split; [constructor | reflexivity]].
      destruct P1 as [s' [x [E [R ->]]]]. destruct s'; try discriminate E. injection E as <-. destruct R as [ps [F E]]. injection E as ->. exists ps. split; [exact F|].
      intros i. rewrite get_put_all. destruct (get i (rev _)); reflexivity. }
    set (procs := match get NSidsStars (rev ys) with Some (SecProcs p) => p | _ => [] end).
    assert (Q3 : procs = map procedure_of (procedures_in (s :: l))).
    { subst procs. destruct (get NSidsStars (rev ys)) as [y|]; [|rewrite P3; reflexivity].
      destruct P3 as [s' [x [E [R ->]]]]. destruct s'; try discriminate E. injection E as <-. cbn [sec_reads] in R. injection R as ->. reflexivity. }
    destruct (get NAirspace (rev ys)) as [y|].
    + destruct P2 as [s' [x [E [R A]]]]. destruct s'; try discriminate E. injection E as <-. destruct R as [xs [F E]]. injection E as ->.
      destruct (airspace_result _ _ F) as [R1 R2]. cbv zeta in R1, R2. destruct (combine_sectors _) as [sectors constraints]. cbn [fst snd] in *.
      eexists. split; [reflexivity|]. unfold ese_reads. rewrite A. cbn [e_positions e_sectors e_constraints e_procs]. auto.
    + eexists. split; [reflexivity|]. unfold ese_reads. rewrite P2. cbn [e_positions e_sectors e_constraints e_procs]. split; [exact Q1|]. split; [|split; [|exact Q3]].
      * exists [], []. split; [exists []; split; [constructor | reflexivity]|]. split; [exists []; split; [constructor | reflexivity] | reflexivity].
      * exists []. split; [constructor | reflexivity].
Qed.

(** ** The lines decide the contents *)
Lemma forall2_det {A B} (R : A -> B -> Prop) : (forall a b b', R a b -> R a b' -> b = b') -> forall l m m', Forall2 R l m -> Forall2 R l m' -> m = m'.
Proof. intros D l m m' F. revert m'. induction F as [|a b l m H _ IH]; intros m' F'; inversion F'; subst; [reflexivity|]. f_equal; [eapply D; eassumption | apply IH; assumption]. Qed.
Lemma dms_det d v v' : reads_dms d v -> reads_dms d v' -> v = v'.
Proof.
  destruct v as [[[h g] m] s], v' as [[[h' g'] m'] s']. intros [A [_ [_ [_ [B [C D]]]]]] [A' [_ [_ [_ [B' [C' D']]]]]].
  assert (h = h'); [|congruence]. destruct h, h'; try reflexivity; exfalso; cbn [map In] in A, A'; repeat (destruct A as [A|A]); try contradiction; rewrite <- A in A'; cbn in A'; intuition discriminate.
Qed.
Lemma place_det c p p' : reads_place c p -> reads_place c p' -> p = p'.
Proof. intros [a [b [A [B ->]]]] [a' [b' [A' [B' ->]]]]. rewrite (dms_det _ _ _ A A'), (dms_det _ _ _ B B'). reflexivity. Qed.
Lemma position_det p x x' : reads_position p x -> reads_position p x' -> x = x'.
Proof.
  intros [_ [_ [E1 [E2 [E3 [E4 [E5 [E6 [E7 [S [_ P]]]]]]]]]]] [_ [_ [F1 [F2 [F3 [F4 [F5 [F6 [F7 [S' [_ P']]]]]]]]]]].
  pose proof (forall2_det _ place_det _ _ _ P P') as EP. assert (ES : po_squawk x = po_squawk x').
  { destruct (p_squawk p) as [[a b]|], (po_squawk x) as [[m n]|], (po_squawk x') as [[m' n']|]; try contradiction; [|reflexivity].
    destruct S as [_ [_ [A B]]], S' as [_ [_ [A' B']]]. congruence. }
  destruct x, x'. cbn in *. congruence.
Qed.
Lemma line_det a o o' : reads_line a o -> reads_line a o' -> o = o'.
Proof.
  destruct a; cbn [reads_line]; try congruence. intros [ps [-> P]] [ps' [-> P']]. rewrite (forall2_det _ place_det _ _ _ P P'). reflexivity.
Qed.
Lemma sector_det lines a o o' : reads_sector lines a o -> reads_sector lines a o' -> o = o'.
Proof.
  destruct a; cbn [reads_sector]; try congruence. intros [x [-> [E1 [E2 [E3 [E4 [E5 [E6 [E7 E8]]]]]]]]] [y [-> [F1 [F2 [F3 [F4 [F5 [F6 [F7 F8]]]]]]]]].
  destruct x, y. cbn in *. repeat f_equal; congruence.
Qed.
Lemma level_det o n n' : opt_level o n -> opt_level o n' -> n = n'.
Proof. destruct o, n, n'; cbn; try contradiction; [intros [_ A] [_ B]; congruence | reflexivity]. Qed.
Lemma cop_det a o o' : reads_cop a o -> reads_cop a o' -> o = o'.
Proof.
  destruct a; cbn [reads_cop]; try congruence. intros [x [-> [E1 [E2 [E3 [E4 [E5 [E6 [E7 [L1 [L2 [E8 E9]]]]]]]]]]]] [y [-> [F1 [F2 [F3 [F4 [F5 [F6 [F7 [M1 [M2 [F8 F9]]]]]]]]]]]].
  pose proof (level_det _ _ _ L1 M1). pose proof (level_det _ _ _ L2 M2). destruct x, y. cbn in *. repeat f_equal; congruence.
Qed.
Lemma collects_det {A B} (f : A -> list B -> Prop) : (forall a o o', f a o -> f a o' -> o = o') -> forall l r r', collects f l r -> collects f l r' -> r = r'.
Proof. intros D l r r' [rs [F ->]] [rs' [F' ->]]. rewrite (forall2_det f D _ _ _ F F'). reflexivity. Qed.
Lemma ese_reads_same l e e' : ese_reads l e -> ese_reads l e' -> same_ese e e'.
Proof.
  intros [[ps [P GP]] [[ln [sc [L [S GS]]]] [C R]]] [[ps' [P' GP']] [[ln' [sc' [L' [S' GS']]]] [C' R']]].
  pose proof (forall2_det _ position_det _ _ _ P P') as <-. pose proof (collects_det _ line_det _ _ _ L L') as <-. pose proof (collects_det _ (sector_det ln) _ _ _ S S') as <-.
  split; [intros k; rewrite GP, GP'; reflexivity|]. split; [intros k; rewrite GS, GS'; reflexivity|]. split; [exact (collects_det _ cop_det _ _ _ C C') | congruence].
Qed.
