(** The items of the other sections of a .sct file, as written and read. *)
From Coq Require Import ZifyBool ZifyN ZifyNat.
From Verif Require Import Base Unicode Num NumProofs Float FloatParse Dms SpecDms DmsProofs DmsWide Locations SctData SctItems SctWrite Peg Grammars SpecPeg PegProofs PegLang PegForward PegSkip Trees SpecText TextProofs SctParse SpecSctWrite SctForward SctNames SctLines.
Local Open Scope string_scope.
Local Open Scope list_scope.

(** ** Words and the spaces after them *)
Definition gap (n : nat) (s : text) : text := repeat 32%N (n - List.length s) ++ s2t " ".
Lemma gap_spaces n s : spaces (gap n s).
Proof. split; [unfold gap; destruct (repeat 32%N _); discriminate | apply spaced_app; [apply spaced_repeat | apply spaced_one]]. Qed.
Lemma gap_spaced n s : spaced (gap n s).
Proof. apply gap_spaces. Qed.
Lemma gap_hd n s r : exists u, gap n s ++ r = 32%N :: u.
Proof. unfold gap. destruct (n - List.length s)%nat; cbn [repeat app s2t]; eauto. Qed.
Lemma gap_stops f n s r : f 32%N = false -> stops f (gap n s ++ r).
Proof. intros H. destruct (gap_hd n s r) as [u ->]. exact H. Qed.
Lemma pad_gap n s r : pad_right n s ++ s2t " " ++ r = s ++ gap n s ++ r.
Proof. unfold pad_right, gap. rewrite <- !app_assoc. reflexivity. Qed.
Lemma break_stops f k h : break k -> f 10%N = false -> stops f (k ++ h).
Proof. intros K H. destruct (break_hd k K) as [u ->]. exact H. Qed.

Lemma word_firmer f w r : word f w -> (forall c, f c = true -> dense c = true /\ c <> 59%N /\ c <> 47%N) -> firmer (w ++ r).
Proof.
  intros W H. apply dense_firmer; [eapply dense_word; [|exact W]; apply H|].
  destruct W as [N F]. destruct F as [|c w C F]; [congruence|]. cbn [stops]. apply H in C. lia.
Qed.
Lemma designator_firmer w r : designator w -> firmer (w ++ r).
Proof.
  intros W. eapply word_firmer; [exact W|]. intros c C. split; [apply designator_dense, C|]. unfold designator_char, is_upper, is_digit in C. lia.
Qed.
Lemma colour_firmer w r : colour_word w -> firmer (w ++ r).
Proof.
  intros W. eapply word_firmer; [exact W|]. intros c C. split; [apply colour_dense, C|]. cbn [existsb s2t] in C.
  change (N_of_ascii "-") with 45%N in C. change (N_of_ascii "_") with 95%N in C. unfold is_alnum, is_alpha, is_upper, is_lower, is_digit in C. lia.
Qed.
Lemma digits_firmer w r : SpecText.digits w -> firmer (w ++ r).
Proof.
  intros [N F]. destruct F as [|c w C F]; [congruence|]. cbn [app]. unfold is_digit in C.
  split; [apply firm_char; [unfold space; lia | lia | lia] | cbn [stops]; unfold is_nl; lia].
Qed.
Lemma numeral_firmer w r : numeral w -> firmer (w ++ r).
Proof.
  intros [sg [u [-> [SG U]]]]. rewrite <- app_assoc. destruct (unsigned_hd u r U) as [c [v [E C]]].
  destruct SG as [->|[->| ->]].
  - cbn [app]. rewrite E. unfold number_stop, is_digit in C. split; [apply firm_char; [unfold space; lia | lia | lia] | cbn [stops]; unfold is_nl; lia].
  - split; [apply firm_char; [reflexivity | discriminate | discriminate] | reflexivity].
  - split; [apply firm_char; [reflexivity | discriminate | discriminate] | reflexivity].
Qed.
Lemma fix_char_not c : fix_char c = true -> c <> 10%N /\ c <> 13%N /\ c <> 32%N /\ c <> 35%N.
Proof. intros H. repeat split; intros ->; vm_compute in H; discriminate. Qed.
Lemma fix_in_line w : fix_name w -> in_line w.
Proof. intros [[_ F] _]. eapply Forall_impl; [|exact F]. intros c C. apply fix_char_not in C. tauto. Qed.
Lemma fix_tok w r : fix_name w -> stops fix_char r -> okt NonAtomic &"fix_designator" (w ++ r) r [T "fix_designator" w []].
Proof. intros [W _] S. eapply tok_plus; [discriminate | reflexivity | apply fix_one | exact W | exact S]. Qed.

(** ** Colour definitions *)
Lemma cd_ko r : stops (fun c => (c =? 35)%N) r -> ko G NonAtomic &"colour_definition" r.
Proof. intros S. eapply ko_call; [reflexivity|]. apply ko_seq1, ko_str. intros r' ->. discriminate S. Qed.
Lemma word_no_hash f w r : word f w -> f 35%N = false -> stops (fun c => (c =? 35)%N) (w ++ r).
Proof. intros W H. eapply word_stops; [exact W|]. intros c C. apply N.eqb_neq. intros ->. congruence. Qed.

(** ** A section whose items take one line *)
Lemma line_item {A} e0 (f : tree -> outcome (option A)) x y :
  (forall r, firmer (x ++ r)) -> (forall r, stops (fun c => (c =? 35)%N) (x ++ r)) ->
  (forall k h, break k -> exists tr, reads f tr y /\ okt NonAtomic e0 (x ++ k ++ h) (k ++ h) [tr]) ->
  item (&"colour_definition" // e0) (fun _ => True) f x y.
Proof.
  intros F H R. constructor; [exact F | auto|]. exists x, []. split; [rewrite app_nil_r; reflexivity|]. split; [apply tail_nil|].
  intros k h K _ _. destruct (R k h K) as [tr [RD O]]. exists tr. split; [exact RD|]. apply okt_alt2; [apply cd_ko, H | exact O].
Qed.

Ltac seqb b := eapply (okt_seq NonAtomic _ _ _ b); [| | | | reflexivity].

Lemma coord_firmer p t q r : spelt (LCoord p) t q -> firmer (t ++ r).
Proof. intros S. apply (spelt_firmer _ _ _ S). Qed.

(** ** Navigational aids *)
Lemma nav_read x : good_nav x -> exists t y, nav_fmt x = Some t /\ near_nav x y /\ (forall r, firmer (t ++ r)) /\
  (forall r, stops (fun c => (c =? 35)%N) (t ++ r)) /\
  forall k h, break k -> exists tr, rule_of tr = "location" /\ parse_nav tr = Ret y /\ okt NonAtomic &"location" (t ++ k ++ h) (k ++ h) [tr].
Proof.
  destruct x as [des freq pos]. intros [D [FR P]]. cbn [n_des n_freq n_pos] in *. destruct (coord_spelt pos P) as [t [q [SP [FM [NP RD]]]]].
  exists (des ++ gap 4 des ++ freq ++ s2t " " ++ t), (mkNav des freq q).
  split; [unfold nav_fmt; cbn [n_des n_freq n_pos]; rewrite FM; cbn [option_map]; rewrite pad_gap; reflexivity|].
  split; [repeat split; auto; apply NP|]. split; [intros r; rewrite <- app_assoc; apply designator_firmer, D|].
  split; [intros r; rewrite <- app_assoc; eapply word_no_hash; [exact D | reflexivity]|].
  intros k h K. destruct (RD NonAtomic (k ++ h)) as [tr [R [V O]]]; [apply break_stops; [exact K | reflexivity]|].
  pose proof (okt_normal "location" _ eq_refl eq_refl ((des ++ gap 4 des ++ freq ++ s2t " " ++ t) ++ k ++ h) (k ++ h)) as KK. edestruct KK as [cc [_ OO]].
  - rewrite <- !app_assoc. seqb (gap 4 des); [apply designator_tok; [discriminate | exact D | apply gap_stops; reflexivity] | apply gap_spaced | apply numeral_firmer, FR|].
    seqb (s2t " "); [apply frequency_tok; [discriminate | exact FR | reflexivity] | apply spaced_one | apply (coord_firmer _ _ _ _ SP) | exact O].
  - eexists. split; [|split; [|exact OO]]; [reflexivity|]. unfold parse_nav. cbn [kids_of next obind app text_of]. rewrite V. reflexivity.
Qed.
Lemma vor_item x : good_nav x -> exists t y, nav_fmt x = Some t /\ near_nav x y /\
  item (&"colour_definition" // &"location") (fun _ => True) (some parse_nav) t y.
Proof.
  intros H. destruct (nav_read x H) as [t [y [E [N [F [HS R]]]]]]. exists t, y. split; [exact E|]. split; [exact N|].
  apply line_item; [exact F | exact HS|]. intros k h K. destruct (R k h K) as [tr [RT [V O]]]. exists tr. split; [|exact O].
  split; [unfold is_rule; rewrite RT; reflexivity|]. unfold some. rewrite V. reflexivity.
Qed.
Lemma ndb_item x : good_nav x -> exists t y, nav_fmt x = Some t /\ near_nav x y /\
  item (&"colour_definition" // (&"location" // &"broken")) (fun _ => True) parse_ndb t y.
Proof.
  intros H. destruct (nav_read x H) as [t [y [E [N [F [HS R]]]]]]. exists t, y. split; [exact E|]. split; [exact N|].
  apply line_item; [exact F | exact HS|]. intros k h K. destruct (R k h K) as [tr [RT [V O]]]. exists tr. split; [|apply okt_alt1, O].
  split; [unfold is_rule; rewrite RT; reflexivity|]. unfold parse_ndb. unfold is_rule. rewrite RT. cbn. rewrite V. reflexivity.
Qed.

(** ** Fixes *)
Lemma fix_firmer w b r : fix_name w -> spaces b -> firmer (w ++ b ++ r).
Proof. intros W B. apply solid_firmer; [apply W | apply fix_in_line, W | apply W | exact B]. Qed.
Lemma fix_item x : good_fix x -> exists t y, fix_fmt x = Some t /\ near_fix x y /\
  item (&"colour_definition" // (&"fix" // &"broken")) (fun _ => True) parse_fix t y.
Proof.
  destruct x as [des pos]. intros [D P]. cbn [f_des f_pos] in *. destruct (coord_spelt pos P) as [t [q [SP [FM [NP RD]]]]].
  exists (des ++ gap 5 des ++ t), (mkFix des q).
  split; [unfold fix_fmt; cbn [f_des f_pos]; rewrite FM; cbn [option_map]; rewrite pad_gap; reflexivity|].
  split; [split; [reflexivity | exact NP]|]. apply line_item.
  - intros r. rewrite <- !app_assoc. apply fix_firmer; [exact D | apply gap_spaces].
  - intros r. rewrite <- app_assoc. eapply word_no_hash; [apply D | reflexivity].
  - intros k h K. destruct (RD NonAtomic (k ++ h)) as [tr [R [V O]]]; [apply break_stops; [exact K | reflexivity]|].
    pose proof (okt_normal "fix" _ eq_refl eq_refl ((des ++ gap 5 des ++ t) ++ k ++ h) (k ++ h)) as KK. edestruct KK as [cc [_ OO]].
    + rewrite <- !app_assoc. seqb (gap 5 des); [apply fix_tok; [exact D | apply gap_stops; reflexivity] | apply gap_spaced | apply (coord_firmer _ _ _ _ SP) | exact O].
    + eexists. split; [|apply okt_alt1, OO]. split; [reflexivity|]. unfold parse_fix. cbn. rewrite V. reflexivity.
Qed.

(** ** Airports *)
Lemma airport_item x : good_airport x -> exists t y, airport_fmt x = Some t /\ near_airport x y /\
  item (&"colour_definition" // &"aerodrome") (fun _ => True) (some parse_airport) t y.
Proof.
  destruct x as [des pos ctr]. intros [D [P C]]. cbn [sap_des sap_pos sap_ctr] in *. destruct (coord_spelt pos P) as [t [q [SP [FM [NP RD]]]]].
  exists (des ++ s2t " 000.000 " ++ t ++ s2t " " ++ ctr), (mkSctAp des q ctr).
  split; [unfold airport_fmt; cbn [sap_des sap_pos sap_ctr]; rewrite FM; reflexivity|].
  split; [repeat split; auto; apply NP|]. apply line_item.
  - intros r. rewrite <- app_assoc. apply designator_firmer, D.
  - intros r. rewrite <- app_assoc. eapply word_no_hash; [apply D | reflexivity].
  - intros k h K. destruct (RD NonAtomic (s2t " " ++ ctr ++ k ++ h)) as [tr [R [V O]]]; [reflexivity|].
    assert (OC : okt NonAtomic &"ctr_airspace" (ctr ++ k ++ h) (k ++ h) [T "ctr_airspace" ctr []] /\ firm (ctr ++ k ++ h)).
    { cbn [map In] in C. split.
      - pose proof (okt_normal "ctr_airspace" _ eq_refl eq_refl (ctr ++ k ++ h) (k ++ h) []) as KK. destruct KK as [cc [E OO]].
        + decompose [or] C; subst; try contradiction;
            repeat first [apply okt_alt1, okt_str | apply okt_alt2; [apply ko_str; intros ? E; discriminate E|] | apply okt_str].
        + apply app_inv_tail in E. subst cc. exact OO.
      - decompose [or] C; subst; try contradiction; apply firm_char; (reflexivity || discriminate). }
    destruct OC as [OC FC].
    pose proof (okt_normal "aerodrome" _ eq_refl eq_refl ((des ++ s2t " 000.000 " ++ t ++ s2t " " ++ ctr) ++ k ++ h) (k ++ h)) as KK. edestruct KK as [cc [_ OO]].
    + rewrite <- !app_assoc. change (s2t " 000.000 ") with (s2t " " ++ s2t "000.000" ++ s2t " "). rewrite <- !app_assoc.
      seqb (s2t " "); [apply designator_tok; [discriminate | exact D | reflexivity] | apply spaced_one | apply firm_char; (reflexivity || discriminate)|].
      seqb (s2t " "); [apply okt_opt, okt_alt1, frequency_tok; [discriminate | | reflexivity] | apply spaced_one | apply (coord_firmer _ _ _ _ SP)|].
      { exists [], (s2t "000.000"). split; [reflexivity|]. split; [auto|]. apply (numeral_point (s2t "000") (s2t "000")); [repeat constructor | split; [discriminate | repeat constructor]]. }
      seqb (s2t " "); [exact O | apply spaced_one | exact FC | exact OC].
    + eexists. split; [|exact OO]. split; [reflexivity|]. unfold some, parse_airport. cbn [kids_of next obind app text_of find_pair].
      change (is_rule (T "frequency" (s2t "000.000") []) "sct_coordinate") with false. cbv iota. unfold is_rule. rewrite R. cbn [String.eqb unwrap obind].
      cbn. rewrite V. reflexivity.
Qed.

(** ** Runways *)
Lemma runway_firmer w r : runway_word w -> firmer (w ++ r).
Proof.
  intros [a [b [e [A [_ [_ ->]]]]]]. cbn [app]. unfold is_digit in A. split; [apply firm_char; [unfold space; lia | lia | lia] | cbn [stops]; unfold is_nl; lia].
Qed.
Lemma u32_text n : (n < 2 ^ 32)%N -> parse_u32 (SpecDms.digits 3 n) = Some n.
Proof. intros H. unfold parse_u32. apply parse_uint_fmt; [lia | lia | unfold u32_max; lia]. Qed.
Lemma runway_item x : good_runway x -> exists t y, runway_fmt x = Some t /\ near_runway x y /\
  item (&"colour_definition" // &"runway") (fun _ => True) (some parse_runway) t y.
Proof.
  destruct x as [[d1 d2] [h1 h2] [p1 p2] ad]. intros [D1 [D2 [H1 [H2 [P1 [P2 A]]]]]]. cbn [r_des r_hdg r_loc r_ad fst snd] in *.
  destruct (coord_spelt p1 P1) as [t1 [q1 [SP1 [FM1 [NP1 RD1]]]]]. destruct (coord_spelt p2 P2) as [t2 [q2 [SP2 [FM2 [NP2 RD2]]]]].
  exists (d1 ++ gap 3 d1 ++ d2 ++ gap 3 d2 ++ SpecDms.digits 3 h1 ++ s2t " " ++ SpecDms.digits 3 h2 ++ s2t " " ++ t1 ++ s2t " " ++ t2 ++ s2t " " ++ ad),
    (mkRunway (d1, d2) (h1, h2) (q1, q2) ad).
  split; [unfold runway_fmt; cbn [r_des r_hdg r_loc r_ad fst snd]; rewrite FM1, FM2, !pad_gap; reflexivity|].
  split; [repeat split; auto; try apply NP1; apply NP2|]. apply line_item.
  - intros r. rewrite <- app_assoc. apply runway_firmer, D1.
  - intros r. destruct D1 as [a [b [e [DA [_ [_ ->]]]]]]. cbn [app stops]. unfold is_digit in DA. lia.
  - intros k h K. destruct (RD2 NonAtomic (s2t " " ++ ad ++ k ++ h)) as [tr2 [R2 [V2 O2]]]; [reflexivity|].
    destruct (RD1 NonAtomic (s2t " " ++ t2 ++ s2t " " ++ ad ++ k ++ h)) as [tr1 [R1 [V1 O1]]]; [reflexivity|].
    assert (OE : okt NonAtomic (&"designator" ~~ Star (until NEWLINE)) (ad ++ k ++ h) (k ++ h) ([T "designator" ad []] ++ [])).
    { eapply okt_seq0; [apply designator_tok; [discriminate | exact A | apply break_stops; [exact K | reflexivity]] | apply break_firm, K|].
      destruct (break_hd k K) as [u ->]. apply okt_opt_no, ko_then1. cbn [app]. eapply until_ko. apply (okt_ok _ _ [10]%N), ok_newline_lf. }
    pose proof (okt_normal "runway" _ eq_refl eq_refl ((d1 ++ gap 3 d1 ++ d2 ++ gap 3 d2 ++ SpecDms.digits 3 h1 ++ s2t " " ++ SpecDms.digits 3 h2 ++ s2t " " ++ t1 ++ s2t " " ++ t2 ++ s2t " " ++ ad) ++ k ++ h) (k ++ h)) as KK. edestruct KK as [cc [_ OO]].
    + rewrite <- !app_assoc.
      seqb (gap 3 d1); [apply runway_tok; [discriminate | exact D1 | apply gap_stops; reflexivity] | apply gap_spaced | apply runway_firmer, D2|].
      seqb (gap 3 d2); [apply runway_tok; [discriminate | exact D2 | apply gap_stops; reflexivity] | apply gap_spaced | apply digits_firmer, digits_word|].
      seqb (s2t " "); [apply pos_integer_tok; [discriminate | apply digits_word | reflexivity] | apply spaced_one | apply digits_firmer, digits_word|].
      seqb (s2t " "); [apply pos_integer_tok; [discriminate | apply digits_word | reflexivity] | apply spaced_one | apply (coord_firmer _ _ _ _ SP1)|].
      seqb (s2t " "); [exact O1 | apply spaced_one | apply (coord_firmer _ _ _ _ SP2)|].
      seqb (s2t " "); [exact O2 | apply spaced_one | apply designator_firmer, A | exact OE].
    + eexists. split; [|exact OO]. split; [reflexivity|]. unfold some, parse_runway. cbn [kids_of next obind app text_of].
      rewrite (u32_text h1 H1), (u32_text h2 H2). cbn [unwrap obind]. rewrite V1. cbn [obind]. rewrite V2. reflexivity.
Qed.

(** ** Airways *)
Lemma airway_item x : good_airway x -> exists t y, airway_fmt x = Some t /\ near_airway x y /\
  item (&"colour_definition" // &"airway") (fun _ => True) parse_airway t y.
Proof.
  destruct x as [des l1 l2]. intros [D [P1 P2]]. cbn [aw_des aw_start aw_end] in *.
  destruct (place_spelt l1 P1) as [t1 [q1 SP1]]. destruct (place_spelt l2 P2) as [t2 [q2 SP2]].
  exists (des ++ gap 10 des ++ t1 ++ s2t " " ++ t2), (mkSctAirway des q1 q2).
  split; [unfold airway_fmt; cbn [aw_des aw_start aw_end]; rewrite (sp_fmt _ _ _ SP1), (sp_fmt _ _ _ SP2), pad_gap; reflexivity|].
  split; [split; [reflexivity | split; [apply (sp_near _ _ _ SP1) | apply (sp_near _ _ _ SP2)]]|]. apply line_item.
  - intros r. rewrite <- !app_assoc. apply fix_firmer; [exact D | apply gap_spaces].
  - intros r. rewrite <- app_assoc. eapply word_no_hash; [apply D | reflexivity].
  - intros k h K. destruct (place_ok _ _ _ (k ++ h) SP2) as [tr2 [V2 O2]]; [apply break_stops; [exact K | reflexivity] | apply break_stops; [exact K | reflexivity]|].
    destruct (place_ok _ _ _ (s2t " " ++ t2 ++ k ++ h) SP1) as [tr1 [V1 O1]]; [reflexivity | reflexivity|].
    pose proof (okt_normal "airway" _ eq_refl eq_refl ((des ++ gap 10 des ++ t1 ++ s2t " " ++ t2) ++ k ++ h) (k ++ h)) as KK. edestruct KK as [cc [_ OO]].
    + rewrite <- !app_assoc. seqb (gap 10 des); [apply fix_tok; [exact D | apply gap_stops; reflexivity] | apply gap_spaced | apply (spelt_firmer _ _ _ SP1)|].
      seqb (s2t " "); [exact O1 | apply spaced_one | apply (spelt_firmer _ _ _ SP2) | exact O2].
    + eexists. split; [|exact OO]. split; [reflexivity|]. unfold parse_airway. cbn [kids_of next obind app text_of]. rewrite V1. cbn [obind]. rewrite V2. reflexivity.
Qed.

(** ** Names *)
Lemma nl_ko_at a b d t : a <> NonAtomic -> blanks b -> is_blank d = false -> is_nl d = false -> ko G a &"NL" (b ++ d :: t).
Proof.
  intros A B D N. apply (ko_call G a "NL" KSilent (Plus (Star SPTAB ~~ NEWLINE))); [reflexivity|]. change (body_atom "NL" KSilent a) with a. apply ko_seq1.
  eapply ko_seq2_at; [exact A | eapply (ok_star_one G a SPTAB is_blank b (d :: t)); [exact A | apply sptab_one | exact B | exact D]|]. apply ko_newline. exact N.
Qed.
Lemma blank_not_nl s : in_line s -> (exists c, In c s /\ is_blank c = false) -> exists b d t, s = b ++ d :: t /\ blanks b /\ is_blank d = false /\ is_nl d = false.
Proof.
  intros L [c [I C]]. destruct (span_blank s) as [b [t [-> [B S]]]]. destruct t as [|d t].
  - exfalso. rewrite app_nil_r in I. unfold blanks in B. rewrite Forall_forall in B. apply B in I. congruence.
  - exists b, d, t. split; [reflexivity|]. split; [exact B|]. split; [exact S|]. apply Forall_app in L. destruct L as [_ L]. inversion L; subst. unfold is_nl. lia.
Qed.
Lemma star_until x s t : ko G Atomic (until x) t -> (forall s1 c s2, s = s1 ++ c :: s2 -> ko G Atomic x (c :: s2 ++ t)) -> okt Atomic (Star (until x)) (s ++ t) t [].
Proof.
  intros K H. destruct s as [|c s]; [apply okt_opt_no, ko_then1, K|]. apply okt_opt.
  apply (okt_then Atomic _ _ (c :: s ++ t) (s ++ t) t [] []); [apply until_ok; [discriminate | apply (H [] c s eq_refl)]|].
  apply untils; [discriminate | | exact K]. intros s1 c' s2 ->. apply (H (c :: s1) c' s2 eq_refl).
Qed.
Lemma solid_firm s c r : solid s -> (s = [] -> space c = false) -> c <> 59%N -> c <> 47%N -> firm (s ++ c :: r).
Proof.
  intros [S1 [S2 S3]] HC C1 C2. destruct s as [|x s].
  - apply firm_char; auto.
  - split; [apply (S1 x s eq_refl)|]. intros [r' [E|E]]; cbn [app s2t] in E.
    + injection E as -> _. apply S2. exists s. reflexivity.
    + injection E as -> E. destruct s as [|y s]; cbn [app] in E; [injection E as E _; apply C2; exact E|]. injection E as -> _. apply S3. exists s. reflexivity.
Qed.

(** ** Labels *)
Lemma label_tok name r : label_name name -> okt NonAtomic &"quote_delimited_text" (name ++ 34%N :: r) (34%N :: r) [T "quote_delimited_text" name []].
Proof.
  intros [[L F] _].
  assert (O : okt Atomic (Star (until (&"NL" // chr 34))) (name ++ 34%N :: r) (34%N :: r) []).
  { apply star_until.
    - eapply until_ko. apply okt_alt2; [apply (nl_ko_at Atomic [] 34%N r); [discriminate | constructor | reflexivity | reflexivity]|]. apply (okt_str Atomic [34]%N r).
    - intros s1 c s2 ->. apply Forall_app in L, F. destruct L as [_ L], F as [_ F]. apply ko_alt.
      + destruct (blank_not_nl ((c :: s2) ++ [34]%N)) as [b [d [t [E [B [D N]]]]]].
        * apply Forall_app. split; [exact L | repeat constructor; discriminate].
        * exists 34%N. split; [apply in_or_app; right; left; reflexivity | reflexivity].
        * replace (c :: s2 ++ 34%N :: r) with (b ++ d :: t ++ r); [apply nl_ko_at; auto; discriminate|].
          change (c :: s2 ++ 34%N :: r) with ((c :: s2) ++ [34]%N ++ r). rewrite app_assoc, E, <- app_assoc. reflexivity.
      + apply (ko_chr Atomic 34). cbn [stops]. inversion F; subst. cbn [In] in *. lia. }
  destruct O as [w [E O]]. apply app_inv_tail in E. subst w. eapply tok; [discriminate | reflexivity | exact O].
Qed.
Lemma label_item x : good_label x -> exists t y, label_fmt x = Some t /\ near_label x y /\
  item (&"colour_definition" // &"label") (fun _ => True) (some parse_label) t y.
Proof.
  destruct x as [name l col]. intros [NM [[p [EL P]] C]]. cbn [sb_name sb_coord sb_colour] in *. subst l.
  destruct (coord_spelt p P) as [t [q [SP [FM [NP RD]]]]].
  exists ([34]%N ++ name ++ [34]%N ++ s2t " " ++ t ++ s2t " " ++ col), (mkSctLabel name (LCoord q) col).
  split; [unfold label_fmt; cbn [sb_name sb_coord sb_colour location_fmt]; rewrite FM; reflexivity|].
  split; [split; [reflexivity | split; [exact NP | reflexivity]]|]. apply line_item.
  - intros r. split; [apply firm_char; (reflexivity || discriminate) | reflexivity].
  - intros r. reflexivity.
  - intros k h K. destruct (RD NonAtomic (s2t " " ++ col ++ k ++ h)) as [tr [R [V O]]]; [reflexivity|].
    pose proof (okt_normal "label" _ eq_refl eq_refl (([34]%N ++ name ++ [34]%N ++ s2t " " ++ t ++ s2t " " ++ col) ++ k ++ h) (k ++ h)) as KK. edestruct KK as [cc [_ OO]].
    + rewrite <- !app_assoc. seqb (s2t " ").
      * apply okt_silent with (e := chr 34 ~~ &"quote_delimited_text" ~~ chr 34); [reflexivity | reflexivity|].
        eapply okt_seq0; [apply (okt_str NonAtomic [34]%N) | apply solid_firm; [apply NM | reflexivity | discriminate | discriminate]|].
        eapply okt_seq0; [apply label_tok, NM | apply firm_char; (reflexivity || discriminate) | apply (okt_str NonAtomic [34]%N)].
      * apply spaced_one.
      * apply (coord_firmer _ _ _ _ SP).
      * seqb (s2t " "); [exact O | apply spaced_one | apply colour_firmer, C|]. eapply tok_plus; [discriminate | reflexivity | apply colour_one | exact C | apply break_stops; [exact K | reflexivity]].
    + eexists. split; [|exact OO]. split; [reflexivity|]. unfold some, parse_label. cbn [kids_of next obind app text_of]. unfold parse_location, is_rule. rewrite R. cbn. rewrite V. reflexivity.
Qed.

(** ** Regions *)
Lemma coord_ko a t : stops (fun c => existsb (N.eqb c) (s2t "NSWEnswe")) t -> ko G a &"sct_coordinate" t.
Proof.
  intros S. eapply ko_call; [reflexivity|]. apply ko_seq1. eapply ko_call; [reflexivity|]. apply ko_seq1. eapply ko_tok; [reflexivity|].
  destruct t as [|c t]; [repeat (apply ko_alt; [apply ko_str; intros ? X; discriminate X|]); apply ko_str; intros ? X; discriminate X|].
  cbn [stops] in S. repeat (apply ko_alt; [apply ko_str; intros ? X; injection X as -> _; discriminate S|]). apply ko_str; intros ? X; injection X as -> _; discriminate S.
Qed.
Definition not_coord (h : text) : Prop := ko G NonAtomic &"sct_coordinate" h.
Lemma region_tok name u : region_name name -> okt NonAtomic &"name" (name ++ 10%N :: u) (10%N :: u) [T "name" name []].
Proof.
  intros [[L F] [_ E]]. assert (A : Atomic <> NonAtomic) by discriminate.
  assert (O : okt Atomic (Star (until (&"NL" // TAB // str "["))) (name ++ 10%N :: u) (10%N :: u) []).
  { apply star_until.
    - destruct (nl_at Atomic u A) as [r O]. eapply until_ko. apply okt_alt1, O.
    - intros s1 c s2 EN. assert (L' := L). assert (F' := F). rewrite EN in L', F'. apply Forall_app in L', F'. destruct L' as [_ L'], F' as [_ F']. apply ko_alt.
      + destruct (blank_not_nl (c :: s2)) as [b [d [t [EB [B [D N]]]]]]; [exact L'| |].
        * destruct (exists_last (l := c :: s2)) as [v [z EZ]]; [discriminate|]. exists z. rewrite EZ in *. split; [apply in_or_app; right; left; reflexivity|].
          unfold is_blank. assert (z <> 32%N) by (apply (E z (s1 ++ v)); rewrite EN, app_assoc; reflexivity).
          apply Forall_app in F'. destruct F' as [_ F']. inversion F'; subst. cbn [In] in *. lia.
        * change (c :: s2 ++ 10%N :: u) with ((c :: s2) ++ 10%N :: u). rewrite EB, <- app_assoc. cbn [app]. apply nl_ko_at; assumption.
      + inversion F'; subst. cbn [In] in *. apply ko_alt; [apply (ko_chr Atomic 9) | apply (ko_chr Atomic 91)]; cbn [stops]; lia. }
  destruct O as [w [EW O]]. apply app_inv_tail in EW. subst w. eapply tok; [discriminate | reflexivity | exact O].
Qed.
Definition spelt_point (p : point) (tq : text * point) : Prop :=
  spelt (LCoord p) (fst tq) (LCoord (snd tq)) /\ deg_min_sec_fmt p = Some (fst tq) /\ near_point p (snd tq) /\
  forall r, stops number_stop r -> exists tr, coordinate tr = Ret (snd tq) /\ okt NonAtomic &"sct_coordinate" (fst tq ++ r) r [tr].
Lemma points_spelt l : Forall on_globe l -> exists tqs, Forall2 spelt_point l tqs.
Proof.
  apply Forall_exists2. intros p P. destruct (coord_spelt p P) as [t [q [SP [FM [NP RD]]]]]. exists (t, q). split; [exact SP|]. split; [exact FM|]. split; [exact NP|].
  intros r R. destruct (RD NonAtomic r R) as [tr [_ H]]. eauto.
Qed.
Definition IND26 : text := pad_right 26 [] ++ s2t " ".
Lemma ind26_blanks : blanks IND26.
Proof. unfold IND26, pad_right. repeat constructor. Qed.
Lemma after_break s xs k h : break s -> break k -> exists u, after s xs ++ k ++ h = 10%N :: u.
Proof.
  intros S K. destruct xs as [|x xs]; [destruct (break_hd k K) as [u ->]; eexists; reflexivity|].
  unfold after. cbn [map List.concat]. destruct (break_hd s S) as [u ->]. eexists. reflexivity.
Qed.
Lemma points_items l tqs k h : Forall2 spelt_point l tqs -> break k -> firmer h -> not_coord h ->
  exists trs, items &"sct_coordinate" (after (LF ++ IND26) (map fst tqs) ++ k ++ h) (k ++ h) trs /\ Forall2 (fun tr y => coordinate tr = Ret y) trs (map snd tqs).
Proof.
  intros H K F NC. assert (B : break (LF ++ IND26)) by (apply (break_one IND26), ind26_blanks). induction H as [|p [t q] l tqs [SP [_ [_ RD]]] H [trs [I V]]].
  - exists []. split; [|constructor]. apply items_nil; [apply break_firm, K | apply nl_ko; assumption].
  - cbn [fst snd map] in *. destruct (after_break (LF ++ IND26) (map fst tqs) k h B K) as [u EU].
    destruct (RD (after (LF ++ IND26) (map fst tqs) ++ k ++ h)) as [tr [V0 O]]; [rewrite EU; reflexivity|].
    exists (tr :: trs). split; [|constructor; assumption]. unfold after. cbn [map List.concat]. fold (after (LF ++ IND26) (map fst tqs)). rewrite <- !app_assoc.
    change (LF ++ IND26 ++ t ++ after (LF ++ IND26) (map fst tqs) ++ k ++ h) with ((LF ++ IND26) ++ t ++ after (LF ++ IND26) (map fst tqs) ++ k ++ h).
    apply (items_cons _ _ _ (after (LF ++ IND26) (map fst tqs) ++ k ++ h) _ [tr] trs); [exact B | apply (coord_firmer _ _ _ _ SP) | exact O | exact I].
Qed.
Lemma omap_read {A} (f : tree -> outcome A) trs ys : Forall2 (fun tr y => f tr = Ret y) trs ys -> omap f trs = Ret ys.
Proof. induction 1 as [|tr y trs ys E _ IH]; [reflexivity|]. cbn [omap]. rewrite E. cbn [obind]. rewrite IH. reflexivity. Qed.
Lemma region_item x : good_region x -> exists t y, region_fmt x = Some t /\ near_region x y /\
  item (&"colour_definition" // &"region") not_coord (some parse_region) t y.
Proof.
  destruct x as [name col poly]. intros [NM [C [NN P]]]. cbn [rg_name rg_colour rg_polygon] in *. destruct (points_spelt poly P) as [tqs H].
  destruct H as [|p [t q] poly tqs SP H]; [congruence|]. clear NN P.
  set (core := s2t "REGIONNAME" ++ s2t " " ++ name ++ LF ++ col ++ gap 26 col ++ t ++ after (LF ++ IND26) (map fst tqs)).
  assert (FM : region_fmt (mkRegion name col (p :: poly)) = Some core).
  { unfold region_fmt. cbn [rg_name rg_colour rg_polygon]. rewrite (all_some_Forall2 deg_min_sec_fmt (p :: poly) (map fst ((t, q) :: tqs))).
    - cbn [map tl]. change (s2t "REGIONNAME ") with (s2t "REGIONNAME" ++ s2t " "). rewrite pad_gap. unfold core. rewrite <- !app_assoc. reflexivity.
    - apply (proj2 (Forall2_map_r _ _ _ _)). constructor; [apply SP|]. eapply Forall2_impl; [|exact H]. intros a b S. apply S. }
  exists core, (mkRegion name col (map snd ((t, q) :: tqs))). split; [exact FM|].
  split; [split; [reflexivity|split; [reflexivity|]]; apply (proj2 (Forall2_map_r _ _ _ _)); constructor; [apply SP|]; eapply Forall2_impl; [|exact H]; intros a b S; apply S|].
  constructor.
  - intros r. split; [apply firm_char; (reflexivity || discriminate) | reflexivity].
  - intros r. apply coord_ko. reflexivity.
  - exists core, []. split; [rewrite app_nil_r; reflexivity|]. split; [apply tail_nil|]. intros k h K F NC.
    assert (B : break (LF ++ IND26)) by (apply (break_one IND26), ind26_blanks). destruct SP as [SP [_ [_ RD]]]. cbn [fst snd] in *.
    destruct (points_items poly tqs k h H K F NC) as [trs [I V]].
    destruct (RD (after (LF ++ IND26) (map fst tqs) ++ k ++ h)) as [tr [V0 O]]; [destruct (after_break (LF ++ IND26) (map fst tqs) k h B K) as [u ->]; reflexivity|].
    set (rest := col ++ gap 26 col ++ t ++ after (LF ++ IND26) (map fst tqs) ++ k ++ h).
    destruct (nl_ok (LF ++ []) rest) as [b [BB ON]]; [apply (break_one []); constructor | apply colour_firmer, C|]. rewrite app_nil_r in ON.
    pose proof (okt_normal "region" _ eq_refl eq_refl (core ++ k ++ h) (k ++ h)) as KK. edestruct KK as [cc [_ OO]].
    + replace (core ++ k ++ h) with (s2t "REGIONNAME" ++ s2t " " ++ name ++ LF ++ rest) by (unfold core, rest; rewrite <- !app_assoc; reflexivity).
      seqb (s2t " "); [apply okt_opt, okt_str | apply spaced_one | apply solid_firm; [apply NM | reflexivity | discriminate | discriminate]|].
      eapply okt_seq0; [apply region_tok, NM | apply firm_lf|].
      seqb b; [apply okt_opt, ON | apply blank_spaced, BB | apply colour_firmer, C|]. unfold rest.
      seqb (gap 26 col); [eapply tok_plus; [discriminate | reflexivity | apply colour_one | exact C | apply gap_stops; reflexivity] | apply gap_spaced | apply (coord_firmer _ _ _ _ SP)|].
      eapply okt_seq0; [exact O | eapply items_firm, I | apply items_star, I].
    + eexists. split; [|apply okt_alt2; [apply cd_ko; reflexivity | exact OO]]. split; [reflexivity|]. unfold some, parse_region. cbn [kids_of next obind app text_of].
      rewrite (omap_read coordinate (tr :: trs) (q :: map snd tqs)); [reflexivity|]. constructor; assumption.
Qed.
