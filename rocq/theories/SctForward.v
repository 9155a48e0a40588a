(** Matching written text with the grammar of .sct files: tokens, line breaks, coordinates, fixes. *)
From Coq Require Import ZifyBool ZifyN ZifyNat.
From Verif Require Import Base Unicode Num Float FloatParse Dms SpecDms DmsProofs DmsWide Locations SctData SctWrite Peg Grammars SpecPeg PegProofs PegLang PegForward PegSkip Trees SpecText TextProofs SctParse SpecSctWrite.
Local Open Scope string_scope.
Local Open Scope list_scope.
Notation G := sct_grammar.

Definition okt (a : atom) (e : expr) (t r : text) (ts : list tree) : Prop := exists c, t = c ++ r /\ ok G a e c r ts.
(** what is left to read does not start with white space or a comment; nor with a line break *)
Definition firm (r : text) : Prop := stops space r /\ ~ comment_start r.
Definition firmer (r : text) : Prop := firm r /\ stops is_nl r.
Definition spaced (b : text) : Prop := Forall (fun c => space c = true) b.

Lemma spaced_nil : spaced []. Proof. constructor. Qed.
Lemma spaced_one : spaced (s2t " "). Proof. repeat constructor. Qed.
Lemma spaced_app a b : spaced a -> spaced b -> spaced (a ++ b). Proof. intros A B. apply Forall_app. auto. Qed.
Lemma spaced_repeat n : spaced (repeat 32%N n). Proof. induction n; constructor; auto. Qed.
Lemma firm_lf r : firm (10%N :: r). Proof. split; [reflexivity|]. intros [r' [E|E]]; discriminate. Qed.
Lemma firm_nil : firm []. Proof. split; [exact I|]. intros [r' [E|E]]; discriminate. Qed.
Lemma firm_char c r : space c = false -> c <> 59%N -> c <> 47%N -> firm (c :: r).
Proof. intros S A B. split; [exact S|]. intros [r' [E|E]]; injection E; congruence. Qed.

Lemma ws_one a : one G a (Call "WHITESPACE") space.
Proof.
  apply (one_call G a "WHITESPACE" KSilent (str " " // TAB // chr 65279) space eq_refl); [|exact I].
  eapply one_ext; [apply one_alt; [apply one_chr | apply one_alt; apply one_chr]|]. intros c. unfold space. cbn. rewrite orb_assoc. reflexivity.
Qed.
Lemma skip_ok b r : spaced b -> firm r -> ok G NonAtomic Skip b r [].
Proof.
  intros B [S N]. apply (skip_std_ok G space (str " " // TAB // chr 65279)); try reflexivity.
  - eapply one_ext; [apply one_alt; [apply one_chr | apply one_alt; apply one_chr]|]. intros c. unfold space. cbn. rewrite orb_assoc. reflexivity.
  - exists b, []. rewrite app_nil_r. repeat split; auto.
Qed.
Lemma okt_ok a e c r ts : ok G a e c r ts -> okt a e (c ++ r) r ts.
Proof. intros H. exists c. auto. Qed.
Lemma okt_seq a x y t b t' r t1 t2 : okt NonAtomic x t (b ++ t') t1 -> spaced b -> firm t' -> okt NonAtomic y t' r t2 ->
  a = NonAtomic -> okt a (Seq x y) t r (t1 ++ t2).
Proof.
  intros [c1 [-> H1]] B F [c2 [-> H2]] ->. exists (c1 ++ b ++ c2). split; [rewrite <- !app_assoc; reflexivity|].
  apply ok_then; [rewrite <- app_assoc; exact H1|]. apply (ok_then G NonAtomic Skip y b c2 r [] t2); [apply skip_ok; assumption | exact H2].
Qed.
Lemma okt_seq0 x y t t' r t1 t2 : okt NonAtomic x t t' t1 -> firm t' -> okt NonAtomic y t' r t2 -> okt NonAtomic (Seq x y) t r (t1 ++ t2).
Proof. intros H F H2. eapply (okt_seq NonAtomic x y t [] t'); eauto. constructor. Qed.
Lemma okt_seq_at a x y t t' r t1 t2 : a <> NonAtomic -> okt a x t t' t1 -> okt a y t' r t2 -> okt a (Seq x y) t r (t1 ++ t2).
Proof. intros A [c1 [-> H1]] [c2 [-> H2]]. exists (c1 ++ c2). split; [apply app_assoc|]. apply ok_seq_at; assumption. Qed.
Lemma okt_then a x y t t' r t1 t2 : okt a x t t' t1 -> okt a y t' r t2 -> okt a (Then x y) t r (t1 ++ t2).
Proof. intros [c1 [-> H1]] [c2 [-> H2]]. exists (c1 ++ c2). split; [apply app_assoc|]. apply ok_then; assumption. Qed.
Lemma ko_seq2 x y t b t' t1 : okt NonAtomic x t (b ++ t') t1 -> spaced b -> firm t' -> ko G NonAtomic y t' -> ko G NonAtomic (Seq x y) t.
Proof.
  intros [c1 [-> H1]] B F K. eapply ko_then2; [exact H1|]. apply (ko_then2 G NonAtomic Skip y b t' []); [apply skip_ok; assumption | exact K].
Qed.
Lemma ko_seq2_att a x y t t' t1 : a <> NonAtomic -> okt a x t t' t1 -> ko G a y t' -> ko G a (Seq x y) t.
Proof. intros A [c1 [-> H1]] K. eapply ko_seq2_at; eassumption. Qed.
Lemma okt_alt1 a x y t r ts : okt a x t r ts -> okt a (Alt x y) t r ts.
Proof. intros [c [-> H]]. exists c. split; [reflexivity | apply ok_alt1, H]. Qed.
Lemma okt_alt2 a x y t r ts : ko G a x t -> okt a y t r ts -> okt a (Alt x y) t r ts.
Proof. intros K [c [-> H]]. exists c. split; [reflexivity | apply ok_alt2; assumption]. Qed.
Lemma okt_opt a x t r ts : okt a x t r ts -> okt a (Opt x) t r ts.
Proof. intros [c [-> H]]. exists c. split; [reflexivity | apply ok_opt, H]. Qed.
Lemma okt_opt_no a x t : ko G a x t -> okt a (Opt x) t t [].
Proof. intros K. exists []. split; [reflexivity | apply ok_opt_no, K]. Qed.
Lemma okt_not a x t : ko G a x t -> okt a (Not x) t t [].
Proof. intros K. exists []. split; [reflexivity | apply ok_not, K]. Qed.
Lemma ko_nott a x t r ts : okt a x t r ts -> ko G a (Not x) t.
Proof. intros [c [-> H]]. eapply ko_not, H. Qed.
Lemma okt_str a s r : okt a (Str s) (s ++ r) r [].
Proof. apply okt_ok, ok_str. Qed.
Lemma okt_many_nil a x r : ko G a x r -> okt a (Many x) r r [].
Proof. intros K. exists []. split; [reflexivity | apply ok_many_nil, K]. Qed.
Lemma okt_many_cons a x t t' r t1 t2 : okt a x t t' t1 -> okt a (Many x) t' r t2 -> okt a (Many x) t r (t1 ++ t2).
Proof. intros [c1 [-> H1]] [c2 [-> H2]]. exists (c1 ++ c2). split; [apply app_assoc | apply ok_many_cons; assumption]. Qed.
Lemma okt_silent a n e t r ts : get n G = Some (KSilent, e) -> body_atom n KSilent a = a -> okt a e t r ts -> okt a (Call n) t r ts.
Proof. intros E B [c [-> H]]. exists c. split; [reflexivity|]. apply (ok_call G a n KSilent e c r ts E). rewrite B. exact H. Qed.
Lemma okt_normal n e : get n G = Some (KNormal, e) -> body_atom n KNormal NonAtomic = NonAtomic -> forall t r ts, okt NonAtomic e t r ts ->
  exists c, t = c ++ r /\ okt NonAtomic (Call n) t r [T n c ts].
Proof. intros E B t r ts [c [-> H]]. exists c. split; [reflexivity|]. exists c. split; [reflexivity|]. apply (ok_call G NonAtomic n KNormal e c r ts E). rewrite B. exact H. Qed.
Lemma okt_compound n e : get n G = Some (KCompound, e) -> forall a t r ts, okt Compound e t r ts ->
  exists c, t = c ++ r /\ okt a (Call n) t r [T n c ts].
Proof. intros E a t r ts [c [-> H]]. exists c. split; [reflexivity|]. exists c. split; [reflexivity|]. apply (ok_call G a n KCompound e c r ts E). exact H. Qed.
(** atomic rules *)
Lemma tok a n e w r : a <> Atomic -> get n G = Some (KAtomic, e) -> ok G Atomic e w r [] -> okt a (Call n) (w ++ r) r [T n w []].
Proof.
  intros A E H. apply okt_ok. pose proof (ok_call G a n KAtomic e w r [] E H) as O. destruct a; try exact O; contradiction A; reflexivity.
Qed.
Lemma ko_tok a n e r : get n G = Some (KAtomic, e) -> ko G Atomic e r -> ko G a (Call n) r.
Proof. intros E H. eapply ko_call; eassumption. Qed.
Lemma tok_plus a n x f w r : a <> Atomic -> get n G = Some (KAtomic, Plus x) -> one G Atomic x f -> word f w -> stops f r ->
  okt a (Call n) (w ++ r) r [T n w []].
Proof. intros A E O [W F] S. eapply tok; [exact A | exact E|]. eapply ok_plus_one; eauto. discriminate. Qed.
Lemma ko_plus a n x f r : get n G = Some (KAtomic, Plus x) -> one G Atomic x f -> stops f r -> ko G a (Call n) r.
Proof. intros E O S. eapply ko_tok; [exact E|]. eapply ko_plus_one; eassumption. Qed.

Lemma designator_one : one G Atomic (ASCII_ALPHA_UPPER // ASCII_DIGIT) designator_char.
Proof. apply one_alt; apply one_sat. Qed.
Lemma designator_tok a w r : a <> Atomic -> designator w -> stops designator_char r -> okt a (Call "designator") (w ++ r) r [T "designator" w []].
Proof. intros A D S. eapply tok_plus; eauto; [reflexivity | apply designator_one]. Qed.
Lemma colour_one : one G Atomic (ASCII_ALPHANUMERIC // str "-" // str "_") (fun c => is_alnum c || existsb (N.eqb c) (s2t "-_")).
Proof.
  eapply one_ext; [apply one_alt; [apply one_sat | apply one_alt; apply one_chr]|]. intros c. cbn [existsb s2t]. rewrite orb_false_r. reflexivity.
Qed.
Lemma fix_one : one G Atomic (LETTER // ASCII_DIGIT // str "!" // str "(" // str ")" // str "/" // str "-" // str "_" // str "." // str "[" // str "]") fix_char.
Proof.
  eapply one_ext; [repeat (apply one_alt; [apply one_sat || apply one_chr|]); apply one_chr|].
  intros c. unfold fix_char. cbn [existsb s2t]. rewrite orb_false_r, <- !orb_assoc. reflexivity.
Qed.
Lemma callsign_one : one G Atomic (ASCII_ALPHANUMERIC // str "_") (fun c => is_alnum c || (c =? 95)%N).
Proof. apply one_alt; [apply one_sat | apply one_chr]. Qed.
Lemma sector_one : one G Atomic (LETTER // ASCII_DIGIT // TAB // range 32 126)
  (fun c => is_letter c || ((32 <=? c) && (c <=? 126))%N || (c =? 9)%N).
Proof.
  eapply one_ext; [repeat (apply one_alt; [apply one_sat || apply one_chr|]); apply one_sat|].
  intros c. cbn beta. unfold is_digit. destruct (is_letter c); [reflexivity|]. cbn [orb]. lia.
Qed.

(** ** Numbers *)
Definition number_stop (c : N) : bool := is_digit c || (c =? 46)%N.
Lemma stops_number r : stops number_stop r -> stops is_digit r /\ stops (fun c => (c =? 46)%N) r.
Proof. destruct r as [|c r]; [auto|]. cbn [stops]. unfold number_stop. intros H. apply orb_false_elim in H. exact H. Qed.
Lemma digits_plus a s r : a <> NonAtomic -> SpecText.digits s -> stops is_digit r -> ok G a (Plus ASCII_DIGIT) s r [].
Proof. intros A [N F] S. apply ok_plus_sat; assumption. Qed.
Lemma ko_chr a c r : stops (fun x => (x =? c)%N) r -> ko G a (Str [c]) r.
Proof. intros S. apply (one_chr G a c). exact S. Qed.
Lemma unsigned_hd u r : unsigned_numeral u -> exists c w, u ++ r = c :: w /\ number_stop c = true.
Proof.
  intros [a [N F]|a b F [N F']].
  - destruct a as [|c a]; [congruence|]. inversion F; subst. exists c, (a ++ r). split; [reflexivity|]. unfold number_stop. rewrite H1. reflexivity.
  - destruct a as [|c a]; [exists 46%N, (b ++ r); split; reflexivity|]. inversion F; subst. eexists c, _. split; [reflexivity|]. unfold number_stop. rewrite H1. reflexivity.
Qed.
Lemma numeral_ok s r : numeral s -> stops number_stop r ->
  ok G Atomic (Opt (str "-" // str "+") ~~ ((Star ASCII_DIGIT ~~ str "." ~~ Plus ASCII_DIGIT) // Plus ASCII_DIGIT)) s r [].
Proof.
  intros [sg [u [-> [SG U]]]] ST. destruct (stops_number r ST) as [SD SP].
  apply (ok_seq_at G Atomic _ _ sg u r [] []); [discriminate| |].
  - destruct SG as [->|[->| ->]]; [|apply ok_opt, ok_alt1, ok_str|apply ok_opt, ok_alt2; [apply ko_str; discriminate | apply ok_str]].
    destruct (unsigned_hd u r U) as [c [w [E C]]]. rewrite E. apply ok_opt_no. unfold number_stop, is_digit in C.
    apply ko_alt; [apply (ko_chr Atomic 45) | apply (ko_chr Atomic 43)]; cbn [stops]; lia.
  - destruct U as [a D|a b F D].
    + apply ok_alt2; [|apply digits_plus; [discriminate | exact D | exact SD]].
      eapply ko_seq2_at; [discriminate | apply (ok_star_sat G Atomic is_digit a r); [discriminate | apply D | exact SD]|].
      apply ko_seq1, (ko_chr Atomic 46 r), SP.
    + apply ok_alt1. apply (ok_seq_at G Atomic _ _ a _ r [] []); [discriminate | apply ok_star_sat; [discriminate | exact F | reflexivity] |].
      apply (ok_seq_at G Atomic _ _ (s2t ".") b r [] []); [discriminate | apply ok_str | apply digits_plus; [discriminate | exact D | exact SD]].
Qed.
Lemma decimal_tok a s r : a <> Atomic -> numeral s -> stops number_stop r -> okt a (Call "decimal") (s ++ r) r [T "decimal" s []].
Proof. intros A N S. eapply tok; [exact A | reflexivity | apply numeral_ok; assumption]. Qed.
Lemma frequency_tok a s r : a <> Atomic -> numeral s -> stops number_stop r -> okt a (Call "frequency") (s ++ r) r [T "frequency" s []].
Proof.
  intros A N S. eapply tok; [exact A | reflexivity|].
  apply (ok_call G Atomic "decimal" KAtomic _ s r [] eq_refl). apply numeral_ok; assumption.
Qed.
Lemma pos_integer_tok a s r : a <> Atomic -> SpecText.digits s -> stops is_digit r -> okt a (Call "pos_integer") (s ++ r) r [T "pos_integer" s []].
Proof.
  intros A D S. eapply tok; [exact A | reflexivity|]. apply (ok_seq_at G Atomic _ _ [] s r [] []); [discriminate| |apply digits_plus; [discriminate | exact D | exact S]].
  apply ok_opt_no. destruct D as [N F]. destruct s as [|c s]; [congruence|]. inversion F; subst. apply (ko_chr Atomic 43). cbn [stops app]. unfold is_digit in *. lia.
Qed.
Lemma runway_tok a s r : a <> Atomic -> runway_word s -> stops (fun c => existsb (N.eqb c) (s2t "LCRG")) r ->
  okt a (Call "runway_designator") (s ++ r) r [T "runway_designator" s []].
Proof.
  intros A [x [y [e [X [Y [E ->]]]]]] S. eapply tok; [exact A | reflexivity|].
  apply (ok_seq_at G Atomic _ _ [x; y] e r [] []); [discriminate| |].
  - apply (ok_seq_at G Atomic _ _ [x] [y] (e ++ r) [] []); [discriminate | apply ok_sat, X | apply ok_sat, Y].
  - assert (O : one G Atomic (str "L" // str "C" // str "R" // str "G") (fun c => existsb (N.eqb c) (s2t "LCRG"))).
    { eapply one_ext; [repeat (apply one_alt; [apply one_chr|]); apply one_chr|]. intros c. cbn [existsb s2t]. rewrite orb_false_r. reflexivity. }
    cbn [In] in E. destruct E as [<-|E]; [apply ok_opt_no, O; exact S|]. apply ok_opt.
    destruct E as [<-|[<-|[<-|[<-|[]]]]]; apply O; reflexivity.
Qed.

(** ** Coordinates *)
Lemma digits_word w n : SpecText.digits (SpecDms.digits w n).
Proof. split; [apply digits_nonnil | apply digits_chars]. Qed.
Lemma seconds_numeral ms : numeral (seconds_text ms).
Proof. exists [], (seconds_text ms). repeat split; auto. constructor; [apply digits_chars | apply digits_word]. Qed.
Definition letter (h : string) : Prop := latitude_letter h \/ longitude_letter h.
Lemma hemi_tok a h r : a <> Atomic -> letter h -> okt a (Call "hemi") (s2t h ++ r) r [T "hemi" (s2t h) []].
Proof.
  intros A L. eapply tok; [exact A | reflexivity|].
  destruct L as [[-> | ->]|[-> | ->]];
    repeat first [apply ok_alt1, ok_str | apply ok_alt2; [apply ko_str; intros ? E; discriminate E|] | apply ok_str].
Qed.
Lemma part_tok a h deg min ms r : letter h -> stops number_stop r -> exists c,
  coordinate_text h deg min ms = c /\
  okt a (Call "sct_coord_part") (coordinate_text h deg min ms ++ r) r
    [T "sct_coord_part" c [T "hemi" (s2t h) []; T "deg" (SpecDms.digits 3 deg) []; T "min" (SpecDms.digits 2 min) []; T "sec" (seconds_text ms) []]].
Proof.
  intros L S. destruct (stops_number r S) as [SD SP]. eexists. split; [reflexivity|].
  destruct (okt_compound "sct_coord_part" _ eq_refl a (coordinate_text h deg min ms ++ r) r
    ([T "hemi" (s2t h) []] ++ [T "deg" (SpecDms.digits 3 deg) []] ++ [] ++ [T "min" (SpecDms.digits 2 min) []] ++ [] ++ [T "sec" (seconds_text ms) []])) as [c [E O]].
  - unfold coordinate_text. rewrite <- !app_assoc.
    eapply okt_seq_at; [discriminate | apply hemi_tok; [discriminate | exact L]|].
    eapply okt_seq_at; [discriminate | eapply tok; [discriminate | reflexivity | apply digits_plus; [discriminate | apply digits_word | reflexivity]]|].
    eapply okt_seq_at; [discriminate | apply okt_str|].
    eapply okt_seq_at; [discriminate | eapply tok; [discriminate | reflexivity | apply digits_plus; [discriminate | apply digits_word | reflexivity]]|].
    eapply okt_seq_at; [discriminate | apply okt_str|].
    eapply tok; [discriminate | reflexivity|]. apply (ok_call G Atomic "decimal" KAtomic _ (seconds_text ms) r [] eq_refl).
    apply numeral_ok; [apply seconds_numeral | exact S].
  - apply app_inv_tail in E. subst c. exact O.
Qed.

(** ** Places *)
(** [t] is the text of a place which is read as [q]; its words are [w1] and [w2] *)
Definition is_coord_text (t : text) : Prop := exists h deg min ms, letter h /\ t = coordinate_text h deg min ms.
Record spelt (l : location) (t : text) (q : location) : Prop := {
  sp_fmt : location_fmt l = Some t;
  sp_near : near_place l q;
  sp_words : match l with
             | LFix f => designator f /\ t = f ++ s2t " " ++ f
             | LCoord _ => exists w1 w2, is_coord_text w1 /\ is_coord_text w2 /\ t = w1 ++ s2t " " ++ w2
             end;
  sp_read : forall a r, stops number_stop r -> stops designator_char r -> exists tr,
      rule_of tr = match l with LFix _ => "airway_fix" | LCoord _ => "sct_coordinate" end /\
      parse_location tr = Ret q /\
      okt a (Call (rule_of tr)) (t ++ r) r [tr] }.

Lemma okt_ws a b r : a <> NonAtomic -> spaces b -> stops space r -> okt a (Plus &"WHITESPACE") (b ++ r) r [].
Proof. intros A [N F] S. apply okt_ok. eapply ok_plus_one; [exact A | apply ws_one | exact N | exact F | exact S]. Qed.
Lemma letter_not_space h r : letter h -> stops space (s2t h ++ r).
Proof. intros [[-> | ->]|[-> | ->]]; reflexivity. Qed.
Lemma word_stops f h w r : word f w -> (forall c, f c = true -> h c = false) -> stops h (w ++ r).
Proof. intros [N F] H. destruct w as [|c w]; [congruence|]. inversion F; subst. apply H. assumption. Qed.
Lemma designator_not_space c : designator_char c = true -> space c = false.
Proof. unfold designator_char, space, is_upper, is_digit. lia. Qed.

Lemma coord_spelt p : on_globe p -> exists t q, spelt (LCoord p) t (LCoord q) /\ deg_min_sec_fmt p = Some t /\ near_point p q /\
  forall a r, stops number_stop r -> exists tr, rule_of tr = "sct_coordinate" /\ coordinate tr = Ret q /\ okt a (Call "sct_coordinate") (t ++ r) r [tr].
Proof.
  intros [FX [FY [BX BY]]].
  destruct (write_read (snd p) true FY BY) as [h [deg [min [ms [y [L [W [P C]]]]]]]].
  destruct (write_read (fst p) false FX BX) as [h' [deg' [min' [ms' [x [L' [W' [P' C']]]]]]]].
  set (w1 := coordinate_text h deg min ms) in *. set (w2 := coordinate_text h' deg' min' ms') in *.
  assert (FM : deg_min_sec_fmt p = Some (w1 ++ s2t " " ++ w2)).
  { unfold deg_min_sec_fmt, lat_fmt, lng_fmt, px, py. rewrite W, W'. reflexivity. }
  assert (RD : forall a r, stops number_stop r -> exists tr, rule_of tr = "sct_coordinate" /\ coordinate tr = Ret (from_deg_min_sec y x) /\
    okt a (Call "sct_coordinate") ((w1 ++ s2t " " ++ w2) ++ r) r [tr]).
  { intros a r S. destruct (part_tok Compound h deg min ms (s2t " " ++ w2 ++ r)) as [c1 [_ O1]]; [left; exact L | reflexivity|].
    destruct (part_tok Compound h' deg' min' ms' r) as [c2 [_ O2]]; [right; exact L' | exact S|].
    pose proof (okt_compound "sct_coordinate" _ eq_refl a ((w1 ++ s2t " " ++ w2) ++ r) r) as K. edestruct K as [c [_ O]].
    - rewrite <- !app_assoc. eapply okt_seq_at; [discriminate | exact O1|].
      eapply okt_seq_at; [discriminate | apply (okt_ws Compound (s2t " ")); [discriminate | split; [discriminate | repeat constructor]|]|exact O2].
      unfold w2, coordinate_text. rewrite <- app_assoc. apply letter_not_space. right. exact L'.
    - eexists. split; [|split; [|exact O]]; [reflexivity|].
      unfold coordinate, coord_part. cbn [kids_of next obind text_of app].
      unfold parse_part in P, P'. destruct (hemi_from (s2t h)); try discriminate. destruct (parse_u16 (SpecDms.digits 3 deg)); try discriminate.
      destruct (parse_u8 (SpecDms.digits 2 min)); try discriminate. destruct (parse_f64 (seconds_text ms)); try discriminate. cbn [unwrap obind].
      destruct (hemi_from (s2t h')); try discriminate. destruct (parse_u16 (SpecDms.digits 3 deg')); try discriminate.
      destruct (parse_u8 (SpecDms.digits 2 min')); try discriminate. destruct (parse_f64 (seconds_text ms')); try discriminate. cbn [unwrap obind].
      injection P as <-. injection P' as <-. reflexivity. }
  assert (NP : near_point p (from_deg_min_sec y x)) by (split; [exact C' | exact C]).
  exists (w1 ++ s2t " " ++ w2), (from_deg_min_sec y x). split; [|repeat split; auto; apply NP]. constructor.
  - exact FM.
  - exact NP.
  - exists w1, w2. split; [exists h, deg, min, ms; split; [left; exact L | reflexivity]|].
    split; [exists h', deg', min', ms'; split; [right; exact L' | reflexivity] | reflexivity].
  - intros a r S _. destruct (RD a r S) as [tr [R [V O]]]. exists tr. split; [exact R|]. split; [|rewrite R; exact O].
    unfold parse_location. unfold is_rule. rewrite R. rewrite V. reflexivity.
Qed.

(** *** Fixes, and the stack *)
Lemma fix_ok a d b r : designator d -> spaces b -> exists c, c = d ++ b ++ d /\ ok G a (Call "airway_fix") c r [T "airway_fix" c [T "designator" d []]].
Proof.
  intros D B. eexists. split; [reflexivity|]. apply (ok_call G a "airway_fix" KCompound _ _ r [T "designator" d []] eq_refl).
  change (body_atom "airway_fix" KCompound a) with Compound. intros st k.
  destruct (designator_tok Compound d (b ++ d ++ r)) as [c0 [E0 O0]]; [discriminate | exact D | | ].
  { destruct B as [N F]. destruct b as [|c b]; [congruence|]. inversion F; subst. cbn [app stops]. unfold space, designator_char, is_upper, is_digit in *. lia. }
  apply app_inv_tail in E0. subst c0.
  destruct (okt_ws Compound b (d ++ r)) as [c1 [E1 O1]]; [discriminate | exact B | eapply word_stops; [exact D | apply designator_not_space] |].
  apply app_inv_tail in E1. subst c1.
  rewrite <- !app_assoc.
  pose proof (m_push G Compound &"designator" st _ k _ _ _ _ (O0 st k)) as M0.
  assert (DN : d <> []) by apply D.
  eapply (m_then G Compound (Push &"designator") _ st false (d ++ b ++ d ++ r) k d (b ++ d ++ r) (d :: k) [T "designator" d []] (b ++ d) r k []);
    [exact M0 | split; [discriminate | intros [_ E]; congruence]|].
  apply (m_then G Compound Skip _ false false (b ++ d ++ r) (d :: k) [] (b ++ d ++ r) (d :: k) [] (b ++ d) r k []);
    [apply m_skip_atomic; discriminate | split; [discriminate | intros [E _]; discriminate]|].
  apply (m_then G Compound (Plus &"WHITESPACE") _ false false (b ++ d ++ r) (d :: k) b (d ++ r) (d :: k) [] d r k []);
    [apply O1 | split; [discriminate | intros [E _]; discriminate]|].
  apply (m_then G Compound Skip _ false false (d ++ r) (d :: k) [] (d ++ r) (d :: k) [] d r k []);
    [apply m_skip_atomic; discriminate | split; [discriminate | intros [E _]; discriminate]|].
  apply m_pop.
Qed.
Lemma fix_spelt d : designator d -> spelt (LFix d) (d ++ s2t " " ++ d) (LFix d).
Proof.
  intros D. constructor; [reflexivity | reflexivity | split; [exact D | reflexivity]|].
  intros a r _ S. destruct (fix_ok a d (s2t " ") r D) as [c [E O]]; [split; [discriminate | repeat constructor]|].
  exists (T "airway_fix" c [T "designator" d []]). split; [reflexivity|]. split; [reflexivity|]. rewrite E. apply okt_ok. rewrite <- E. exact O.
Qed.
Lemma place_spelt l : place l -> exists t q, spelt l t q.
Proof.
  destruct l as [p|f]; intros P; [|exists (f ++ s2t " " ++ f), (LFix f); apply fix_spelt, P].
  destruct (coord_spelt p P) as [t [q [H _]]]. eauto.
Qed.

(** ** Line breaks *)
Inductive break : text -> Prop :=
| break_one b : blanks b -> break (10%N :: b)
| break_more b t : blanks b -> break t -> break (10%N :: b ++ t).
Lemma blank_spaced b : blanks b -> spaced b.
Proof. intros B. eapply Forall_impl; [|exact B]. intros c. unfold is_blank, space. cbn beta. lia. Qed.
Lemma break_firm k t : break k -> firm (k ++ t).
Proof. intros []; apply firm_lf. Qed.
Lemma ko_sptab a c r : is_blank c = false -> ko G a SPTAB (c :: r).
Proof. intros S. unfold is_blank in S. apply ko_alt; [apply (ko_chr a 32) | apply (ko_chr a 9)]; cbn [stops]; lia. Qed.
Lemma ko_sptab_nil a : ko G a SPTAB [].
Proof. apply ko_alt; [apply (ko_chr a 32) | apply (ko_chr a 9)]; exact I. Qed.
Lemma eol_ok u : okt NonAtomic (Star SPTAB ~~ NEWLINE) (10%N :: u) u [].
Proof.
  apply (okt_seq0 (Star SPTAB) NEWLINE (10%N :: u) (10%N :: u) u [] []); [| apply firm_lf | apply (okt_ok _ _ [10%N]), ok_newline_lf].
  exists []. split; [reflexivity|]. apply ok_star_nil, ko_sptab. reflexivity.
Qed.
Lemma eol_ko t : firmer t -> ko G NonAtomic (Star SPTAB ~~ NEWLINE) t.
Proof.
  intros [F S]. eapply (ko_seq2 _ _ t [] t []); [| constructor | exact F | apply ko_newline, S].
  exists []. split; [reflexivity|]. apply ok_star_nil. destruct t as [|c t]; [apply ko_sptab_nil|]. apply ko_sptab.
  destruct F as [F _]. cbn [stops] in F. unfold is_blank, space in *. lia.
Qed.
Lemma eols_stop t b : firmer t -> blanks b -> okt NonAtomic (Many (Then Skip (Star SPTAB ~~ NEWLINE))) (b ++ t) (b ++ t) [].
Proof.
  intros F B. apply okt_many_nil. apply (ko_then2 G NonAtomic Skip _ b t []); [apply skip_ok; [apply blank_spaced, B | apply F] | apply eol_ko, F].
Qed.
Lemma eols k t : break k -> firmer t -> forall b0, blanks b0 ->
  exists b, blanks b /\ okt NonAtomic (Many (Then Skip (Star SPTAB ~~ NEWLINE))) (b0 ++ k ++ t) (b ++ t) [].
Proof.
  intros K F.
  assert (GO : forall b u, blanks b -> okt NonAtomic (Then Skip (Star SPTAB ~~ NEWLINE)) (b ++ 10%N :: u) u []).
  { intros b u B. apply (okt_then NonAtomic Skip _ (b ++ 10%N :: u) (10%N :: u) u [] []); [apply okt_ok, skip_ok; [apply blank_spaced, B | apply firm_lf] | apply eol_ok]. }
  induction K as [b B|b k B K IH]; intros b0 B0.
  - exists b. split; [exact B|]. apply (okt_many_cons NonAtomic _ _ (b ++ t) (b ++ t) [] []); [apply (GO b0 (b ++ t) B0) | apply eols_stop; assumption].
  - destruct (IH b B) as [b' [B' O]]. exists b'. split; [exact B'|].
    apply (okt_many_cons NonAtomic _ _ (b ++ k ++ t) (b' ++ t) [] []); [|exact O]. cbn [app]. rewrite <- app_assoc. apply (GO b0 (b ++ k ++ t) B0).
Qed.
Lemma nl_ok k t : break k -> firmer t -> exists b, blanks b /\ okt NonAtomic &"NL" (k ++ t) (b ++ t) [].
Proof.
  intros K F. destruct K as [b B|b k B K].
  - exists []. split; [constructor|]. apply okt_silent with (e := Plus (Star SPTAB ~~ NEWLINE)); [reflexivity | reflexivity|].
    eapply (okt_seq NonAtomic _ _ _ b t t [] []); [apply eol_ok | apply blank_spaced, B | apply F | | reflexivity].
    apply okt_opt_no, ko_then1, eol_ko, F.
  - assert (O : exists b', blanks b' /\ okt NonAtomic (Peg.Star (Star SPTAB ~~ NEWLINE)) (k ++ t) (b' ++ t) []).
    { destruct K as [b1 B1|b1 k B1 K].
      - exists b1. split; [exact B1|]. apply okt_opt. apply (okt_then NonAtomic _ _ _ (b1 ++ t) (b1 ++ t) [] []); [apply eol_ok | apply eols_stop; assumption].
      - destruct (eols k t K F b1 B1) as [b' [B' O]]. exists b'. split; [exact B'|]. apply okt_opt.
        apply (okt_then NonAtomic _ _ _ (b1 ++ k ++ t) (b' ++ t) [] []); [cbn [app]; rewrite <- app_assoc; apply eol_ok | exact O]. }
    destruct O as [b' [B' O]]. exists b'. split; [exact B'|]. apply okt_silent with (e := Plus (Star SPTAB ~~ NEWLINE)); [reflexivity | reflexivity|].
    eapply (okt_seq NonAtomic _ _ _ b (k ++ t) _ [] []); [|apply blank_spaced, B | apply break_firm, K | exact O | reflexivity].
    cbn [app]. rewrite <- app_assoc. apply eol_ok.
Qed.
(** an item on a new line *)
Lemma nl_then e k t r ts : break k -> firmer t -> okt NonAtomic e t r ts -> okt NonAtomic (&"NL" ~~ e) (k ++ t) r ts.
Proof.
  intros K F O. destruct (nl_ok k t K F) as [b [B N]]. eapply (okt_seq NonAtomic _ _ _ b t r [] ts); [exact N | apply blank_spaced, B | apply F | exact O | reflexivity].
Qed.
Lemma nl_ko e k t : break k -> firmer t -> ko G NonAtomic e t -> ko G NonAtomic (&"NL" ~~ e) (k ++ t).
Proof. intros K F O. destruct (nl_ok k t K F) as [b [B N]]. eapply ko_seq2; [exact N | apply blank_spaced, B | apply F | exact O]. Qed.
Lemma nl_ko_here a t : stops is_nl t -> stops is_blank t -> (a = NonAtomic -> firm t) -> ko G a &"NL" t.
Proof.
  intros N B F. apply (ko_call G a "NL" KSilent (Plus (Star SPTAB ~~ NEWLINE))); [reflexivity|]. apply ko_seq1.
  change (body_atom "NL" KSilent a) with a.
  assert (S : ok G a (Star SPTAB) [] t []).
  { apply ok_star_nil. destruct t as [|c t]; [apply ko_sptab_nil | apply ko_sptab, B]. }
  destruct a.
  - apply (ko_seq2 _ _ t [] t []); [exists []; auto | constructor | apply F; reflexivity | apply ko_newline, N].
  - eapply (ko_seq2_at G _ _ _ [] t []); [discriminate | exact S | apply ko_newline, N].
  - eapply (ko_seq2_at G _ _ _ [] t []); [discriminate | exact S | apply ko_newline, N].
Qed.

(** a list of items, each on a new line *)
Inductive items (e : expr) : text -> text -> list tree -> Prop :=
| items_nil r : firm r -> ko G NonAtomic (&"NL" ~~ e) r -> items e r r []
| items_cons k t u r t1 t2 : break k -> firmer t -> okt NonAtomic e t u t1 -> items e u r t2 -> items e (k ++ t) r (t1 ++ t2).
Lemma items_firm e t r ts : items e t r ts -> firm t.
Proof. intros []; [assumption | apply break_firm; assumption]. Qed.
Lemma items_many e t r ts : items e t r ts -> okt NonAtomic (Many (Then Skip (&"NL" ~~ e))) t r ts.
Proof.
  intros H. induction H as [r F K|k t u r t1 t2 K F O I IH].
  - apply okt_many_nil. apply (ko_then2 G NonAtomic Skip _ [] r []); [apply skip_ok; [constructor | exact F] | exact K].
  - eapply okt_many_cons; [|exact IH]. apply (okt_then NonAtomic Skip _ _ (k ++ t) u [] t1).
    + exists []. split; [reflexivity|]. apply skip_ok; [constructor | apply break_firm, K].
    + apply nl_then; assumption.
Qed.
Lemma items_star e t r ts : items e t r ts -> okt NonAtomic (Star (&"NL" ~~ e)) t r ts.
Proof.
  intros [r0 F K|k t0 u r0 t1 t2 K F O I].
  - apply okt_opt_no, ko_then1, K.
  - apply okt_opt. eapply okt_then; [apply nl_then; eassumption | apply items_many, I].
Qed.
