(** Proofs for C82: the text of TopSky map files. *)
From Coq Require Import ZifyBool ZifyN ZifyNat.
From Verif Require Import Base Num Float FloatParse Dms Colours Settings Locations Maps Lines Peg Grammars SpecPeg PegProofs PegLang PegForward PegSkip Trees
  SpecText TextProofs SpecFields FileForward SpecEseText SymbolParse TopskyParse SpecTopskyText.
Local Open Scope string_scope.
Local Open Scope list_scope.

Local Notation G := topsky_grammar.
#[local] Instance topsky_broken : broken G := Build_broken G eq_refl.
Local Notation EOL := (Star SPTAB ~~ NEWLINE).

(** ** What is skipped *)
Local Notation mark := (str "//" // str ";").
Local Notation remark := (Star SPTAB ~~ mark ~~ Star (until &"NL")).
Definition clear (t : text) : Prop := ko G Atomic remark t.
Lemma skip_is : SpecPeg.skipped G (Many (Call "COMMENT")).
Proof. apply skipped_comment; [apply get_None; reflexivity | unfold defined; eapply get_Some_key; reflexivity]. Qed.
Lemma ok_skip c r : ok G NonAtomic (Many (Call "COMMENT")) c r [] -> ok G NonAtomic Skip c r [].
Proof. intros H b k. eapply m_skip; [apply skip_is | apply H]. Qed.
Lemma comment_ko a t : clear t -> ko G a (Call "COMMENT") t.
Proof. intros C. eapply ko_call; [reflexivity|]. exact C. Qed.
Lemma skip_clear t : clear t -> FileForward.skipped G t t.
Proof. intros C. exists []. split; [reflexivity|]. apply ok_skip, ok_many_nil, comment_ko, C. Qed.
(** neither a blank nor a remark *)
Definition calm (u : text) : Prop := stops is_blank u /\ (forall v, u <> s2t ";" ++ v) /\ (forall v, u <> s2t "//" ++ v).
Lemma star_blanks b u : blanks b -> stops is_blank u -> okt G Atomic (Star SPTAB) (b ++ u) u [].
Proof.
  intros B S. apply okt_ok. eapply (ok_star_one G Atomic SPTAB (fun x => (x =? 32) || (x =? 9))%N); [discriminate | apply one_sptab | exact B | exact S].
Qed.
Lemma calm_clear b u : blanks b -> calm u -> clear (b ++ u).
Proof.
  intros B [S [M1 M2]]. eapply ko_seq2_att; [discriminate | apply star_blanks; eassumption|]. apply ko_seq1, ko_alt; apply ko_str; assumption.
Qed.
Lemma calm_char c r : is_blank c = false -> c <> 59%N -> c <> 47%N -> calm (c :: r).
Proof. intros B X Y. split; [exact B|]. split; intros v E; injection E as E _; contradiction. Qed.
Lemma calm_nil : calm [].
Proof. split; [exact I|]. split; discriminate. Qed.
Lemma calm_eol nl r : eol nl -> calm (nl ++ r).
Proof. intros [-> | ->]; apply calm_char; (reflexivity || discriminate). Qed.
Lemma clear_char c r : is_blank c = false -> c <> 59%N -> c <> 47%N -> clear (c :: r).
Proof. intros A B C. apply (calm_clear []); [constructor | apply calm_char; assumption]. Qed.
Lemma star_nonatomic b u : blanks b -> calm u -> okt G NonAtomic (Star SPTAB) (b ++ u) u [].
Proof.
  intros B C. assert (M : forall b, blanks b -> okt G NonAtomic (Many (Then Skip SPTAB)) (b ++ u) u []).
  { clear b B. intros b B. induction B as [|c b H B IH].
    - apply okt_many_nil. eapply ko_then2t; [apply skip_clear, (calm_clear []); [constructor | exact C]|]. destruct u as [|c u]; [apply (ko_sptab_nil G) | apply (ko_sptab G), C].
    - apply (okt_many_cons G NonAtomic _ _ (b ++ u) u [] []); [|exact IH]. apply (okt_then G NonAtomic Skip SPTAB _ ((c :: b) ++ u) _ [] []); [apply skip_clear, calm_clear; [constructor; assumption | exact C]|].
      apply (okt_ok G NonAtomic SPTAB [c]). apply (one_sptab G NonAtomic), H. }
  destruct B as [|c b H B].
  - apply okt_star_nil. destruct u as [|c u]; [apply (ko_sptab_nil G) | apply (ko_sptab G), C].
  - apply okt_opt. apply (okt_then G NonAtomic _ _ _ (b ++ u) u [] []); [|apply M, B]. apply (okt_ok G NonAtomic SPTAB [c]). apply (one_sptab G NonAtomic), H.
Qed.
Lemma seq0 x y t t' r t1 t2 : okt G NonAtomic x t t' t1 -> clear t' -> okt G NonAtomic y t' r t2 -> okt G NonAtomic (Seq x y) t r (t1 ++ t2).
Proof. intros H C O. eapply okt_seq; [exact H | apply skip_clear, C | exact O]. Qed.
Lemma ko_seq0 x y t t' t1 : okt G NonAtomic x t t' t1 -> clear t' -> ko G NonAtomic y t' -> ko G NonAtomic (Seq x y) t.
Proof. intros H C K. eapply ko_seq2; [exact H | apply skip_clear, C | exact K]. Qed.
Lemma eol_ok b nl r : blanks b -> eol nl -> okt G NonAtomic EOL (b ++ nl ++ r) r [].
Proof.
  intros B E. apply (seq0 _ _ _ (nl ++ r) r [] []); [apply star_nonatomic; [exact B | apply calm_eol, E] | apply (calm_clear []); [constructor | apply calm_eol, E]|].
  apply (newline_ok G), E.
Qed.
Lemma eol_ko b u : blanks b -> calm u -> stops is_nl u -> ko G NonAtomic EOL (b ++ u).
Proof.
  intros B C S. eapply ko_seq0; [apply star_nonatomic; eassumption | apply (calm_clear []); [constructor | exact C] | apply ko_newline, S].
Qed.
(** ** Remarks and empty lines *)
Lemma trailing c : exists d b, c = d ++ b /\ blanks b /\ (forall v x, d = v ++ [x] -> is_blank x = false).
Proof.
  induction c as [|x c IH] using rev_ind; [exists [], []; split; [reflexivity|]; split; [constructor|]; intros v x E; destruct v; discriminate|].
  destruct (is_blank x) eqn:X.
  - destruct IH as [d [b [-> [B D]]]]. exists d, (b ++ [x]). split; [symmetry; apply app_assoc|]. split; [apply Forall_app; split; [exact B | constructor; [exact X | constructor]] | exact D].
  - exists (c ++ [x]), []. split; [symmetry; apply app_nil_r|]. split; [constructor|]. intros v y E. apply app_inj_tail in E. destruct E as [_ <-]. exact X.
Qed.
(** text up to the end of the line *)
Lemma to_end d b nl r : in_line d -> (forall v x, d = v ++ [x] -> is_blank x = false) -> blanks b -> eol nl ->
  okt G Atomic (Star (until &"NL")) (d ++ b ++ nl ++ r) (b ++ nl ++ r) [].
Proof.
  intros D T B E.
  assert (K : ko G Atomic (until &"NL") (b ++ nl ++ r)).
  { destruct (nl_seen G b nl r B E) as [u O]. apply ko_seq1. eapply ko_nott, O. }
  assert (GO : forall c v, in_line (c :: v) -> (forall v' x, c :: v = v' ++ [x] -> is_blank x = false) -> okt G Atomic (until &"NL") ((c :: v) ++ b ++ nl ++ r) (v ++ b ++ nl ++ r) []).
  { intros c v F T'. apply (okt_seq_at G Atomic _ ANY _ ((c :: v) ++ b ++ nl ++ r) _ [] []); [discriminate | apply okt_not, (blank_inside G c v); assumption|].
    apply (okt_ok G Atomic ANY [c]), ok_sat. reflexivity. }
  destruct d as [|c d]; [apply okt_star_nil, K|]. apply okt_opt. apply (okt_then G Atomic _ _ _ (d ++ b ++ nl ++ r) _ [] []); [apply GO; assumption|].
  assert (D' : in_line d) by (inversion D; assumption).
  assert (T' : forall v x, d = v ++ [x] -> is_blank x = false) by (intros v x X; apply (T (c :: v) x); rewrite X; reflexivity). clear D T.
  assert (SK : forall t, okt G Atomic Skip t t []) by (intros t; exists []; split; [reflexivity | apply ok_skip_atomic; discriminate]).
  induction d as [|x d IH].
  - apply okt_many_nil. eapply ko_then2t; [apply SK | exact K].
  - apply (okt_many_cons G Atomic _ _ (d ++ b ++ nl ++ r) _ [] []).
    + eapply (okt_then G Atomic Skip _ _ _ _ [] []); [apply SK | apply GO; assumption].
    + apply IH; [inversion D'; assumption|]. intros v y X. apply (T' (x :: v) y). rewrite X. reflexivity.
Qed.
Lemma comment_ok b h d b' nl r : blanks b -> In h [s2t ";"; s2t "//"] -> in_line d -> (forall v x, d = v ++ [x] -> is_blank x = false) -> blanks b' -> eol nl ->
  okt G NonAtomic (Call "COMMENT") (b ++ h ++ d ++ b' ++ nl ++ r) (b' ++ nl ++ r) [].
Proof.
  intros B H D T B' E.
  assert (X : okt G Atomic remark (b ++ h ++ d ++ b' ++ nl ++ r) (b' ++ nl ++ r) []).
  { apply (okt_seq_at G Atomic _ _ _ (h ++ d ++ b' ++ nl ++ r) _ [] []); [discriminate | apply star_blanks; [exact B|]; destruct H as [<-|[<-|[]]]; reflexivity|].
    apply (okt_seq_at G Atomic _ _ _ (d ++ b' ++ nl ++ r) _ [] []); [discriminate | | apply to_end; assumption].
    destruct H as [<-|[<-|[]]]; [apply okt_alt2; [apply ko_str; intros v; discriminate|] | apply okt_alt1]; apply okt_str. }
  destruct X as [x [-> X]]. exists x. split; [reflexivity|]. apply (ok_call G NonAtomic "COMMENT" KSilent _ x (b' ++ nl ++ r) [] eq_refl). exact X.
Qed.
Lemma void_skips v nl r : idle is_blank [s2t ";"; s2t "//"] v -> eol nl -> exists b, blanks b /\ FileForward.skipped G (v ++ nl ++ r) (b ++ nl ++ r).
Proof.
  intros [S|[b [h [c [-> [B [H C]]]]]]] E.
  - exists v. split; [exact S|]. apply skip_clear, calm_clear; [exact S | apply calm_eol, E].
  - destruct (trailing c) as [d [b' [-> [B' T]]]]. exists b'. split; [exact B'|]. apply Forall_app in C. destruct C as [C _].
    assert (X : okt G NonAtomic (Many (Call "COMMENT")) (b ++ h ++ d ++ b' ++ nl ++ r) (b' ++ nl ++ r) []).
    { eapply (okt_many_cons G NonAtomic _ _ _ _ [] []); [apply comment_ok; assumption|]. apply okt_many_nil, comment_ko, calm_clear; [exact B' | apply calm_eol, E]. }
    rewrite <- !app_assoc. destruct X as [x [-> X]]. exists x. split; [reflexivity | apply ok_skip, X].
Qed.
(** the start of a line with content, or the end *)
Definition solid (t : text) : Prop := exists b u, t = b ++ u /\ blanks b /\ calm u /\ stops is_nl u.
Lemma solid_clear t : solid t -> clear t.
Proof. intros [b [u [-> [B [C _]]]]]. apply calm_clear; assumption. Qed.
Lemma voids_run k : blank_lines k -> forall t, solid t -> exists u, FileForward.skipped G (k ++ t) u /\ run G EOL u t [].
Proof.
  intros V t S. induction V as [|v nl k V E K IH].
  - exists t. split; [apply skip_clear, solid_clear, S|]. destruct S as [b [u [-> [B [C N]]]]]. apply run_nil, eol_ko; assumption.
  - destruct IH as [u [A R]]. destruct (void_skips v nl (k ++ t) V E) as [b [B SK]]. exists (b ++ nl ++ k ++ t). rewrite <- !app_assoc. split; [exact SK|].
    apply (run_cons G EOL _ (k ++ t) u t [] []); [apply eol_ok; assumption | exact A | exact R].
Qed.
(** the rest of a line, up to the next one *)
Definition rest (R t : text) : Prop := exists b nl k, R = b ++ nl ++ k ++ t /\ blanks b /\ eol nl /\ blank_lines k /\ solid t.
Lemma rest_clear R t : rest R t -> clear R.
Proof. intros [b [nl [k [-> [B [E _]]]]]]. apply calm_clear; [exact B | apply calm_eol, E]. Qed.
Lemma nl_ok R t : rest R t -> exists v, okt G NonAtomic &"NL" R v [] /\ FileForward.skipped G v t.
Proof.
  intros [b [nl [k [-> [B [E [V S]]]]]]]. destruct (voids_run k V t S) as [u [A R]].
  destruct (run_plus G EOL (b ++ nl ++ k ++ t) (k ++ t) u t [] [] (eol_ok b nl _ B E) A R (skip_clear t (solid_clear t S))) as [v [O SV]].
  exists v. split; [|exact SV]. apply (okt_silent G NonAtomic "NL" _ _ v [] eq_refl eq_refl). exact O.
Qed.
Lemma nl_ko t : solid t -> ko G NonAtomic &"NL" t.
Proof. intros [b [u [-> [B [C N]]]]]. eapply ko_call; [reflexivity|]. apply ko_seq1, eol_ko; assumption. Qed.

(** ** Fields *)
(** what follows a field: a delimiter or the end of the line *)
Definition after (f : N -> bool) (r : text) : Prop := (exists c r', r = c :: r' /\ f c = true) \/ exists t, rest r t.
Definition at_colon (c : N) : bool := (c =? 58)%N.
Definition at_slash (c : N) : bool := (c =? 92)%N.
Definition at_comma (c : N) : bool := (c =? 58)%N || (c =? 44)%N.
Lemma after_ends f r : after f r -> ends f r.
Proof. intros [X|[t [b [nl [k [-> [B [E _]]]]]]]]; [right; left; exact X | right; right; exists b, nl, (k ++ t); auto]. Qed.
Lemma after_clear f r : after f r -> (forall c, f c = true -> is_blank c = false /\ c <> 59%N /\ c <> 47%N) -> clear r.
Proof. intros [[c [r' [-> C]]]|[t X]] H; [apply clear_char; apply H, C | eapply rest_clear, X]. Qed.
Lemma rest_stops h R t : rest R t -> (forall c, h c = true -> is_blank c = false /\ is_nl c = false) -> stops h R.
Proof.
  intros [b [nl [k [-> [B [E _]]]]]] H. destruct B as [|c b C B]; [destruct E as [-> | ->]; cbn [app stops] | cbn [app stops]].
  - destruct (h 10%N) eqn:X; [|reflexivity]. apply H in X. destruct X as [_ X]. discriminate X.
  - destruct (h 13%N) eqn:X; [|reflexivity]. apply H in X. destruct X as [_ X]. discriminate X.
  - destruct (h c) eqn:X; [|reflexivity]. apply H in X. destruct X as [X _]. congruence.
Qed.
Lemma after_stops h f r : after f r -> (forall c, h c = true -> is_blank c = false /\ is_nl c = false /\ f c = false) -> stops h r.
Proof.
  intros [[c [r' [-> C]]]|[t X]] H; [cbn [stops]; destruct (h c) eqn:X; [apply H in X; destruct X as [_ [_ X]]; congruence | reflexivity]|].
  eapply rest_stops; [exact X|]. intros c Y. apply H in Y. tauto.
Qed.
Lemma colon_after r : after at_colon (s2t ":" ++ r).
Proof. left. exists 58%N, r. split; reflexivity. Qed.
Lemma colon_comma r : after at_colon r -> after at_comma r.
Proof. intros [[c [r' [-> C]]]|X]; [left; exists c, r'; split; [reflexivity | unfold at_comma, at_colon in *; rewrite C; reflexivity] | right; exact X]. Qed.
Lemma rest_after f R t : rest R t -> after f R.
Proof. intros X. right. exists t. exact X. Qed.
Lemma colon_clear r : after at_colon r -> clear r.
Proof. intros X. eapply after_clear; [exact X|]. unfold at_colon, is_blank. lia. Qed.
Lemma comma_clear r : after at_comma r -> clear r.
Proof. intros X. eapply after_clear; [exact X|]. unfold at_comma, is_blank. lia. Qed.
Lemma slash_clear r : after at_slash r -> clear r.
Proof. intros X. eapply after_clear; [exact X|]. unfold at_slash, is_blank. lia. Qed.
Lemma clear_field w r : trimmed w -> unremarked w -> clear r -> clear (w ++ r).
Proof.
  intros [T _] U C. destruct w as [|c w]; [exact C|]. destruct (U c w eq_refl). apply clear_char; [apply (T c w eq_refl) | assumption | assumption].
Qed.
Lemma clear_word w r : word w -> clear r -> clear (w ++ r).
Proof. intros [[_ T] U]. apply clear_field; assumption. Qed.
Definition ctree (w : text) : tree := T "colon_delimited_text" w [].
Definition itree (w : text) : tree := T "integer" w [].
Definition dtree (w : text) : tree := T "decimal" w [].
Definition btree (w : text) : tree := T "backslash_delimited_text" w [].
Lemma ct_ok w r : word w -> after at_colon r -> okt G NonAtomic &"colon_delimited_text" (w ++ r) r [ctree w].
Proof. intros [F _] A. apply (field_tok G); [discriminate | reflexivity | exact F | apply after_ends, A]. Qed.
Lemma bt_ok w r : field 92 w -> after at_slash r -> okt G NonAtomic &"backslash_delimited_text" (w ++ r) r [btree w].
Proof.
  intros [F T] A. eapply tok; [discriminate | reflexivity|]. apply (delimited G _ at_slash); [apply (one_chr G Atomic 92)| |exact T | apply after_ends, A].
  eapply Forall_impl; [|exact F]. intros c. cbn beta. unfold at_slash. lia.
Qed.
Lemma number_colon c : number_stop c = true -> is_blank c = false /\ is_nl c = false /\ at_comma c = false.
Proof. unfold number_stop, is_digit, is_blank, is_nl, at_comma. lia. Qed.
Lemma after_number r : after at_comma r -> stops number_stop r.
Proof. intros A. eapply after_stops; [exact A | exact number_colon]. Qed.
Lemma after_digit r : after at_comma r -> stops is_digit r.
Proof. intros A. apply stops_number, after_number, A. Qed.
Lemma int_ok w r : whole w -> after at_comma r -> okt G NonAtomic &"integer" (w ++ r) r [itree w].
Proof. intros W A. apply (integer_tok G); [discriminate | reflexivity | exact W | apply after_digit, A]. Qed.
Lemma dec_ok w r : numeral w -> after at_comma r -> okt G NonAtomic &"decimal" (w ++ r) r [dtree w].
Proof. intros W A. apply (decimal_tok G); [discriminate | reflexivity | exact W | apply after_number, A]. Qed.
Lemma numeral_clear w r : numeral w -> clear (w ++ r).
Proof.
  intros [sg [u [-> [SG U]]]]. rewrite <- app_assoc. destruct SG as [->|[->| ->]]; try (apply clear_char; (reflexivity || discriminate)).
  destruct (unsigned_hd u r U) as [c [v [E C]]]. cbn [app]. rewrite E. apply clear_char; unfold number_stop, is_digit, is_blank in *; lia.
Qed.
Lemma whole_numeral w : whole w -> numeral w.
Proof. intros [sg [u [-> [SG D]]]]. exists sg, u. split; [reflexivity|]. split; [exact SG | constructor; exact D]. Qed.
(** a pair of a rule that is neither silent nor atomic *)
Lemma normal_ok n e w r ts : get n G = Some (KNormal, e) -> body_atom n KNormal NonAtomic = NonAtomic -> okt G NonAtomic e (w ++ r) r ts -> okt G NonAtomic (Call n) (w ++ r) r [T n w ts].
Proof. intros E B O. destruct (okt_normal G n e E B _ _ _ O) as [c [X H]]. apply app_inv_tail in X. subst c. exact H. Qed.

(** ** Places *)
Definition dms_tree (d : dms) : tree :=
  T "coord_part" (dms_text d) [T "sct_coord_part" (dms_text d) [T "hemi" (d_letter d) []; T "deg" (d_deg d) []; T "min" (d_min d) []; T "sec" (d_sec d) []]].
Lemma hemi_ok h r : In h (map s2t ["N"; "E"; "n"; "e"; "S"; "W"; "s"; "w"]) -> okt G Compound &"hemi" (h ++ r) r [T "hemi" h []].
Proof.
  intros I. eapply tok; [discriminate | reflexivity|]. cbn [map In] in I.
  repeat (destruct I as [<-|I]; [repeat first [apply ok_alt1, ok_str | apply ok_str | apply ok_alt2; [apply ko_str; discriminate|]]|]). contradiction.
Qed.
Lemma dms_ok d v r : reads_dms d v -> stops number_stop r -> okt G NonAtomic &"coord_part" (dms_text d ++ r) r [dms_tree d].
Proof.
  destruct v as [[[h deg] min] sec]. intros [LT [DD [DM [NS [_ [_ _]]]]]] S.
  assert (O : ok G Compound (&"hemi" ~~ &"deg" ~~ str "." ~~ &"min" ~~ str "." ~~ &"sec") (dms_text d) r
    [T "hemi" (d_letter d) []; T "deg" (d_deg d) []; T "min" (d_min d) []; T "sec" (d_sec d) []]).
  { unfold dms_text.
    assert (X : okt G Compound (&"hemi" ~~ &"deg" ~~ str "." ~~ &"min" ~~ str "." ~~ &"sec") ((d_letter d ++ d_deg d ++ s2t "." ++ d_min d ++ s2t "." ++ d_sec d) ++ r) r
      ([T "hemi" (d_letter d) []] ++ [T "deg" (d_deg d) []] ++ [] ++ [T "min" (d_min d) []] ++ [] ++ [T "sec" (d_sec d) []])).
    { rewrite <- !app_assoc.
      eapply okt_seq_at; [discriminate | apply hemi_ok; destruct h; cbn in LT |- *; tauto|].
      eapply okt_seq_at; [discriminate | eapply tok; [discriminate | reflexivity | apply (digits_plus G); [discriminate | exact DD | reflexivity]]|].
      eapply okt_seq_at; [discriminate | apply okt_str|].
      eapply okt_seq_at; [discriminate | eapply tok; [discriminate | reflexivity | apply (digits_plus G); [discriminate | exact DM | reflexivity]]|].
      eapply okt_seq_at; [discriminate | apply okt_str|].
      eapply tok; [discriminate | reflexivity|]. apply (ok_call G Atomic "decimal" KAtomic _ (d_sec d) r [] eq_refl). apply (numeral_ok G); assumption. }
    destruct X as [c [E X]]. apply app_inv_tail in E. rewrite E. exact X. }
  apply okt_ok. apply (ok_call G NonAtomic "coord_part" KNormal (&"sct_coord_part" // &"decimal") _ r); [reflexivity|].
  apply ok_alt1. apply (ok_call G NonAtomic "sct_coord_part" KCompound _ _ r _ eq_refl O).
Qed.
Lemma dms_value_ok d v : reads_dms d v -> parse_coord_part (dms_tree d) = Ret (CDms v).
Proof.
  destruct v as [[[h deg] min] sec]. intros [LT [_ [_ [_ [D [M S]]]]]]. unfold parse_coord_part, dms_tree. cbn [kids_of next obind text_of].
  change (is_rule _ "decimal") with false. change (is_rule _ "sct_coord_part") with true. cbn iota. cbn [kids_of next obind text_of].
  assert (H : hemi_from (d_letter d) = Ret h).
  { destruct h; cbn [map In] in LT; repeat (destruct LT as [<-|LT]; [reflexivity|]); contradiction. }
  rewrite H, D, M, S. reflexivity.
Qed.
Lemma dms_clear d v r : reads_dms d v -> clear (dms_text d ++ r).
Proof.
  destruct v as [[[h deg] min] sec]. intros [LT _]. unfold dms_text. rewrite <- app_assoc.
  destruct h; cbn [map In] in LT; repeat (destruct LT as [<-|LT]; [apply clear_char; (reflexivity || discriminate)|]); contradiction.
Qed.
(** what is no coordinate *)
Definition no_number (t : text) : Prop := match t with [] => True | c :: v => number_stop c = false /\ c <> 43%N /\ c <> 45%N /\ (In c hemispheres -> stops is_digit v) end.
Lemma decimal_ko a t : no_number t -> ko G a &"decimal" t.
Proof.
  intros H. apply (ko_tok G a "decimal" _ t eq_refl). destruct t as [|c t].
  - eapply (ko_seq2_at G Atomic _ _ [] [] []); [discriminate | apply ok_opt_no, ko_alt; apply ko_str; discriminate|].
    apply ko_alt; [|apply ko_plus_sat; exact I]. eapply (ko_seq2_at G Atomic _ _ [] [] []); [discriminate | apply ok_star_nil, ko_sat; exact I | apply ko_seq1, (ko_chr G Atomic 46); exact I].
  - destruct H as [N [P [M _]]]. unfold number_stop in N. apply orb_false_iff in N. destruct N as [D N].
    eapply (ko_seq2_at G Atomic _ _ [] (c :: t) []); [discriminate | apply ok_opt_no, ko_alt; [apply (ko_chr G Atomic 45) | apply (ko_chr G Atomic 43)]; cbn [app stops]; lia|].
    apply ko_alt; [|apply ko_plus_sat; exact D]. eapply (ko_seq2_at G Atomic _ _ [] (c :: t) []); [discriminate | apply ok_star_nil, ko_sat; exact D | apply ko_seq1, (ko_chr G Atomic 46); exact N].
Qed.
Lemma part_ko t : no_number t -> ko G NonAtomic &"coord_part" t.
Proof.
  intros H. eapply ko_call; [reflexivity|]. apply ko_alt; [|apply decimal_ko, H]. eapply ko_call; [reflexivity|].
  destruct t as [|c t].
  - apply ko_seq1. eapply ko_call; [reflexivity|]. repeat apply ko_alt; apply ko_str; discriminate.
  - destruct H as [_ [_ [_ H]]]. destruct (in_dec N.eq_dec c hemispheres) as [I|N].
    + specialize (H I). eapply (ko_seq2_att G Compound _ _ _ t); [discriminate | apply (hemi_ok [c] t)|].
      * cbv in I. repeat (destruct I as [<-|I]; [cbv; tauto|]). contradiction.
      * apply ko_seq1. eapply ko_call; [reflexivity|]. apply ko_plus_sat, H.
    + apply ko_seq1. eapply ko_call; [reflexivity|]. cbv [hemispheres s2t In] in N.
      repeat apply ko_alt; apply (ko_chr G); cbn [stops]; apply N.eqb_neq; intros ->; apply N; cbv; tauto.
Qed.
Lemma fix_number w r : unplaced w -> after at_colon r -> no_number (w ++ r).
Proof.
  intros U A. assert (S : forall h, (forall c, h c = true -> is_blank c = false /\ is_nl c = false /\ at_colon c = false) -> stops h r) by (intros h; apply after_stops, A).
  destruct w as [|c w].
  - assert (X : stops (fun c => number_stop c || (c =? 43)%N || (c =? 45)%N || existsb (N.eqb c) hemispheres) r).
    { apply S. intros c H. unfold number_stop, is_digit in H. cbv [hemispheres s2t existsb] in H. cbn in H. unfold is_blank, is_nl, at_colon. lia. }
    destruct r as [|d r]; [exact I|]. cbn [app no_number stops] in *. repeat (apply orb_false_iff in X; destruct X as [X ?]).
    split; [unfold number_stop; rewrite X; assumption|]. split; [lia|]. split; [lia|]. intros J. match goal with H : existsb _ _ = false |- _ => rewrite <- not_true_iff_false in H; contradiction H; apply existsb_exists; exists d; split; [exact J | apply N.eqb_refl] end.
  - destruct (U c w eq_refl) as [D [P H]]. cbn [app no_number]. cbv [s2t In] in P. cbn in P.
    split; [unfold number_stop; rewrite D; cbn [orb]; apply N.eqb_neq; intros ->; apply P; tauto|].
    split; [intros ->; apply P; tauto|]. split; [intros ->; apply P; tauto|]. intros J. destruct w as [|d w]; [|exact (H J d w eq_refl)].
    apply S. intros d X. unfold is_digit in X. unfold is_blank, is_nl, at_colon. lia.
Qed.
Definition spot_tree (p : place) : tree :=
  match p with
  | Degrees y x => T "coordinate" (spot_text p) [dms_tree y; dms_tree x]
  | Decimals y x => T "coordinate" (spot_text p) [T "coord_part" y [dtree y]; T "coord_part" x [dtree x]]
  | Fix w => ctree w
  end.
Lemma numeral_no_hemi w r : numeral w -> ko G NonAtomic &"sct_coord_part" (w ++ r).
Proof.
  intros [sg [u [-> [SG U]]]]. eapply ko_call; [reflexivity|]. apply ko_seq1. eapply ko_call; [reflexivity|]. rewrite <- app_assoc.
  assert (H : exists c v, sg ++ u ++ r = c :: v /\ (number_stop c = true \/ c = 43%N \/ c = 45%N)).
  { destruct (unsigned_hd u r U) as [c [v [E C]]]. destruct SG as [->|[->| ->]]; [exists c, v; split; [exact E | auto] | eexists _, _; split; [reflexivity | auto] | eexists _, _; split; [reflexivity | auto]]. }
  destruct H as [c [v [-> H]]]. repeat apply ko_alt; apply (ko_chr G); cbn [stops]; apply N.eqb_neq; intros ->; destruct H as [H|[H|H]]; discriminate H.
Qed.
Lemma decimal_part w r : numeral w -> after at_comma r -> okt G NonAtomic &"coord_part" (w ++ r) r [T "coord_part" w [dtree w]].
Proof. intros W A. eapply normal_ok; [reflexivity | reflexivity|]. apply okt_alt2; [apply numeral_no_hemi, W | apply dec_ok; assumption]. Qed.
Lemma spot_clear p l r : reads_spot p l -> clear r -> clear (spot_text p ++ r).
Proof.
  destruct p as [y x|y x|w]; destruct l as [[lng lat]|d]; try contradiction; cbn [reads_spot spot_text]; intros H C.
  - destruct H as [la [lo [H _]]]. rewrite <- app_assoc. eapply dms_clear, H.
  - rewrite <- app_assoc. apply numeral_clear, H.
  - apply clear_word; [apply H | exact C].
Qed.
Lemma coordinate_ok p l r : fixed p = false -> reads_spot p l -> after at_comma r -> okt G NonAtomic &"coordinate" (spot_text p ++ r) r [spot_tree p].
Proof.
  intros F H A. destruct p as [y x|y x|w]; [| |discriminate F]; destruct l as [[lng lat]|d]; try contradiction; cbn [reads_spot spot_text spot_tree] in *.
  - destruct H as [la [lo [H1 [H2 _]]]]. eapply normal_ok; [reflexivity | reflexivity|]. rewrite <- !app_assoc.
    apply (seq0 _ _ _ (s2t ":" ++ dms_text x ++ r) r [_] [_]); [eapply dms_ok; [exact H1 | reflexivity] | apply clear_char; (reflexivity || discriminate)|].
    apply (seq0 _ _ _ (dms_text x ++ r) r [] [_]); [apply okt_str | eapply dms_clear, H2 | eapply dms_ok; [exact H2 | apply after_number, A]].
  - destruct H as [Y [X _]]. eapply normal_ok; [reflexivity | reflexivity|]. rewrite <- !app_assoc.
    apply (seq0 _ _ _ (s2t ":" ++ x ++ r) r [_] [_]); [apply decimal_part; [exact Y | apply colon_comma, colon_after] | apply clear_char; (reflexivity || discriminate)|].
    apply (seq0 _ _ _ (x ++ r) r [] [_]); [apply okt_str | apply numeral_clear, X | apply decimal_part; assumption].
Qed.
Lemma fix_ko w r : unplaced w -> after at_colon r -> ko G NonAtomic &"coordinate" (w ++ r).
Proof. intros U A. eapply ko_call; [reflexivity|]. apply ko_seq1, part_ko, fix_number; assumption. Qed.
Lemma spot_ok p l r : reads_spot p l -> after at_colon r -> okt G NonAtomic (&"coordinate" // &"colon_delimited_text") (spot_text p ++ r) r [spot_tree p].
Proof.
  intros H A. destruct (fixed p) eqn:F.
  - destruct p as [y x|y x|w]; try discriminate F. destruct l as [[lng lat]|d]; try contradiction. destruct H as [W [U _]].
    apply okt_alt2; [apply fix_ko; assumption | apply ct_ok; assumption].
  - apply okt_alt1. eapply coordinate_ok; [exact F | exact H | apply colon_comma, A].
Qed.
Lemma spot_value p l : reads_spot p l -> parse_location (spot_tree p) = Ret l.
Proof.
  destruct p as [y x|y x|w]; destruct l as [[lng lat]|d]; try contradiction; cbn [reads_spot spot_tree]; intros H.
  - destruct H as [la [lo [H1 [H2 E]]]]. unfold parse_location. change (is_rule _ "colon_delimited_text") with false. change (is_rule _ "coordinate") with true. cbn iota.
    unfold parse_coord. cbn [kids_of next obind fst snd] in *. rewrite (dms_value_ok _ _ H1), (dms_value_ok _ _ H2). cbn [obind]. rewrite E. reflexivity.
  - destruct H as [_ [_ [Y X]]]. unfold parse_location. change (is_rule _ "colon_delimited_text") with false. change (is_rule _ "coordinate") with true. cbn iota.
    assert (V : forall w z, parse_f64 w = Some z -> parse_coord_part (T "coord_part" w [dtree w]) = Ret (CDecimal z)).
    { intros w z E. transitivity (do a <- unwrap (parse_f64 w); Ret (CDecimal a)); [reflexivity|]. rewrite E. reflexivity. }
    unfold parse_coord. cbn [kids_of next obind]. rewrite (V _ _ Y), (V _ _ X). reflexivity.
  - destruct H as [_ [_ ->]]. reflexivity.
Qed.

(** ** Names *)
Definition mtree (w : text) : tree := T "comma_delimited_text" w [].
Definition ntree (l : list text) : tree := T "names" (names_text l) (map mtree l).
Definition item (w : text) : Prop := word w /\ Forall (fun c => c <> 44%N) w.
Local Notation more l := (List.concat (map (fun v => s2t "," ++ v) l)).
Lemma item_ok w r : item w -> after at_comma r -> okt G NonAtomic &"comma_delimited_text" (w ++ r) r [mtree w].
Proof.
  intros [[[F T] _] N] A. eapply tok; [discriminate | reflexivity|].
  apply (delimited G _ at_comma); [apply (one_alt G Atomic (Str [58%N]) (Str [44%N]) (fun c => c =? 58)%N (fun c => c =? 44)%N); apply one_chr | |exact T | apply after_ends, A].
  rewrite Forall_forall in *. intros c I. specialize (F c I). specialize (N c I). cbn beta in *. unfold at_comma. lia.
Qed.
Lemma more_after l r : after at_colon r -> after at_comma (more l ++ r).
Proof. intros A. destruct l as [|w l]; [apply colon_comma, A|]. left. eexists 44%N, _. split; reflexivity. Qed.
Lemma comma_item w r : item w -> after at_comma r -> okt G NonAtomic (str "," ~~ &"comma_delimited_text") ((s2t "," ++ w) ++ r) r [mtree w].
Proof.
  intros W A. rewrite <- app_assoc. apply (seq0 _ _ _ (w ++ r) r [] [_]); [apply okt_str | apply clear_word; [apply W | apply comma_clear, A] | apply item_ok; assumption].
Qed.
Lemma no_comma r e : after at_colon r -> ko G NonAtomic (str "," ~~ e) r.
Proof. intros A. apply ko_seq1, (ko_chr G NonAtomic 44). eapply after_stops; [exact A|]. unfold is_blank, is_nl, at_colon. lia. Qed.
Lemma listed_many x (f : text -> tree) (P : text -> Prop) l r :
  (forall w r, P w -> after at_comma r -> okt G NonAtomic (str "," ~~ x) ((s2t "," ++ w) ++ r) r [f w]) -> Forall P l -> after at_colon r ->
  okt G NonAtomic (Many (Then Skip (str "," ~~ x))) (more l ++ r) r (map f l) /\ okt G NonAtomic (Star (str "," ~~ x)) (more l ++ r) r (map f l).
Proof.
  intros O F A. induction F as [|w l W F IH]; [split; [apply okt_many_nil | apply okt_star_nil]|]; cbn [map List.concat app]; rewrite <- ?app_assoc.
  - eapply ko_then2t; [apply skip_clear, colon_clear, A | apply no_comma, A].
  - apply no_comma, A.
  - destruct IH as [M _]. pose proof (O w (more l ++ r) W (more_after l r A)) as X. rewrite <- app_assoc in X. split.
    + apply (okt_many_cons G NonAtomic _ _ (more l ++ r) r [_] (map f l)); [|exact M].
      apply (okt_then G NonAtomic Skip _ _ (s2t "," ++ w ++ more l ++ r) _ [] [_]); [apply skip_clear, clear_char; (reflexivity || discriminate) | exact X].
    + apply okt_opt. apply (okt_then G NonAtomic _ _ _ (more l ++ r) r [_] (map f l)); assumption.
Qed.
Lemma names_ok l r : names l -> after at_colon r -> okt G NonAtomic &"names" (names_text l ++ r) r [ntree l].
Proof.
  intros [N F] A. destruct l as [|w l]; [contradiction N; reflexivity|]. inversion F as [|? ? W F' E]; subst. eapply normal_ok; [reflexivity | reflexivity|].
  cbn [names_text]. rewrite <- app_assoc. cbn [map].
  apply (seq0 _ _ _ (more l ++ r) r [_] (map mtree l)); [apply item_ok; [exact W | apply more_after, A] | apply comma_clear, more_after, A|].
  apply (listed_many _ mtree item); [intros; apply comma_item; assumption | exact F' | exact A].
Qed.
Lemma names_clear l r : names l -> clear r -> clear (names_text l ++ r).
Proof.
  intros [N F] C. destruct l as [|w l]; [contradiction N; reflexivity|]. inversion F as [|? ? W F' E]; subst. cbn [names_text]. rewrite <- app_assoc.
  apply clear_word; [apply W|]. destruct l; [exact C | apply clear_char; (reflexivity || discriminate)].
Qed.
Definition choice_tree (o : option (list text)) : tree := match o with Some l => ntree l | None => T "wildcard" (s2t "*") [] end.
Lemma choice_ok o r : choice o -> after at_colon r -> okt G NonAtomic (&"wildcard" // &"names") (choice_text o ++ r) r [choice_tree o].
Proof.
  intros C A. destruct o as [l|]; cbn [choice_text choice_tree].
  - destruct (C l eq_refl) as [N S]. apply okt_alt2; [|apply names_ok; assumption]. eapply ko_call; [reflexivity|]. apply ko_str. intros v E.
    destruct (names_text l) as [|c u] eqn:X.
    + cbn [app] in E. destruct A as [[d [r' [-> D]]]|[t R]]; [injection E as -> _; discriminate D|].
      pose proof (rest_stops (fun c => c =? 42)%N _ _ R ltac:(unfold is_blank, is_nl; lia)) as ST. rewrite E in ST. discriminate ST.
    + injection E as -> _. apply (S u). reflexivity.
  - apply okt_alt1. eapply normal_ok; [reflexivity | reflexivity | apply okt_str].
Qed.
Lemma choice_clear o r : choice o -> clear r -> clear (choice_text o ++ r).
Proof.
  intros C R. destruct o as [l|]; cbn [choice_text]; [apply names_clear; [apply (C l eq_refl) | exact R] | apply clear_char; (reflexivity || discriminate)].
Qed.
Lemma texts_back l : map text_of (map mtree l) = l.
Proof. rewrite map_map. apply map_id. Qed.
Lemma choice_value o : parse_names (choice_tree o) = Ret o.
Proof. destruct o as [l|]; [|reflexivity]. cbn [choice_tree]. transitivity (Ret (Some (map text_of (map mtree l)))); [reflexivity | rewrite texts_back; reflexivity]. Qed.

(** ** Words *)
Fixpoint clash (a b : text) : bool := match a, b with x :: a, y :: b => negb (x =? y)%N || clash a b | _, _ => false end.
Lemma clash_ne a : forall b x y, clash a b = true -> a ++ x <> b ++ y.
Proof.
  induction a as [|c a IH]; intros [|d b] x y C E; try discriminate C. cbn in C, E. injection E as -> E. rewrite N.eqb_refl in C. exact (IH b x y C E).
Qed.
Lemma ko_clash a s t x : clash t s = true -> ko G a (Str s) (t ++ x).
Proof. intros C. apply ko_str. intros r. apply clash_ne, C. Qed.

(** ** Conditions *)
Ltac cc := apply clear_char; (reflexivity || discriminate).
Ltac other := eapply ko_call; [reflexivity|]; apply ko_seq1, ko_clash; reflexivity.
Lemma digit_ko t : stops is_digit t -> ko G NonAtomic ASCII_DIGIT t.
Proof. apply ko_sat. Qed.
Lemma sched_ko t : stops is_digit t -> ko G NonAtomic &"active_sched" t.
Proof.
  intros S. eapply ko_call; [reflexivity|]. apply ko_seq1, ko_alt; (eapply ko_call; [reflexivity|]); repeat apply ko_seq1; apply digit_ko, S.
Qed.
Lemma sched_always R t : rest R t -> ko G NonAtomic &"active_sched" (s2t "1" ++ R).
Proof.
  intros X. assert (K : ko G NonAtomic (ASCII_DIGIT ~~ ASCII_DIGIT) (s2t "1" ++ R)).
  { apply (ko_seq0 _ _ _ R []); [apply (okt_ok G NonAtomic ASCII_DIGIT [49%N]), ok_sat; reflexivity | eapply rest_clear, X|]. apply digit_ko. eapply rest_stops; [exact X|]. unfold is_digit, is_blank, is_nl. lia. }
  eapply ko_call; [reflexivity|]. apply ko_seq1, ko_alt; (eapply ko_call; [reflexivity|]); apply ko_seq1, K.
Qed.
Lemma four_ok n k a b c d R t : get n G = Some (KNormal, str k ~~ (&"wildcard" // &"names") ~~ str ":" ~~ (&"wildcard" // &"names") ~~ str ":" ~~ (&"wildcard" // &"names") ~~ str ":" ~~ (&"wildcard" // &"names")) ->
  body_atom n KNormal NonAtomic = NonAtomic -> Forall choice [a; b; c; d] -> rest R t ->
  okt G NonAtomic (Call n) (four k a b c d ++ R) R [T n (four k a b c d) (map choice_tree [a; b; c; d])].
Proof.
  intros E B F X. inversion_clear F as [|? ? A F']. inversion_clear F' as [|? ? Bb F]. inversion_clear F as [|? ? C F']. inversion_clear F' as [|? ? D _].
  eapply normal_ok; [exact E | exact B|]. unfold four. rewrite <- !app_assoc. cbn [map].
  assert (CC : forall r, clear (s2t ":" ++ r)) by (intros r; cc).
  apply (seq0 _ _ _ (choice_text a ++ s2t ":" ++ choice_text b ++ s2t ":" ++ choice_text c ++ s2t ":" ++ choice_text d ++ R) _ [] [_; _; _; _]); [apply okt_str | apply choice_clear; [exact A | apply CC]|].
  apply (seq0 _ _ _ (s2t ":" ++ choice_text b ++ s2t ":" ++ choice_text c ++ s2t ":" ++ choice_text d ++ R) _ [_] [_; _; _]); [apply choice_ok; [exact A | apply colon_after] | apply CC|].
  apply (seq0 _ _ _ (choice_text b ++ s2t ":" ++ choice_text c ++ s2t ":" ++ choice_text d ++ R) _ [] [_; _; _]); [apply okt_str | apply choice_clear; [exact Bb | apply CC]|].
  apply (seq0 _ _ _ (s2t ":" ++ choice_text c ++ s2t ":" ++ choice_text d ++ R) _ [_] [_; _]); [apply choice_ok; [exact Bb | apply colon_after] | apply CC|].
  apply (seq0 _ _ _ (choice_text c ++ s2t ":" ++ choice_text d ++ R) _ [] [_; _]); [apply okt_str | apply choice_clear; [exact C | apply CC]|].
  apply (seq0 _ _ _ (s2t ":" ++ choice_text d ++ R) _ [_] [_]); [apply choice_ok; [exact C | apply colon_after] | apply CC|].
  apply (seq0 _ _ _ (choice_text d ++ R) _ [] [_]); [apply okt_str | apply choice_clear; [exact D | eapply rest_clear, X]|]. apply choice_ok; [exact D | eapply rest_after, X].
Qed.
Lemma four_value a b c d n w : parse_active_ids (T n w (map choice_tree [a; b; c; d])) = Ret (mkActiveIds a b c d).
Proof. unfold parse_active_ids. cbn [kids_of map next obind]. rewrite !choice_value. reflexivity. Qed.
Lemma icao_ok w r : List.length w = 4 -> Forall (fun c => is_upper c = true) w -> okt G NonAtomic &"icao" (w ++ r) r [T "icao" w []].
Proof.
  intros L F. destruct w as [|a [|b [|c [|d [|e w]]]]]; try discriminate L. inversion_clear F as [|? ? A F']. inversion_clear F' as [|? ? B F]. inversion_clear F as [|? ? C F']. inversion_clear F' as [|? ? D _].
  eapply normal_ok; [reflexivity | reflexivity|].
  assert (U : forall x r, is_upper x = true -> okt G NonAtomic ASCII_ALPHA_UPPER (x :: r) r []) by (intros x s H; apply (okt_ok G NonAtomic ASCII_ALPHA_UPPER [x]), ok_sat, H).
  assert (UC : forall x r, is_upper x = true -> clear (x :: r)) by (intros x s H; apply clear_char; unfold is_upper, is_blank in *; lia).
  cbn [app]. apply (seq0 _ _ _ (b :: c :: d :: r) _ [] []); [apply U, A | apply UC, B|]. apply (seq0 _ _ _ (c :: d :: r) _ [] []); [apply U, B | apply UC, C|].
  apply (seq0 _ _ _ (d :: r) _ [] []); [apply U, C | apply UC, D | apply U, D].
Qed.
Lemma icao_clear w r : List.length w = 4 -> Forall (fun c => is_upper c = true) w -> clear (w ++ r).
Proof. intros L F. destruct F as [|x w H F]; [discriminate L|]. apply clear_char; unfold is_upper, is_blank in *; lia. Qed.
Lemma condition_ok c a R t : reads_condition c a -> rest R t ->
  clear (condition_text c ++ R) /\ exists q, okt G NonAtomic &"active_options" (condition_text c ++ R) R [q] /\ forall n w, parse_active (T n w [q]) = Ret a.
Proof.
  intros H X. assert (CR := rest_clear R t X). assert (AR := rest_after at_colon R t X). assert (CC : forall r, clear (s2t ":" ++ r)) by (intros r; cc).
  assert (SIL : forall c q, okt G NonAtomic (&"active_sched" // &"active_id" // &"active_notam" // &"active_aup" // &"active_area_with_excludes" // &"active_area"
     // &"active_callsign" // &"active_rwy_with_excludes" // &"active_rwy" // &"active_always" // &"active_map") (condition_text c ++ R) R [q] -> okt G NonAtomic &"active_options" (condition_text c ++ R) R [q]).
  { intros c0 q O. eapply okt_silent; [reflexivity | reflexivity | exact O]. }
  destruct c as [|o oe n ne|o oe n ne|l ex|l|icao l|same folder name]; destruct a; try contradiction; cbn [reads_condition] in H.
  - split; [cc|]. exists (T "active_always" (s2t "1") []). split; [apply (SIL Always)|intros; reflexivity]. apply okt_alt2; [eapply sched_always, X|].
    do 8 (apply okt_alt2; [other|]). apply okt_alt1. eapply normal_ok; [reflexivity | reflexivity | apply okt_str].
  - destruct H as [F ->]. split; [cc|]. eexists. split; [apply SIL|].
    + apply okt_alt2; [apply sched_ko; reflexivity|]. apply okt_alt1. eapply (four_ok "active_id" "ID:"); [reflexivity | reflexivity | exact F | exact X].
    + intros m w. transitivity (do a <- parse_active_ids (T "active_id" (four "ID:" o oe n ne) (map choice_tree [o; oe; n; ne])); Ret (AId a)); [reflexivity | rewrite four_value; reflexivity].
  - destruct H as [F ->]. split; [cc|]. eexists. split; [apply SIL|].
    + apply okt_alt2; [apply sched_ko; reflexivity|]. cbn [condition_text]. unfold four. rewrite <- app_assoc. do 5 (apply okt_alt2; [other|]). apply okt_alt1.
      rewrite app_assoc. eapply (four_ok "active_callsign" "CALLSIGN:"); [reflexivity | reflexivity | exact F | exact X].
    + intros m w. transitivity (do a <- parse_active_ids (T "active_callsign" (four "CALLSIGN:" o oe n ne) (map choice_tree [o; oe; n; ne])); Ret (ACallsign a)); [reflexivity | rewrite four_value; reflexivity].
  - destruct H as [NL [NX ->]]. destruct ex as [ex|].
    + specialize (NX ex eq_refl). split; [cc|]. eexists. split; [apply SIL|].
      * apply okt_alt2; [apply sched_ko; reflexivity|]. cbn [condition_text]. rewrite <- app_assoc. do 3 (apply okt_alt2; [other|]). apply okt_alt1. rewrite app_assoc.
        eapply normal_ok; [reflexivity | reflexivity|]. rewrite <- !app_assoc.
        apply (seq0 _ _ _ (names_text l ++ s2t ":" ++ names_text ex ++ R) _ [] [ntree l; ntree ex]); [apply okt_str | apply names_clear; [exact NL | apply CC]|].
        apply (seq0 _ _ _ (s2t ":" ++ names_text ex ++ R) _ [ntree l] [ntree ex]); [apply names_ok; [exact NL | apply colon_after] | apply CC|].
        apply (seq0 _ _ _ (names_text ex ++ R) _ [] [ntree ex]); [apply okt_str | apply names_clear; assumption | apply names_ok; assumption].
      * intros m w. transitivity (Ret (AArea (mkActiveAreas (map text_of (map mtree l)) (Some (map text_of (map mtree ex)))))); [reflexivity | rewrite !texts_back; reflexivity].
    + split; [cc|]. eexists. split; [apply SIL|].
      * apply okt_alt2; [apply sched_ko; reflexivity|]. cbn [condition_text]. rewrite <- app_assoc. do 3 (apply okt_alt2; [other|]). apply okt_alt2.
        { eapply ko_call; [reflexivity|]. apply (ko_seq0 _ _ _ (names_text l ++ R) []); [apply okt_str | apply names_clear; assumption|].
          apply (ko_seq0 _ _ _ R [ntree l]); [apply names_ok; assumption | exact CR|]. apply ko_seq1, (ko_chr G NonAtomic 58). eapply rest_stops; [exact X|]. unfold is_blank, is_nl. lia. }
        apply okt_alt1. rewrite app_assoc. eapply normal_ok; [reflexivity | reflexivity|]. rewrite <- !app_assoc.
        apply (seq0 _ _ _ (names_text l ++ R) _ [] [ntree l]); [apply okt_str | apply names_clear; assumption | apply names_ok; assumption].
      * intros m w. transitivity (Ret (AArea (mkActiveAreas (map text_of (map mtree l)) None))); [reflexivity | rewrite !texts_back; reflexivity].
  - destruct H as [NL ->]. split; [cc|]. eexists. split; [apply SIL|].
    + apply okt_alt2; [apply sched_ko; reflexivity|]. cbn [condition_text]. rewrite <- app_assoc. do 2 (apply okt_alt2; [other|]). apply okt_alt1. rewrite app_assoc.
      eapply normal_ok; [reflexivity | reflexivity|]. rewrite <- !app_assoc. apply (seq0 _ _ _ (names_text l ++ R) _ [] [ntree l]); [apply okt_str | apply names_clear; assumption | apply names_ok; assumption].
    + intros m w. reflexivity.
  - destruct H as [L [F [NL [-> ->]]]]. split; [cc|]. eexists. split; [apply SIL|].
    + apply okt_alt2; [apply sched_ko; reflexivity|]. cbn [condition_text]. rewrite <- app_assoc. do 1 (apply okt_alt2; [other|]). apply okt_alt1. rewrite app_assoc.
      eapply normal_ok; [reflexivity | reflexivity|]. rewrite <- !app_assoc.
      apply (seq0 _ _ _ (icao ++ s2t ":" ++ names_text l ++ R) _ [] [T "icao" icao []; ntree l]); [apply okt_str | apply icao_clear; assumption|].
      apply (seq0 _ _ _ (s2t ":" ++ names_text l ++ R) _ [T "icao" icao []] [ntree l]); [apply icao_ok; assumption | apply CC|].
      apply (seq0 _ _ _ (names_text l ++ R) _ [] [ntree l]); [apply okt_str | apply names_clear; assumption | apply names_ok; assumption].
    + intros m w. reflexivity.
  - destruct H as [FF [UF [WN [-> [-> ->]]]]]. split; [cc|]. eexists. split; [apply SIL|].
    + apply okt_alt2; [apply sched_ko; reflexivity|]. cbn [condition_text]. rewrite <- app_assoc. do 9 (apply okt_alt2; [first [other | eapply ko_call; [reflexivity|]; apply ko_clash; reflexivity]|]). rewrite app_assoc.
      eapply normal_ok; [reflexivity | reflexivity|]. rewrite <- !app_assoc.
      assert (CB : forall r, clear (s2t "\" ++ r)) by (intros r; cc).
      apply (seq0 _ _ _ (s2t (if same then "=" else "!") ++ s2t ":" ++ folder ++ s2t "\" ++ name ++ R) _ [] [T "active_map_operator" (s2t (if same then "=" else "!")) []; btree folder; ctree name]); [apply okt_str | destruct same; cc|].
      apply (seq0 _ _ _ (s2t ":" ++ folder ++ s2t "\" ++ name ++ R) _ [_] [btree folder; ctree name]); [|apply CC|].
      { eapply normal_ok; [reflexivity | reflexivity|]. destruct same; [apply okt_alt2; [apply ko_str; intros v; discriminate|] | apply okt_alt1]; apply okt_str. }
      apply (seq0 _ _ _ (folder ++ s2t "\" ++ name ++ R) _ [] [btree folder; ctree name]); [apply okt_str | apply clear_field; [apply FF | exact UF | apply CB]|].
      apply (seq0 _ _ _ (s2t "\" ++ name ++ R) _ [btree folder] [ctree name]); [apply bt_ok; [exact FF | left; eexists 92%N, _; split; reflexivity] | apply CB|].
      apply (seq0 _ _ _ (name ++ R) _ [] [ctree name]); [apply okt_str | apply clear_word; assumption | apply ct_ok; assumption].
    + intros m w. destruct same; reflexivity.
Qed.

(** ** Settings *)
Definition heads : list (string * list string) :=
  [("folder", ["FOLDER:"]); ("colour", ["COLOR:"]); ("asrdata", ["ASRDATA:"]); ("active", ["ACTIVE:"]); ("andactive", ["AND_ACTIVE:"]); ("layer", ["LAYER:"]);
   ("mapsymbol", ["SYMBOL"]); ("fontstyle", ["FONTSTYLE:"]); ("fontsize", ["FONTSIZE:"]); ("zoom", ["ZOOM:"]); ("style", ["STYLE:"]); ("mapline", ["LINE:"]);
   ("text", ["TEXT"]); ("global", ["GLOBAL"]); ("screen_specific", ["SCREEN-SPECIFIC"]); ("circle", ["COORD_CIRCLE:"; "CIRCLE:"]); ("coordline", ["COORDLINE"]);
   ("coordpoly", ["COORDPOLY:"]); ("coord", ["COORD:"]); ("textalign", ["TEXTALIGN:"]); ("override_sct", ["OVERRIDE_SCT_MAP:"]); ("hidden", ["HIDDEN"]);
   ("sctfiledata", ["SCTFILEDATA"]); ("sctdata", ["SCTDATA"]); ("coord_af", ["COORD_AF:"]); ("coord_hm", ["COORD_HM:"]); ("coord_pbd", ["COORD_PBD:"])].
Fixpoint alts (n : string) (ns : list string) : expr := match ns with [] => Call n | m :: ns => Call n // alts m ns end.
Lemma alts_ok n t r ts : okt G NonAtomic (Call n) t r ts -> forall ns m, In n (m :: ns) -> (forall x, In x (m :: ns) -> x <> n -> ko G NonAtomic (Call x) t) -> okt G NonAtomic (alts m ns) t r ts.
Proof.
  intros O ns. induction ns as [|x ns IH]; intros m I K; cbn [alts].
  - destruct I as [->|[]]. exact O.
  - destruct (string_dec m n) as [->|N]; [apply okt_alt1, O|]. apply okt_alt2; [apply K; [left; reflexivity | exact N]|].
    destruct I as [I|I]; [contradiction|]. apply IH; [exact I|]. intros y J. apply K. right. exact J.
Qed.
Lemma alts_ko t ns : forall m, (forall x, In x (m :: ns) -> ko G NonAtomic (Call x) t) -> ko G NonAtomic (alts m ns) t.
Proof.
  induction ns as [|x ns IH]; intros m K; cbn [alts]; [apply K; left; reflexivity|]. apply ko_alt; [apply K; left; reflexivity|]. apply IH. intros y J. apply K. right. exact J.
Qed.
Local Notation SETTING := (alts "folder" (map fst (tl heads))).
Lemma setting_is : get "map_setting" G = Some (KSilent, Star SPTAB ~~ SETTING ~~ Opt &"NL").
Proof. reflexivity. Qed.
Lemma heads_ko n hs t : In (n, hs) heads -> (forall h, In h hs -> ko G NonAtomic (str h) t) -> ko G NonAtomic (Call n) t.
Proof.
  intros I K. cbv [heads In] in I. repeat (destruct I as [I|I]; [injection I as <- <-; eapply ko_call; [reflexivity|];
    repeat first [apply (K _ (or_introl eq_refl)) | apply (K _ (or_intror (or_introl eq_refl))) | apply ko_seq1 | apply ko_alt]|]). contradiction.
Qed.
Definition clashes (kw : string) (hs : list string) : bool := forallb (fun h => clash (s2t kw) (s2t h)) hs.
Lemma clashes_ko kw n hs x : In (n, hs) heads -> clashes kw hs = true -> ko G NonAtomic (Call n) (s2t kw ++ x).
Proof.
  intros I C. eapply heads_ko; [exact I|]. intros h J. unfold clashes in C. rewrite forallb_forall in C. apply ko_clash, C, J.
Qed.
Lemma keyed_ok n kw x r ts : forallb (fun '(m, hs) => String.eqb m n || clashes kw hs) heads && existsb (fun '(m, _) => String.eqb m n) heads = true ->
  okt G NonAtomic (Call n) (s2t kw ++ x) r ts -> okt G NonAtomic SETTING (s2t kw ++ x) r ts.
Proof.
  intros H O. apply andb_true_iff in H. destruct H as [C E]. apply existsb_exists in E. destruct E as [[m hs] [I E]]. apply String.eqb_eq in E. subst m.
  apply (alts_ok n); [exact O | apply (in_map fst) in I; exact I|]. intros y J N. change (In y (map fst heads)) in J. apply in_map_iff in J. destruct J as [[y' hs'] [<- J]]. cbn [fst] in *.
  eapply clashes_ko; [exact J|]. rewrite forallb_forall in C. specialize (C _ J). cbn beta iota in C. apply orb_true_iff in C. destruct C as [C|C]; [apply String.eqb_eq in C; contradiction | exact C].
Qed.
Lemma setting_ko kw x : forallb (fun '(m, hs) => clashes kw hs) heads = true -> calm (s2t kw ++ x) -> ko G NonAtomic &"map_setting" (s2t kw ++ x).
Proof.
  intros H C. eapply ko_call; [exact setting_is|]. eapply ko_seq0; [apply (star_nonatomic []); [constructor | exact C] | apply (calm_clear []); [constructor | exact C]|].
  apply ko_seq1, alts_ko. intros y J. change (In y (map fst heads)) in J. apply in_map_iff in J. destruct J as [[y' hs'] [<- J]]. cbn [fst] in *.
  eapply clashes_ko; [exact J|]. rewrite forallb_forall in H. exact (H _ J).
Qed.
Lemma setting_ko_nil : ko G NonAtomic &"map_setting" [].
Proof.
  eapply ko_call; [exact setting_is|]. eapply ko_seq0; [apply (star_nonatomic [] []); [constructor | exact calm_nil] | apply (calm_clear []); [constructor | exact calm_nil]|].
  apply ko_seq1, alts_ko. intros y J. change (In y (map fst heads)) in J. apply in_map_iff in J. destruct J as [[y' hs'] [<- J]]. cbn [fst].
  eapply heads_ko; [exact J|]. intros h K. apply ko_str. intros r R. clear - J K R.
  assert (X : forallb (fun '(_, hs) => forallb (fun h => match s2t h with [] => false | _ => true end) hs) heads = true) by reflexivity.
  rewrite forallb_forall in X. specialize (X _ J). cbn beta iota in X. rewrite forallb_forall in X. specialize (X _ K). destruct (s2t h); discriminate.
Qed.
Lemma no_colon R t e : rest R t -> ko G NonAtomic (str ":" ~~ e) R.
Proof. intros X. apply ko_seq1, (ko_chr G NonAtomic 58). eapply rest_stops; [exact X|]. unfold is_blank, is_nl. lia. Qed.
Lemma colon_then x y r ts : clear y -> okt G NonAtomic x y r ts -> okt G NonAtomic (str ":" ~~ x) (s2t ":" ++ y) r ts.
Proof. intros C O. apply (seq0 _ _ _ y r [] ts); [apply okt_str | exact C | exact O]. Qed.
(** a keyword and one field *)
Lemma one_field n kw e w R t q : get n G = Some (KNormal, str kw ~~ e) -> body_atom n KNormal NonAtomic = NonAtomic -> clear (w ++ R) -> okt G NonAtomic e (w ++ R) R q -> rest R t ->
  okt G NonAtomic (Call n) ((s2t kw ++ w) ++ R) R [T n (s2t kw ++ w) q].
Proof.
  intros E B C O X. eapply normal_ok; [exact E | exact B|]. rewrite <- app_assoc. apply (seq0 _ _ _ (w ++ R) R [] q); [apply okt_str | exact C | exact O].
Qed.
(** the text of a caption *)
Lemma content_suffix a v R t : content (a ++ v) -> rest R t -> v <> [] -> exists b u, v ++ R = b ++ u /\ blanks b /\ calm u /\ stops is_nl u.
Proof.
  intros [_ [IL [[_ T] [NS NC]]]] X N.
  assert (S : exists b u, v = b ++ u /\ blanks b /\ stops is_blank u).
  { clear. induction v as [|c v [b [u [-> [B S]]]]]; [exists [], []; split; [reflexivity | split; [constructor | exact I]]|].
    destruct (is_blank c) eqn:C; [exists (c :: b), u; split; [reflexivity | split; [constructor; assumption | exact S]] | exists [], (c :: b ++ u); split; [reflexivity | split; [constructor | exact C]]]. }
  destruct S as [b [u [-> [B S]]]]. exists b, (u ++ R). rewrite <- app_assoc. split; [reflexivity|]. split; [exact B|].
  destruct u as [|c u].
  - exfalso. rewrite app_nil_r in *. destruct (exists_last N) as [b' [c ->]]. apply Forall_app in B. destruct B as [_ B]. inversion B as [|? ? C _]; subst.
    rewrite app_assoc in T. specialize (T _ c eq_refl). congruence.
  - apply Forall_app in NS, IL. destruct NS as [_ NS], IL as [_ IL]. apply Forall_app in NS, IL. destruct NS as [_ NS], IL as [_ IL]. inversion NS as [|? ? C _]; subst. inversion IL as [|? ? D _]; subst.
    split; [|cbn [app stops]; unfold is_nl; destruct D; lia]. split; [exact S|]. split; [intros y E; injection E as E _; contradiction|].
    intros y E. destruct u as [|d u].
    + injection E as -> E. cbn [app] in E. pose proof (rest_stops (fun c => c =? 47)%N R t X ltac:(unfold is_blank, is_nl; lia)) as ST. rewrite E in ST. discriminate ST.
    + injection E as -> -> E. apply (NC (a ++ b) u). rewrite <- app_assoc. reflexivity.
Qed.
Lemma content_clear w R t : content w -> rest R t -> clear (w ++ R).
Proof. intros C X. destruct (content_suffix [] w R t C X (proj1 C)) as [b [u [-> [B [S _]]]]]. apply calm_clear; assumption. Qed.
Lemma content_ok w R t : content w -> rest R t -> okt G NonAtomic &"text_content" (w ++ R) R [T "text_content" w []].
Proof.
  intros C X. eapply normal_ok; [reflexivity | reflexivity|].
  assert (GO : forall a c v, w = a ++ c :: v -> okt G NonAtomic (until &"NL") ((c :: v) ++ R) (v ++ R) []).
  { intros a c v ->. destruct (content_suffix a (c :: v) R t C X) as [b [u [E [B [S L]]]]]; [discriminate|].
    apply (seq0 (Not &"NL") ANY _ ((c :: v) ++ R) (v ++ R) [] []); [apply okt_not|rewrite E; apply calm_clear; assumption|apply (okt_ok G NonAtomic ANY [c]), ok_sat; reflexivity].
    rewrite E. apply nl_ko. exists b, u. auto. }
  assert (M : forall v a, w = a ++ v -> okt G NonAtomic (Many (Then Skip (until &"NL"))) (v ++ R) R []).
  { induction v as [|c v IH]; intros a E.
    - apply okt_many_nil. eapply ko_then2t; [apply skip_clear, (rest_clear R t X)|]. destruct (nl_ok R t X) as [u [O _]]. apply ko_seq1. eapply ko_nott, O.
    - apply (okt_many_cons G NonAtomic _ _ (v ++ R) R [] []); [|apply (IH (a ++ [c])); rewrite <- app_assoc; exact E].
      apply (okt_then G NonAtomic Skip _ _ ((c :: v) ++ R) _ [] []); [|apply (GO a), E]. apply skip_clear. subst w.
      destruct (content_suffix a (c :: v) R t C X) as [b [u [E' [B [S L]]]]]; [discriminate|]. rewrite E'. apply calm_clear; assumption. }
  destruct w as [|c w]; [destruct C as [C _]; contradiction C; reflexivity|]. 
  apply (seq0 _ _ _ (w ++ R) R [] []); [apply (GO []); reflexivity| |].
  - destruct w as [|d w]; [eapply rest_clear, X|]. destruct (content_suffix [c] (d :: w) R t C X) as [b [u [E [B [S L]]]]]; [discriminate|]. rewrite E. apply calm_clear; assumption.
  - destruct w as [|d w]; [apply okt_star_nil; destruct (nl_ok R t X) as [u [O _]]; apply ko_seq1; eapply ko_nott, O|].
    apply okt_opt. apply (okt_then G NonAtomic _ _ _ (w ++ R) R [] []); [apply (GO [c]); reflexivity | apply (M w [c; d]); reflexivity].
Qed.
(** up to two fields that are not read *)
Lemma fills_ok fill R t : Forall word fill -> (List.length fill <= 2)%nat -> rest R t -> 
  okt G NonAtomic (Opt (str ":" ~~ &"colon_delimited_text") ~~ Opt (str ":" ~~ &"colon_delimited_text")) (listed fill ++ R) R (map ctree fill).
Proof.
  intros F L X. assert (CR := rest_clear R t X). assert (NO := no_colon R t &"colon_delimited_text" X). assert (AR := rest_after at_colon R t X).
  destruct F as [|w l W F]; [apply (seq0 _ _ _ R R [] []); [apply okt_opt_no, NO | exact CR | apply okt_opt_no, NO]|].
  destruct F as [|w' l W' F].
  - unfold listed. cbn [map List.concat]. rewrite app_nil_r, <- app_assoc. apply (seq0 _ _ _ R R [_] []); [|exact CR | apply okt_opt_no, NO].
    apply okt_opt, colon_then; [apply clear_word; assumption | apply ct_ok; assumption].
  - destruct l; [|cbn in L; lia]. unfold listed. cbn [map List.concat]. rewrite app_nil_r, <- !app_assoc. assert (CC : forall r, clear (s2t ":" ++ r)) by (intros r; cc).
    apply (seq0 _ _ _ (s2t ":" ++ w' ++ R) R [_] [_]); [|apply CC|]; apply okt_opt, colon_then.
    + apply clear_word; [exact W | apply CC].
    + apply ct_ok; [exact W | apply colon_after].
    + apply clear_word; assumption.
    + apply ct_ok; assumption.
Qed.
Lemma listed_after l R t : rest R t -> after at_colon (listed l ++ R).
Proof. intros X. destruct l as [|w l]; [eapply rest_after, X|]. unfold listed. cbn [map List.concat]. rewrite <- !app_assoc. apply colon_after. Qed.
(** a label of a symbol *)
Definition point_tree (x y : text) : tree := T "point" (x ++ s2t ":" ++ y) [dtree x; dtree y].
Definition label_tree (w x y : text) : tree := T "mapsymbollabel" (w ++ s2t ":" ++ x ++ s2t ":" ++ y) [ctree w; point_tree x y].
Lemma label_ok w x y R t : word w -> numeral x -> numeral y -> rest R t -> okt G NonAtomic &"mapsymbollabel" ((w ++ s2t ":" ++ x ++ s2t ":" ++ y) ++ R) R [label_tree w x y].
Proof.
  intros W NX NY X. assert (CC : forall r, clear (s2t ":" ++ r)) by (intros r; cc). eapply normal_ok; [reflexivity | reflexivity|]. rewrite <- !app_assoc.
  apply (seq0 _ _ _ (s2t ":" ++ x ++ s2t ":" ++ y ++ R) R [_] [point_tree x y]); [apply ct_ok; [exact W | apply colon_after] | apply CC|].
  apply colon_then; [apply numeral_clear, NX|]. replace (x ++ s2t ":" ++ y ++ R) with ((x ++ s2t ":" ++ y) ++ R) by (rewrite <- !app_assoc; reflexivity).
  eapply normal_ok; [reflexivity | reflexivity|]. rewrite <- !app_assoc.
  apply (seq0 _ _ _ (s2t ":" ++ y ++ R) R [_] [dtree y]); [apply dec_ok; [exact NX | apply colon_comma, colon_after] | apply CC|].
  apply colon_then; [apply numeral_clear, NY | apply dec_ok; [exact NY | eapply rest_after, X]].
Qed.
Lemma listed_label w x y R : listed [w; x; y] ++ R = s2t ":" ++ (w ++ s2t ":" ++ x ++ s2t ":" ++ y) ++ R.
Proof. unfold listed, colon. cbn [map List.concat]. rewrite app_nil_r, <- !app_assoc. reflexivity. Qed.
Lemma no_align t e : stops (fun c => c =? 47)%N t -> okt G NonAtomic (Opt (str "/" ~~ e)) t t [].
Proof. intros S. apply okt_opt_no, ko_seq1, (ko_chr G NonAtomic 47), S. Qed.
Section upper.
  Variable upper : text -> text.
  Lemma setting_ok s r R t : reads_map_setting upper s r -> ~ is_segments s -> rest R t ->
    exists q, okt G NonAtomic SETTING (setting_text s ++ R) R [q] /\ parse_map_rule upper q = Ret (Some r).
  Proof.
    intros H NS X. assert (CR := rest_clear R t X). assert (AR := rest_after at_colon R t X). assert (AC := rest_after at_comma R t X). assert (CC : forall r, clear (s2t ":" ++ r)) by (intros v; cc).
    assert (KEY : forall n kw w q, forallb (fun '(m, hs) => String.eqb m n || clashes kw hs) heads && existsb (fun '(m, _) => String.eqb m n) heads = true ->
      okt G NonAtomic (Call n) ((s2t kw ++ w) ++ R) R [q] -> okt G NonAtomic SETTING ((s2t kw ++ w) ++ R) R [q]).
    { intros n kw w q C O. rewrite <- app_assoc in *. eapply keyed_ok; eassumption. }
    destruct s as [w|w fill|o|c|c|n|name p label|[[sg n]|]|n|w width|p q l|p w| | | | |n|p]; destruct r; try contradiction; cbn [reads_map_setting setting_text] in *.
    - destruct H as [W ->]. eexists. split; [apply (KEY "folder" "FOLDER:"); [reflexivity|]; eapply (one_field "folder" "FOLDER:"); [reflexivity | reflexivity | apply clear_word; assumption | apply ct_ok; assumption | exact X]|]. reflexivity.
    - destruct H as [W [F [L ->]]]. eexists. split; [apply (KEY "colour" "COLOR:"); [reflexivity|]; eapply (one_field "colour" "COLOR:"); [reflexivity | reflexivity | | | exact X]|].
      + rewrite <- app_assoc. apply clear_word; [exact W | apply colon_clear, (listed_after _ _ t), X].
      + rewrite <- app_assoc. apply (seq0 _ _ _ (listed fill ++ R) R [ctree w] (map ctree fill)); [apply ct_ok; [exact W | eapply listed_after, X] | apply colon_clear, (listed_after _ _ t), X | eapply fills_ok; eassumption].
      + reflexivity.
    - destruct H as [C ->]. eexists. split; [apply (KEY "asrdata" "ASRDATA:"); [reflexivity|]; eapply (one_field "asrdata" "ASRDATA:"); [reflexivity | reflexivity | apply choice_clear; assumption | apply choice_ok; assumption | exact X]|].
      match goal with |- _ = Ret (Some (RAsrData ?o)) => transitivity (do l <- parse_names (choice_tree o); Ret (Some (RAsrData l))); [reflexivity | rewrite choice_value; reflexivity] end.
    - destruct (condition_ok _ _ _ _ H X) as [C [q [O V]]]. eexists. split; [apply (KEY "active" "ACTIVE:"); [reflexivity|]; eapply (one_field "active" "ACTIVE:"); [reflexivity | reflexivity | exact C | exact O | exact X]|].
      match goal with |- _ = Ret (Some (RActive ?a)) => transitivity (do a <- parse_active (T "active" (s2t "ACTIVE:" ++ condition_text c) [q]); Ret (Some (RActive a))); [reflexivity | rewrite V; reflexivity] end.
    - destruct (condition_ok _ _ _ _ H X) as [C [q [O V]]]. eexists. split; [apply (KEY "andactive" "AND_ACTIVE:"); [reflexivity|]; eapply (one_field "andactive" "AND_ACTIVE:"); [reflexivity | reflexivity | exact C | exact O | exact X]|].
      match goal with |- _ = Ret (Some (RAndActive ?a)) => transitivity (do a <- parse_active (T "andactive" (s2t "AND_ACTIVE:" ++ condition_text c) [q]); Ret (Some (RAndActive a))); [reflexivity | rewrite V; reflexivity] end.
    - destruct H as [W V]. eexists. split; [apply (KEY "layer" "LAYER:"); [reflexivity|]; eapply (one_field "layer" "LAYER:"); [reflexivity | reflexivity | apply numeral_clear, whole_numeral, W | apply int_ok; assumption | exact X]|].
      transitivity (do x <- unwrap (parse_f32 n); Ret (Some (RLayer x))); [reflexivity | rewrite V; reflexivity].
    - destruct H as [W [EN [SP [EA EL]]]].
      assert (LA : after at_colon (match label with Some (w, x, y) => listed [w; x; y] | None => [] end ++ R)).
      { destruct label as [[[w x] y]|]; [apply (listed_after _ _ t), X | exact AR]. }
      set (ls := match label with Some (w, x, y) => [label_tree w x y] | None => [] end).
      exists (T "mapsymbol" (s2t "SYMBOL:" ++ name ++ s2t ":" ++ spot_text p ++ match label with Some (w, x, y) => listed [w; x; y] | None => [] end) ([ctree name] ++ [spot_tree p] ++ ls)). split.
      + apply (KEY "mapsymbol" "SYMBOL:"); [reflexivity|]. eapply normal_ok; [reflexivity | reflexivity|]. rewrite <- !app_assoc.
        change (s2t "SYMBOL:" ++ ?y) with (s2t "SYMBOL" ++ s2t ":" ++ y).
        apply (seq0 _ _ _ (s2t ":" ++ name ++ s2t ":" ++ spot_text p ++ match label with Some (w, x, y) => listed [w; x; y] | None => [] end ++ R) R [] ([ctree name] ++ [spot_tree p] ++ ls)); [apply okt_str | apply CC|].
        eapply (seq0 _ _ _ _ R [] ([ctree name] ++ [spot_tree p] ++ ls)); [apply no_align; reflexivity | apply CC|].
        apply colon_then; [apply clear_word; [exact W | apply CC]|].
        eapply (seq0 _ _ _ _ R [ctree name] ([spot_tree p] ++ ls)); [apply ct_ok; [exact W | apply colon_after] | apply CC|].
        apply colon_then; [eapply spot_clear; [exact SP | apply colon_clear, LA]|].
        eapply (seq0 _ _ _ _ R [spot_tree p] ls); [eapply spot_ok; [exact SP | exact LA] | apply colon_clear, LA|].
        destruct label as [[[w x] y]|]; [|apply okt_opt_no; eapply no_colon, X].
        destruct (ms_label s) as [[c [vx vy]]|]; [|contradiction]. destruct EL as [WL [_ [NX [NY _]]]]. rewrite listed_label. apply okt_opt, colon_then.
        * rewrite <- !app_assoc. apply clear_word; [exact WL | apply CC].
        * eapply label_ok; eassumption.
      + transitivity (do location <- parse_location (spot_tree p); do label <- match ls with [] => Ret None | label_pair :: _ =>
          do (p, label_pairs) <- next (kids_of label_pair); let content := text_of p in do (p, _) <- next label_pairs; do pos <- parse_point p; Ret (Some (content, pos)) end;
          Ret (Some (RSymbol (mkMapSymbol name location label None)))).
        { match goal with |- parse_map_rule upper ?q = _ => transitivity (do s <- parse_map_symbol q; Ret (Some (RSymbol s))); [reflexivity|] end.
          clearbody ls. unfold parse_map_symbol. cbn [kids_of app next obind]. change (is_rule (ctree name) "textalign_config") with false. cbn iota. cbn [obind next text_of ctree].
          destruct (parse_location (spot_tree p)); [|reflexivity|reflexivity]. cbn [obind]. destruct ls as [|lp ls]; [reflexivity|]. cbn [obind]. destruct (next (kids_of lp)) as [[pb pl]| |]; [|reflexivity|reflexivity].
          cbn [obind]. destruct (next pl) as [[pd pl2]| |]; [|reflexivity|reflexivity]. cbn [obind]. destruct (parse_point pd); reflexivity. }
        rewrite (spot_value _ _ SP). cbn [obind]. destruct s as [nm lc lb al]. cbn in *. subst nm al.
        destruct label as [[[w x] y]|]; destruct lb as [[c [vx vy]]|]; try contradiction; subst ls; [|reflexivity]. destruct EL as [_ [-> [_ [_ [VX VY]]]]].
        cbn [label_tree kids_of next obind text_of ctree]. replace (parse_point (point_tree x y)) with (Ret (vx, vy)); [reflexivity|].
        symmetry. transitivity (do a <- unwrap (parse_f64 x); do b <- unwrap (parse_f64 y); Ret (a, b)); [reflexivity | rewrite VX, VY; reflexivity].
    - { destruct H as [NN [x [V I]]]. assert (SG : clear (sg ++ s2t ":" ++ n ++ R) /\ okt G NonAtomic &"font_symbol" (sg ++ s2t ":" ++ n ++ R) (s2t ":" ++ n ++ R) [T "font_symbol" sg []]).
        { cbn [In] in I. split; [repeat (destruct I as [I|I]; [injection I as <- <-; cc|]); contradiction|]. eapply normal_ok; [reflexivity | reflexivity|].
          repeat (destruct I as [I|I]; [injection I as <- <-; repeat first [apply okt_alt1, okt_str | apply okt_str | apply okt_alt2; [apply ko_str; intros v; discriminate|]]|]). contradiction. }
        destruct SG as [SC SO]. eexists. split; [apply (KEY "fontsize" "FONTSIZE:"); [reflexivity|]; eapply (one_field "fontsize" "FONTSIZE:"); [reflexivity | reflexivity | | | exact X]|].
        * rewrite <- !app_assoc. exact SC.
        * rewrite <- !app_assoc. apply okt_alt1. eapply (seq0 _ _ _ _ R [_] [dtree n]); [exact SO | apply CC|]. apply colon_then; [apply numeral_clear, NN | apply dec_ok; assumption].
        * cbn [In] in I. match goal with |- parse_map_rule upper ?q = _ => transitivity (do f <- parse_font_size q; Ret (Some (RFontSize f))); [reflexivity|] end.
          unfold parse_font_size. cbn [kids_of app next obind]. change (is_rule (T "font_symbol" sg []) "fontsize_default") with false. cbn iota. cbn [text_of dtree]. rewrite V. cbn [unwrap obind].
          repeat (destruct I as [I|I]; [injection I as <- <-; reflexivity|]). contradiction. }
    - subst. exists (T "fontsize" (s2t "FONTSIZE:0") [T "fontsize_default" (s2t "0") []]). split; [|reflexivity]. apply (KEY "fontsize" "FONTSIZE:" (s2t "0")); [reflexivity|].
        eapply (one_field "fontsize" "FONTSIZE:" _ (s2t "0")); [reflexivity | reflexivity | cc | | exact X]. apply okt_alt2; [|eapply normal_ok; [reflexivity | reflexivity | apply okt_str]].
        apply ko_seq1. eapply ko_call; [reflexivity|]. repeat apply ko_alt; apply ko_str; intros v; discriminate.
    - destruct H as [W V]. eexists. split; [apply (KEY "zoom" "ZOOM:"); [reflexivity|]; eapply (one_field "zoom" "ZOOM:"); [reflexivity | reflexivity | apply numeral_clear, W | apply dec_ok; assumption | exact X]|].
      transitivity (do x <- unwrap (parse_f32 n); Ret (Some (RZoom x))); [reflexivity | rewrite V; reflexivity].
    - destruct H as [W [EU EW]]. destruct width as [n|].
      + destruct EW as [WN V]. eexists. split; [apply (KEY "style" "STYLE:"); [reflexivity|]; eapply (one_field "style" "STYLE:"); [reflexivity | reflexivity | | | exact X]|].
        * rewrite <- !app_assoc. apply clear_word; [exact W | apply CC].
        * rewrite <- !app_assoc. eapply (seq0 _ _ _ _ R [_] [itree n]); [apply ct_ok; [exact W | apply colon_after] | apply CC|]. apply okt_opt, colon_then; [apply numeral_clear, whole_numeral, WN | apply int_ok; assumption].
        * match goal with |- _ = Ret (Some (RLineStyle ?l)) => transitivity (Ret (Some (RLineStyle (mkLineStyle (match parse_i32 n with Some w => w | None => 1%Z end) (upper w))))); [reflexivity|]; destruct l as [wd st]; cbn in *; rewrite V, EU; reflexivity end.
      + eexists. split; [apply (KEY "style" "STYLE:"); [reflexivity|]; eapply (one_field "style" "STYLE:"); [reflexivity | reflexivity | | | exact X]|].
        * rewrite app_nil_r. apply clear_word; assumption.
        * rewrite app_nil_r. eapply (seq0 _ _ _ R R [_] []); [apply ct_ok; assumption | exact CR | apply okt_opt_no; eapply no_colon, X].
        * match goal with |- _ = Ret (Some (RLineStyle ?l)) => destruct l as [wd st]; cbn in EU, EW; subst; reflexivity end.
    - contradiction NS; exact I.
    - destruct H as [SP [C [EC EA]]]. eexists. split; [apply (KEY "text" "TEXT:"); [reflexivity|]; eapply (normal_ok "text" _ _ R ([spot_tree p] ++ [T "text_content" w []])); [reflexivity | reflexivity|]|].
      + rewrite <- !app_assoc. change (s2t "TEXT:" ++ ?y) with (s2t "TEXT" ++ s2t ":" ++ y).
        eapply (seq0 _ _ _ _ R [] ([spot_tree p] ++ [T "text_content" w []])); [apply okt_str | apply CC|].
        eapply (seq0 _ _ _ _ R [] ([spot_tree p] ++ [T "text_content" w []])); [apply no_align; reflexivity | apply CC|].
        apply colon_then; [eapply spot_clear; [exact SP | apply CC]|].
        eapply (seq0 _ _ _ _ R [spot_tree p] [T "text_content" w []]); [eapply spot_ok; [exact SP | apply colon_after] | apply CC|].
        apply colon_then; [eapply content_clear; eassumption | eapply content_ok; eassumption].
      + transitivity (do location <- parse_location (spot_tree p); Ret (Some (RText (mkMapText location w None)))).
        { match goal with |- parse_map_rule upper ?q = _ => transitivity (do s <- parse_map_text q; Ret (Some (RText s))); [reflexivity|] end.
          unfold parse_map_text. cbn [kids_of app next obind]. replace (is_rule (spot_tree p) "textalign_config") with false by (destruct p; reflexivity). cbn iota. cbn [obind next].
          destruct (parse_location (spot_tree p)); reflexivity. }
        rewrite (spot_value _ _ SP). match goal with |- _ = Ret (Some (RText ?l)) => destruct l; cbn in *; subst; reflexivity end.
    - eexists. split; [apply (keyed_ok "global"); [reflexivity|]; eapply normal_ok; [reflexivity | reflexivity | apply okt_str] | reflexivity].
    - eexists. split; [apply (keyed_ok "screen_specific"); [reflexivity|]; eapply normal_ok; [reflexivity | reflexivity | apply okt_str] | reflexivity].
    - eexists. split; [apply (keyed_ok "hidden"); [reflexivity|]; eapply normal_ok; [reflexivity | reflexivity | apply okt_str] | reflexivity].
    - eexists. split; [apply (keyed_ok "coordline"); [reflexivity|]; eapply normal_ok; [reflexivity | reflexivity | apply okt_str] | reflexivity].
    - destruct H as [W ->]. eexists. split; [apply (KEY "coordpoly" "COORDPOLY:"); [reflexivity|]; eapply (one_field "coordpoly" "COORDPOLY:"); [reflexivity | reflexivity | apply numeral_clear, whole_numeral, W | apply int_ok; assumption | exact X]|]. reflexivity.
    - eexists. split; [apply (KEY "coord" "COORD:"); [reflexivity|]; eapply (one_field "coord" "COORD:"); [reflexivity | reflexivity | eapply spot_clear; eassumption | eapply spot_ok; eassumption | exact X]|].
      transitivity (do l <- parse_location (spot_tree p); Ret (Some (RCoord l))); [reflexivity | rewrite (spot_value _ _ H); reflexivity].
  Qed.
End upper.

(** *** Lines *)
Local Notation LINE := (str "LINE:" ~~ (&"maplinecoordinates" // &"maplinewpts") ~~ Opt &"NL").
Definition seg_tree (s : place * place) : tree :=
  T (if fixed (fst s) then "maplinewpts" else "maplinecoordinates") (spot_text (fst s) ++ s2t ":" ++ spot_text (snd s)) [spot_tree (fst s); spot_tree (snd s)].
Lemma seg_value s v : reads_segment s v -> parse_segment (seg_tree s) = Ret v.
Proof.
  intros [_ [A B]]. unfold parse_segment, seg_tree. cbn [kids_of next obind]. rewrite (spot_value _ _ A). cbn [obind next]. rewrite (spot_value _ _ B). destruct v; reflexivity.
Qed.
Lemma seg_ok s v R t : reads_segment s v -> rest R t -> exists u, okt G NonAtomic LINE (segment_text s ++ R) u [seg_tree s] /\ FileForward.skipped G u t.
Proof.
  destruct s as [p q]. intros [F [A B]] X. cbn [fst snd] in *. destruct (nl_ok R t X) as [u [O SU]]. exists u. split; [|exact SU].
  assert (CC : forall r, clear (s2t ":" ++ r)) by (intros r; cc). assert (CR := rest_clear R t X). assert (AR := rest_after at_colon R t X).
  unfold segment_text. cbn [fst snd]. rewrite <- !app_assoc.
  eapply (seq0 _ _ _ _ u [] [_]); [apply okt_str | eapply spot_clear; [exact A | apply CC]|].
  apply (seq0 _ _ _ R u [seg_tree (p, q)] []); [|exact CR | apply okt_opt, O].
  unfold seg_tree. cbn [fst snd]. replace (spot_text p ++ s2t ":" ++ spot_text q ++ R) with ((spot_text p ++ s2t ":" ++ spot_text q) ++ R) by (rewrite <- !app_assoc; reflexivity).
  destruct (fixed p) eqn:FP.
  - destruct p as [y x|y x|w]; try discriminate FP. destruct q as [y x|y x|w']; try discriminate F. destruct (fst v) as [[? ?]|d]; [contradiction|]. destruct (snd v) as [[? ?]|d']; [contradiction|].
    destruct A as [W [U _]], B as [W' [U' _]]. cbn [spot_text spot_tree]. apply okt_alt2.
    + eapply ko_call; [reflexivity|]. apply ko_seq1. rewrite <- !app_assoc. apply fix_ko; [exact U | apply colon_after].
    + eapply normal_ok; [reflexivity | reflexivity|]. rewrite <- !app_assoc.
      eapply (seq0 _ _ _ _ R [_] [ctree w']); [apply ct_ok; [exact W | apply colon_after] | apply CC|]. apply colon_then; [apply clear_word; assumption | apply ct_ok; assumption].
  - apply okt_alt1. eapply normal_ok; [reflexivity | reflexivity|]. rewrite <- !app_assoc.
    eapply (seq0 _ _ _ _ R [_] [spot_tree q]); [eapply coordinate_ok; [exact FP | exact A | apply colon_comma, colon_after] | apply CC|].
    apply colon_then; [eapply spot_clear; eassumption | eapply coordinate_ok; [congruence | exact B | eapply rest_after, X]].
Qed.

(** *** Rows *)
(** a line starts with a word *)
Definition starts (x : bool * text) : Prop := exists c v, snd x = c :: v /\ is_blank c = false /\ is_nl c = false /\ c <> 59%N /\ c <> 47%N.
Lemma starts_kw i kw w : match s2t kw with c :: _ => negb (is_blank c || is_nl c || (c =? 59)%N || (c =? 47)%N) | [] => false end = true -> starts (i, s2t kw ++ w).
Proof.
  destruct (s2t kw) as [|c v]; [discriminate|]. intros H. exists c, (v ++ w). split; [reflexivity|]. apply negb_true_iff in H. rewrite !orb_false_iff in H. destruct H as [[[A B] C] D].
  split; [exact A|]. split; [exact B|]. lia.
Qed.
Lemma starts_calm l r : (exists c v, l = c :: v /\ is_blank c = false /\ is_nl c = false /\ c <> 59%N /\ c <> 47%N) -> calm (l ++ r) /\ stops is_nl (l ++ r).
Proof. intros [c [v [-> [A [B [C D]]]]]]. split; [apply calm_char; assumption | exact B]. Qed.
Lemma rows_solid ls t : Forall starts ls -> rows ls t -> solid t.
Proof.
  intros F H. destruct H as [|i l ls b b' nl k t B _ B' E V H]; [exists [], []; split; [reflexivity|]; split; [constructor|]; split; [exact calm_nil | exact I]|].
  inversion_clear F as [|? ? S _]. exists b, (l ++ b' ++ nl ++ k ++ t). split; [reflexivity|]. split; [exact B | apply starts_calm, S].
Qed.
Lemma rows_first i l ls t : Forall starts ls -> rows ((i, l) :: ls) t -> exists b R t', t = b ++ l ++ R /\ blanks b /\ (b = [] \/ i = true) /\ rest R t' /\ rows ls t'.
Proof.
  intros F H. inversion H as [|? ? ? b b' nl k t' B BI B' E V H']; subst. exists b, (b' ++ nl ++ k ++ t'), t'. split; [reflexivity|]. split; [exact B|]. split; [exact BI|]. split; [|exact H'].
  exists b', nl, k. split; [reflexivity|]. split; [exact B'|]. split; [exact E|]. split; [exact V | eapply rows_solid; eassumption].
Qed.
Definition no_line (t : text) : Prop := forall v, t <> s2t "LINE:" ++ v.
Lemma segs_run l ss : Forall2 reads_segment l ss -> forall L t, Forall starts L -> rows (map (pair false) (map segment_text l) ++ L) t -> (forall t', rows L t' -> no_line t') ->
  exists t', rows L t' /\ run G LINE t t' (map seg_tree l).
Proof.
  intros F. induction F as [|s v l ss S F IH]; intros L t SL H N.
  - exists t. split; [exact H|]. apply run_nil, ko_seq1, ko_str. apply N, H.
  - cbn [map app] in H. apply rows_first in H.
    + destruct H as [b [R [t1 [-> [_ [[->|X] [RT H]]]]]]]; [|discriminate X]. destruct (IH L t1 SL H N) as [t' [H' Q]]. exists t'. split; [exact H'|].
      destruct (seg_ok s v R t1 S RT) as [u [O SU]]. cbn [map]. apply (run_cons G LINE _ u t1 t' [seg_tree s] (map seg_tree l)); assumption.
    + apply Forall_app. split; [|exact SL]. rewrite map_map. apply Forall_map, Forall_forall. intros x _. apply (starts_kw false "LINE:"). reflexivity.
Qed.
Lemma setting_starts s : Forall starts (setting_lines s).
Proof.
  unfold setting_lines. constructor.
  - destruct s as [w|w fill|o|c|c|n|name p label|[[sg n]|]|n|w width|p q l|p w| | | | |n|p]; cbn [setting_text]; unfold segment_text;
      first [apply starts_kw; reflexivity | eexists _, _; split; [reflexivity|]; split; [reflexivity|]; split; [reflexivity|]; split; discriminate].
  - destruct s; cbn [more_lines map]; try apply Forall_nil. rewrite map_map. apply Forall_map, Forall_forall. intros x _. apply (starts_kw false "LINE:"). reflexivity.
Qed.
Lemma segs_value l ss : Forall2 reads_segment l ss -> omap parse_segment (map seg_tree l) = Ret ss.
Proof. intros F. induction F as [|s v l ss S F IH]; [reflexivity|]. cbn [map omap]. rewrite (seg_value s v S). cbn [obind]. rewrite IH. reflexivity. Qed.
Section upper2.
  Variable upper : text -> text.
  Lemma line_setting p q l r b R t L t0 : reads_map_setting upper (Segments p q l) r -> blanks b -> rest R t -> rows (map (pair false) (map segment_text l) ++ L) t -> Forall starts L ->
    (forall t', rows L t' -> no_line t') -> t0 = b ++ segment_text (p, q) ++ R ->
    exists v t' x, okt G NonAtomic &"map_setting" t0 v [x] /\ FileForward.skipped G v t' /\ rows L t' /\ parse_map_rule upper x = Ret (Some r).
  Proof.
    intros H B X RW SL N ->. destruct r; try contradiction. destruct H as [ss [F ->]]. inversion F as [|? v0 ? ss0 S F' E1 E2]; subst.
    destruct (segs_run l ss0 F' L t SL RW N) as [t' [H' Q]]. destruct (seg_ok (p, q) v0 R t S X) as [u [O SU]].
    assert (SO : solid t') by (eapply rows_solid; eassumption).
    destruct (run_plus G LINE _ u t t' [seg_tree (p, q)] (map seg_tree l) O SU Q (skip_clear t' (solid_clear t' SO))) as [v [OP SV]].
    destruct (okt_normal G "mapline" _ eq_refl eq_refl _ _ _ OP) as [c [EC OM]].
    exists t', t', (T "mapline" c (map seg_tree ((p, q) :: l))). split; [|split; [apply skip_clear, solid_clear, SO | split; [exact H'|]]].
    - eapply okt_silent; [exact setting_is | reflexivity|].
      assert (CA : calm (segment_text (p, q) ++ R)) by (apply calm_char; (reflexivity || discriminate)).
      eapply (seq0 _ _ _ _ t' [] [_]); [apply star_nonatomic; [exact B | exact CA] | apply (calm_clear []); [constructor | exact CA]|].
      apply (okt_seq G _ _ _ v t' t' [_] []); [|exact SV | apply okt_opt_no, nl_ko, SO].
      unfold segment_text in *. rewrite <- app_assoc in *. apply (keyed_ok "mapline" "LINE:"); [reflexivity | exact OM].
    - transitivity (do segs <- omap parse_segment (map seg_tree ((p, q) :: l)); Ret (Some (RLine (merge_lines segs)))).
      { match goal with |- parse_map_rule upper ?y = _ => transitivity (do l <- parse_map_lines y; Ret (Some (RLine l))); [reflexivity|] end.
        unfold parse_map_lines. cbn [kids_of]. destruct (omap parse_segment (map seg_tree ((p, q) :: l))); reflexivity. }
      rewrite (segs_value _ _ F). reflexivity.
  Qed.
  Lemma segments_dec s : is_segments s \/ ~ is_segments s.
  Proof. destruct s; cbn [is_segments]; tauto. Qed.
  Lemma one_setting s r L t : reads_map_setting upper s r -> Forall starts L -> rows (setting_lines s ++ L) t -> (is_segments s -> forall t', rows L t' -> no_line t') ->
    exists v t' x, okt G NonAtomic &"map_setting" t v [x] /\ FileForward.skipped G v t' /\ rows L t' /\ parse_map_rule upper x = Ret (Some r).
  Proof.
    intros H SL RW N. pose proof (setting_starts s) as SS. unfold setting_lines in RW, SS. inversion SS as [|? ? S1 S2 E]; subst. cbn [app] in RW.
    apply rows_first in RW; [|apply Forall_app; split; assumption]. destruct RW as [b [R [t1 [-> [B [_ [X RW]]]]]]].
    destruct (segments_dec s) as [G1|G1].
    - destruct s; try contradiction. eapply (line_setting p q l r b R t1 L); try eassumption; [apply N, G1 | reflexivity].
    - destruct (setting_ok upper s r R t1 H G1 X) as [x [O V]]. destruct (nl_ok R t1 X) as [v [ON SV]]. exists v, t1, x.
      split; [|split; [exact SV | split; [|exact V]]].
      + eapply okt_silent; [exact setting_is | reflexivity|]. destruct (starts_calm _ R S1) as [CA _].
        eapply (seq0 _ _ _ _ v [] [_]); [apply star_nonatomic; [exact B | exact CA] | apply (calm_clear []); [constructor | exact CA]|].
        apply (seq0 _ _ _ R v [_] []); [exact O | eapply rest_clear, X | apply okt_opt, ON].
      + destruct s; try exact RW; cbn in G1; contradiction G1; exact I.
  Qed.
End upper2.
