(** TopSky settings files that are written line by line are read (C84). *)
From Coq Require Import ZifyBool ZifyN ZifyNat.
From Verif Require Import Base Num Colours Peg Grammars SpecPeg PegProofs PegLang PegForward PegSkip Trees
  SpecText TextProofs SpecFields FileForward Maps TopskyParse SpecSettingsText.
Local Open Scope string_scope.
Local Open Scope list_scope.
Notation G := topsky_settings_grammar.
Notation okt := (okt G).
Notation skips := (FileForward.skipped G).

(** ** What is skipped *)
Lemma ws_one a : one G a (Call "WHITESPACE") is_blank.
Proof. apply (one_call G a "WHITESPACE" KSilent SPTAB is_blank eq_refl); [apply one_sptab | exact I]. Qed.
Lemma newline_at u : (exists c v, u = c ++ v /\ c <> [] /\ forall a, okt a NEWLINE u v []) \/ stops is_nl u.
Proof.
  destruct u as [|c v]; [right; exact I|]. destruct (is_nl c) eqn:C; [left | right; exact C].
  unfold is_nl in C. apply orb_prop in C. destruct C as [C|C]; apply N.eqb_eq in C; subst c.
  - exists [10%N], v. repeat split; [discriminate|]. intros a. apply (okt_ok G a NEWLINE [10%N]), ok_newline_lf.
  - destruct v as [|d v]; [exists [13%N], []; repeat split; [discriminate|]; intros a; apply (okt_ok G a NEWLINE [13%N]), ok_newline_cr; discriminate|].
    destruct (N.eq_dec d 10) as [->|N].
    + exists [13; 10]%N, v. repeat split; [discriminate|]. intros a. apply (okt_ok G a NEWLINE [13; 10]%N), ok_newline_crlf.
    + exists [13%N], (d :: v). repeat split; [discriminate|]. intros a. apply (okt_ok G a NEWLINE [13%N]), ok_newline_cr. intros r' Q. injection Q as -> _. contradiction N. reflexivity.
Qed.
Lemma nl_ko a t : stops is_nl t -> ko G a &"NL" t.
Proof. intros S. apply (ko_call G a "NL" KSilent (Plus NEWLINE) t eq_refl). apply ko_seq1, ko_newline, S. Qed.
Lemma many_nl m : forall u, (Datatypes.length u <= m)%nat -> exists v, okt Atomic (Many (Then Skip NEWLINE)) u v [].
Proof.
  assert (E : forall u, stops is_nl u -> okt Atomic (Many (Then Skip NEWLINE)) u u []).
  { intros u S. apply okt_many_nil. apply (ko_then2 G Atomic Skip _ [] u []); [apply ok_skip_atomic; discriminate | apply ko_newline, S]. }
  induction m as [|m IH]; intros u LE.
  - destruct u; [|cbn in LE; lia]. exists []. apply E. exact I.
  - destruct (newline_at u) as [[c [v [Q [NE O]]]]|K]; [|exists u; apply E, K].
    destruct (IH v) as [w W]. { subst u. rewrite app_length in LE. destruct c; [congruence|]. cbn in LE. lia. }
    exists w. apply (okt_many_cons G Atomic _ u v w [] []); [|exact W]. apply (okt_then G Atomic Skip _ u u v [] []); [|apply O].
    exists []. split; [reflexivity | apply ok_skip_atomic; discriminate].
Qed.
Lemma nl_seen u : ~ stops is_nl u -> exists v, okt Atomic &"NL" u v [].
Proof.
  intros S. destruct (newline_at u) as [[c [v [Q [NE O]]]]|K]; [|contradiction]. destruct (newline_at v) as [[c2 [v2 [Q2 [NE2 O2]]]]|K].
  - destruct (many_nl _ v2 (le_n _)) as [w M]. exists w. apply (okt_silent G Atomic "NL" (Plus NEWLINE)); [reflexivity | reflexivity|].
    apply (okt_seq_at G Atomic _ _ _ v w [] []); [discriminate | apply O|]. apply okt_opt. apply (okt_then G Atomic _ _ _ v2 w [] []); [apply O2 | exact M].
  - exists v. apply (okt_silent G Atomic "NL" (Plus NEWLINE)); [reflexivity | reflexivity|].
    apply (okt_seq_at G Atomic _ _ _ v v [] []); [discriminate | apply O | apply okt_star_nil, ko_newline, K].
Qed.
Lemma remark_one : one G Atomic (until &"NL") (fun c => negb (is_nl c)).
Proof.
  split.
  - intros c r E. apply negb_true_iff in E. apply (ok_seq_at G Atomic (Not _) ANY [] [c] r [] []); [discriminate | apply ok_not, nl_ko; exact E | apply ok_sat; reflexivity].
  - intros r E. destruct r as [|c r].
    + apply (ko_seq2_at G Atomic (Not _) ANY [] [] []); [discriminate | apply ok_not, nl_ko; exact I | apply ko_sat; exact I].
    + cbn [stops] in E. apply negb_false_iff in E. apply ko_seq1. destruct (nl_seen (c :: r)) as [v O]; [cbn; congruence|]. eapply ko_nott, O.
Qed.
(** the start of something that is not skipped *)
Definition calm (r : text) : Prop := stops is_blank r /\ (forall y, r <> s2t ";" ++ y) /\ (forall y, r <> s2t "//" ++ y).
Definition ended (r : text) : Prop := stops (fun x => negb (is_nl x)) r.
Lemma comment_ko a r : calm r -> ko G a (Call "COMMENT") r.
Proof. intros [_ [A B]]. eapply ko_call; [reflexivity|]. apply ko_seq1, ko_alt; apply ko_str; assumption. Qed.
Lemma ended_calm r : ended r -> calm r.
Proof.
  intros S. destruct r as [|x r]; [split; [exact I | split; discriminate]|]. cbn in S. apply negb_false_iff in S. unfold is_nl in S.
  split; [cbn; unfold is_blank; lia|]. split; intros y E; injection E as -> _; discriminate S.
Qed.
Lemma both : defined G "WHITESPACE" /\ defined G "COMMENT".
Proof. split; unfold defined; eapply get_Some_key; reflexivity. Qed.
Lemma skip_blanks b r : blanks b -> calm r -> skips (b ++ r) r.
Proof.
  intros B C. apply okt_ok. intros i k. eapply m_skip; [apply skipped_both; apply both|]. rewrite <- (app_nil_r b).
  apply (ok_then G NonAtomic (Many (Call "WHITESPACE")) _ b [] r [] []).
  - apply (ok_many_one G NonAtomic _ is_blank b r (ws_one NonAtomic) B). apply C.
  - apply ok_many_nil, ko_then1, comment_ko, C.
Qed.
Lemma skip_calm r : calm r -> skips r r.
Proof. apply (skip_blanks []). constructor. Qed.
Lemma skip_idle v r : idle is_blank marks v -> ended r -> skips (v ++ r) r.
Proof.
  intros [B|[b [h [c [-> [B [H C]]]]]]] S; [apply skip_blanks; [exact B | apply ended_calm, S]|].
  pose proof (ended_calm r S) as K. apply okt_ok. intros i k. eapply m_skip; [apply skipped_both; apply both|].
  apply (ok_then G NonAtomic (Many (Call "WHITESPACE")) _ b (h ++ c) r [] []).
  - apply (ok_many_one G NonAtomic _ is_blank b _ (ws_one NonAtomic) B). destruct H as [<-|[<-|[]]]; reflexivity.
  - rewrite <- (app_nil_r (h ++ c)). apply (ok_many_cons G NonAtomic _ (h ++ c) [] r [] []); [|apply ok_many_nil, ko_then1, comment_ko, K].
    rewrite <- (app_nil_r (h ++ c)). apply (ok_then G NonAtomic _ _ (h ++ c) [] r [] []).
    + eapply ok_eq; [eapply ok_call; [reflexivity|]|reflexivity|reflexivity]. change (body_atom "COMMENT" KSilent NonAtomic) with Atomic.
      apply (ok_seq_at G Atomic _ _ h c r [] []); [discriminate| |].
      * destruct H as [<-|[<-|[]]]; [apply ok_alt1, ok_str|]. apply ok_alt2; [apply ko_str; discriminate | apply ok_str].
      * eapply ok_star_one; [discriminate | apply remark_one | | exact S]. eapply Forall_impl; [|exact C]. intros x [X Y]. unfold is_nl. lia.
    + apply (ok_many_one G NonAtomic _ is_blank _ _ (ws_one NonAtomic)); [constructor | apply K].
Qed.
Lemma eol_ended nl r : eol nl -> ended (nl ++ r).
Proof. intros [-> | ->]; reflexivity. Qed.
(** line ends, with idle lines after them *)
Lemma idles_run k b t : idles is_blank marks k -> skips (b ++ t) t -> stops is_nl t -> exists u, skips (k ++ b ++ t) u /\ run G NEWLINE u t [].
Proof.
  intros K B S. induction K as [|v nl k V E K [u [SU R]]]; [exists t; split; [exact B | apply run_nil, ko_newline, S]|].
  exists (nl ++ k ++ b ++ t). split; [rewrite <- !app_assoc; apply skip_idle; [exact V | apply eol_ended, E]|].
  apply (run_cons G NEWLINE _ (k ++ b ++ t) u t [] []); [apply newline_ok, E | exact SU | exact R].
Qed.
Lemma nl_ok nl k b t : eol nl -> idles is_blank marks k -> skips (b ++ t) t -> skips t t -> stops is_nl t ->
  exists v, okt NonAtomic &"NL" (nl ++ k ++ b ++ t) v [] /\ skips v t.
Proof.
  intros E K B T S. destruct (idles_run k b t K B S) as [u [SU R]].
  destruct (run_plus G NEWLINE _ (k ++ b ++ t) u t [] [] (newline_ok G NonAtomic nl _ E) SU R T) as [v [O SV]].
  exists v. split; [|exact SV]. apply (okt_silent G NonAtomic "NL" (Plus NEWLINE)); [reflexivity | reflexivity | exact O].
Qed.

(** ** Settings *)
(** after the content of a line, and after what is skipped there *)
Definition after (R N : text) : Prop := skips R N /\ (forall c v, R = c :: v -> is_blank c = true \/ is_nl c = true) /\
  ended N /\ (N = [] \/ exists v, okt NonAtomic &"NL" N v []).
Lemma after_skip R N : after R N -> skips N N.
Proof. intros [_ [_ [E _]]]. apply skip_calm, ended_calm, E. Qed.
Lemma after_stops R N f : after R N -> (forall c, f c = true -> is_blank c = false /\ is_nl c = false) -> stops f R.
Proof.
  intros [_ [H _]] F. destruct R as [|c R]; [exact I|]. cbn. destruct (f c) eqn:E; [|reflexivity]. apply F in E. destruct (H c R eq_refl), E; congruence.
Qed.
Lemma after_length R N : after R N -> (Datatypes.length N <= Datatypes.length R)%nat.
Proof. intros [[c [-> _]] _]. rewrite app_length. lia. Qed.
Lemma seq0 x y t t' r t1 t2 : okt NonAtomic x t t' t1 -> calm t' -> okt NonAtomic y t' r t2 -> okt NonAtomic (Seq x y) t r (t1 ++ t2).
Proof. intros A C B. eapply okt_seq; [exact A | apply skip_calm, C | exact B]. Qed.
Lemma calm_char c r : is_blank c = false -> c <> 59%N -> c <> 47%N -> calm (c :: r).
Proof. intros A B C. split; [exact A|]. split; intros y E; injection E as E _; congruence. Qed.
Definition name_char (c : N) : bool := (c =? 47)%N || ((c =? 95)%N || (is_alpha c || is_digit c)).
Lemma name_chars w : named w -> Forall (fun c => name_char c = true) w.
Proof.
  intros [_ [F _]]. eapply Forall_impl; [|exact F]. intros c [A|[<-|[<-|[]]]]; [|reflexivity | reflexivity]. unfold name_char. unfold is_alnum in A. rewrite A. rewrite !orb_true_r. reflexivity.
Qed.
Lemma name_ok w r : named w -> stops name_char r -> okt NonAtomic &"name" (w ++ r) r [T "name" w []].
Proof.
  intros W S. eapply (tok_plus G NonAtomic "name"); [discriminate | reflexivity | | apply W | apply name_chars, W | exact S].
  apply one_alt; [apply (one_chr G Atomic 47)|]. apply one_alt; [apply (one_chr G Atomic 95)|]. apply one_alt; apply one_sat.
Qed.
Lemma name_calm w r : named w -> stops (fun c => c =? 47)%N r -> calm (w ++ r).
Proof.
  intros W S. pose proof (name_chars w W) as F. destruct W as [N [_ C]]. destruct w as [|c w]; [congruence|]. inversion F as [|? ? FC _]; subst.
  split; [cbn; unfold name_char, is_alpha, is_upper, is_lower, is_digit in FC; unfold is_blank; lia|]. split; [intros y E; injection E as -> _; discriminate FC|].
  intros y E. destruct w as [|d w].
  - cbn [app] in E. injection E as -> ->. discriminate S.
  - injection E as -> -> _. apply (C w). reflexivity.
Qed.
Lemma number_ok w r : digits w -> stops is_digit r -> okt NonAtomic &"number" (w ++ r) r [T "number" w []].
Proof. intros [N F] S. eapply (tok_plus G NonAtomic "number"); [discriminate | reflexivity | apply one_sat | exact N | exact F | exact S]. Qed.
Lemma digits_calm w r : digits w -> calm (w ++ r).
Proof.
  intros [N F]. destruct w as [|c w]; [congruence|]. inversion F as [|? ? D _]; subst. unfold is_digit in D.
  apply calm_char; [unfold is_blank; lia | lia | lia].
Qed.
Lemma value_suffix a v R N : value (a ++ v) -> after R N -> v <> [] -> exists b u, v ++ R = b ++ u /\ blanks b /\ calm u /\ stops is_nl u /\ u <> [].
Proof.
  intros [IL [[_ T] [NS NC]]] X NE.
  assert (S : exists b u, v = b ++ u /\ blanks b /\ stops is_blank u).
  { clear. induction v as [|c v [b [u [-> [B S]]]]]; [exists [], []; split; [reflexivity | split; [constructor | exact I]]|].
    destruct (is_blank c) eqn:C; [exists (c :: b), u; split; [reflexivity | split; [constructor; assumption | exact S]] | exists [], (c :: b ++ u); split; [reflexivity | split; [constructor | exact C]]]. }
  destruct S as [b [u [-> [B S]]]]. exists b, (u ++ R). rewrite <- app_assoc. split; [reflexivity|]. split; [exact B|].
  destruct u as [|c u].
  - exfalso. rewrite app_nil_r in *. destruct (exists_last NE) as [b' [c ->]]. apply Forall_app in B. destruct B as [_ B]. inversion B as [|? ? C _]; subst.
    rewrite app_assoc in T. specialize (T _ c eq_refl). congruence.
  - apply Forall_app in NS, IL. destruct NS as [_ NS], IL as [_ IL]. apply Forall_app in NS, IL. destruct NS as [_ NS], IL as [_ IL]. inversion NS as [|? ? C _]; subst. inversion IL as [|? ? D _]; subst.
    split; [|split; [cbn [app stops]; unfold is_nl; destruct D; lia | discriminate]]. split; [exact S|]. split; [intros y E; injection E as E _; contradiction|].
    intros y E. destruct u as [|d u].
    + injection E as -> E. cbn [app] in E. pose proof (after_stops R N (fun c => c =? 47)%N X ltac:(unfold is_blank, is_nl; lia)) as ST. rewrite E in ST. discriminate ST.
    + injection E as -> -> E. apply (NC (a ++ b) u). rewrite <- app_assoc. reflexivity.
Qed.
Notation stop := (&"NL" // EOI).
Lemma stop_ko b t : blanks b -> stops is_nl t -> t <> [] -> ko G NonAtomic stop (b ++ t).
Proof.
  intros B S N. assert (H : exists c v, b ++ t = c :: v /\ is_nl c = false).
  { destruct b as [|c b]; [destruct t as [|c t]; [congruence|]; exists c, t; auto|]. inversion B as [|? ? C _]; subst. exists c, (b ++ t). split; [reflexivity|]. unfold is_blank in C. unfold is_nl. lia. }
  destruct H as [c [v [-> C]]]. apply ko_alt; [apply nl_ko, C|]. intros i k. apply m_eoi_not.
Qed.
Lemma stop_at R N : after R N -> ko G NonAtomic (until stop) N.
Proof.
  intros [_ [_ [_ [-> | [v O]]]]]; apply ko_seq1.
  - eapply ko_nott. apply okt_alt2; [apply nl_ko; exact I|]. apply (okt_ok G NonAtomic EOI [] []), ok_eoi. discriminate.
  - eapply ko_nott, okt_alt1, O.
Qed.
(** a value that is not empty; an empty one is read where the line ends *)
Lemma value_ok w R N : value w -> after R N -> w <> [] -> okt NonAtomic &"setting_value" (w ++ R) R [T "setting_value" w []].
Proof.
  intros C X NE.
  assert (GO : forall a b c v, w = a ++ b ++ c :: v -> blanks b -> is_blank c = false -> okt NonAtomic (Then Skip (until stop)) ((b ++ c :: v) ++ R) (v ++ R) [] /\ calm ((c :: v) ++ R)).
  { intros a b c v E B CB. destruct (value_suffix (a ++ b) (c :: v) R N) as [b' [u [E' [B' [S [L NU]]]]]]; [rewrite <- app_assoc, <- E; exact C | exact X | discriminate|].
    assert (b' = []) as ->. { destruct b' as [|d b']; [reflexivity|]. inversion B' as [|? ? D _]; subst. injection E' as -> _. congruence. }
    cbn [app] in E'. change (c :: v ++ R) with ((c :: v) ++ R) in E'. split; [|rewrite E'; exact S]. rewrite <- app_assoc.
    apply (okt_then G NonAtomic Skip _ _ ((c :: v) ++ R) _ [] []); [apply skip_blanks; [exact B | rewrite E'; exact S]|].
    apply (seq0 (Not stop) ANY _ ((c :: v) ++ R) (v ++ R) [] []); [apply okt_not; rewrite E'; apply (stop_ko [] u); [constructor | exact L | exact NU] | rewrite E'; exact S | apply (okt_ok G NonAtomic ANY [c]), ok_sat; reflexivity]. }
  assert (SPL : forall v : text, exists b u, v = b ++ u /\ blanks b /\ stops is_blank u).
  { clear. induction v as [|c v [b [u [-> [B S]]]]]; [exists [], []; split; [reflexivity | split; [constructor | exact I]]|].
    destruct (is_blank c) eqn:C; [exists (c :: b), u; split; [reflexivity | split; [constructor; assumption | exact S]] | exists [], (c :: b ++ u); split; [reflexivity | split; [constructor | exact C]]]. }
  assert (LAST : forall a b, w = a ++ b -> blanks b -> b = []).
  { intros a b -> B. destruct b as [|d b] using rev_ind; [reflexivity|]. apply Forall_app in B. destruct B as [_ B]. inversion B as [|? ? D _]; subst.
    destruct C as [_ [[_ T] _]]. rewrite app_assoc in T. specialize (T _ d eq_refl). congruence. }
  assert (M : forall m v a, (Datatypes.length v <= m)%nat -> w = a ++ v -> okt NonAtomic (Many (Then Skip (until stop))) (v ++ R) R []).
  { induction m as [|m IH]; intros v a LE E.
    - destruct v; [|cbn in LE; lia]. apply okt_many_nil. eapply ko_then2t; [apply X | apply (stop_at R N X)].
    - destruct (SPL v) as [b [u [-> [B S]]]]. destruct u as [|c u].
      + rewrite app_nil_r in *. rewrite (LAST a b E B). apply okt_many_nil. eapply ko_then2t; [apply X | apply (stop_at R N X)].
      + destruct (GO a b c u E B S) as [O _]. apply (okt_many_cons G NonAtomic _ _ (u ++ R) R [] []); [exact O|].
        apply (IH u (a ++ b ++ [c])); [rewrite app_length in LE; cbn in LE; lia | rewrite <- !app_assoc; exact E]. }
  destruct w as [|c w]; [congruence|]. assert (CB : is_blank c = false) by (destruct C as [_ [[T _] _]]; exact (T c w eq_refl)).
  destruct (GO [] [] c w eq_refl (Forall_nil _) CB) as [O K]. cbn [app] in O. destruct O as [d [ED MD]].
  assert (U : okt NonAtomic (until stop) ((c :: w) ++ R) (w ++ R) []).
  { destruct (value_suffix [] (c :: w) R N C X ltac:(discriminate)) as [b' [u [E' [B' [S [L NU]]]]]].
    apply (seq0 (Not stop) ANY _ ((c :: w) ++ R) (w ++ R) [] []); [apply okt_not; rewrite E'; apply stop_ko; assumption | exact K | apply (okt_ok G NonAtomic ANY [c]), ok_sat; reflexivity]. }
  destruct (okt_normal G "setting_value" _ eq_refl eq_refl ((c :: w) ++ R) R []) as [e [EE OE]].
  { apply okt_opt. apply (okt_then G NonAtomic _ _ _ (w ++ R) R [] []); [exact U | apply (M _ w [c] (le_n _)); reflexivity]. }
  apply app_inv_tail in EE. subst e. exact OE.
Qed.
Lemma empty_ok R N : after R N -> okt NonAtomic &"setting_value" N N [T "setting_value" [] []].
Proof.
  intros X. destruct (okt_normal G "setting_value" _ eq_refl eq_refl N N []) as [e [EE OE]]; [apply okt_star_nil, (stop_at R N X)|].
  destruct e; [exact OE|]. apply (f_equal (@Datatypes.length BinNums.N)) in EE. rewrite app_length in EE. cbn in EE. lia.
Qed.
Definition setting_said (e : entry) : option setting :=
  match e with
  | Coloured _ _ _ _ => match colour_said e with Some (_, c) => Some (SetColour c) | None => None end
  | Uncoloured _ => None
  | Valued n v => Some (SetOther n v)
  end.
Definition says (e : entry) (tr : tree) : Prop := parse_setting tr = Ret (setting_said e).
Lemma seq_str s y t r ts : okt NonAtomic y t r ts -> calm t -> okt NonAtomic (Str s ~~ y) (s ++ t) r ts.
Proof. intros O C. apply (seq0 _ _ _ t r [] ts); [apply okt_str | exact C | exact O]. Qed.
Lemma setting_ok e R N : well_written e -> after R N -> exists v tr, okt NonAtomic &"setting" (entry_text e ++ R) v [tr] /\ skips v N /\
  (Datatypes.length v <= Datatypes.length R)%nat /\ says e tr.
Proof.
  intros W X. destruct e as [n r g b|n|n v]; cbn [well_written entry_text] in *.
  - destruct W as [WN [WR [WG WB]]].
    assert (DS : forall y, stops is_digit (s2t "," ++ y)) by reflexivity.
    destruct (okt_normal G "colour_setting_rgb" _ eq_refl eq_refl (r ++ s2t "," ++ g ++ s2t "," ++ b ++ R) R ([T "number" r []] ++ [T "number" g []] ++ [T "number" b []])) as [c1 [_ O1]].
    { apply (seq0 _ _ _ (s2t "," ++ g ++ s2t "," ++ b ++ R)); [apply number_ok; [exact WR | apply DS] | apply calm_char; [reflexivity | discriminate | discriminate]|].
      apply seq_str; [|apply digits_calm, WG].
      apply (seq0 _ _ _ (s2t "," ++ b ++ R)); [apply number_ok; [exact WG | apply DS] | apply calm_char; [reflexivity | discriminate | discriminate]|].
      apply seq_str; [|apply digits_calm, WB].
      apply number_ok; [exact WB|]. apply (after_stops R N _ X). intros c. unfold is_digit, is_blank, is_nl. lia. }
    destruct (okt_normal G "colour_setting" _ eq_refl eq_refl (s2t "Color_" ++ n ++ s2t "=" ++ r ++ s2t "," ++ g ++ s2t "," ++ b ++ R) R
      ([T "name" n []] ++ [T "colour_setting_rgb" c1 ([T "number" r []] ++ [T "number" g []] ++ [T "number" b []])])) as [c2 [_ O2]].
    { apply seq_str; [|apply name_calm; [exact WN | reflexivity]].
      apply (seq0 _ _ _ (s2t "=" ++ r ++ s2t "," ++ g ++ s2t "," ++ b ++ R)); [apply name_ok; [exact WN | reflexivity] | apply calm_char; [reflexivity | discriminate | discriminate]|].
      apply okt_opt. apply seq_str; [exact O1 | apply digits_calm, WR]. }
    eexists R, _. split; [|split; [apply X|split; [apply le_n|]]].
    + rewrite <- !app_assoc. apply (okt_silent G NonAtomic "setting" _ _ _ _ eq_refl eq_refl). apply okt_alt1, O2.
    + unfold says, parse_setting. cbn [is_rule app kids_of next obind text_of rule_of String.eqb Ascii.eqb Bool.eqb].
      change (is_rule (T "colour_setting" c2 [T "name" n []; T "colour_setting_rgb" c1 [T "number" r []; T "number" g []; T "number" b []]]) "colour_setting") with true. cbv iota.
      unfold setting_colour. cbn [kids_of next obind text_of]. cbn [setting_said colour_said].
      destruct (parse_u8 r); [|reflexivity]. cbn [next obind text_of]. destruct (parse_u8 g); [|reflexivity]. cbn [next obind text_of]. destruct (parse_u8 b); reflexivity.
  - destruct (okt_normal G "colour_setting" _ eq_refl eq_refl (s2t "Color_" ++ n ++ R) N ([T "name" n []] ++ [])) as [c2 [_ O2]].
    { apply seq_str; [|apply name_calm; [exact W | apply (after_stops R N _ X); intros c; unfold is_blank, is_nl; lia]].
      eapply okt_seq; [apply name_ok; [exact W|]; apply (after_stops R N _ X); intros c; unfold name_char, is_alpha, is_upper, is_lower, is_digit, is_blank, is_nl; lia | apply X|].
      apply okt_opt_no, ko_seq1. apply (ko_chr G NonAtomic 61). destruct X as [_ [_ [E _]]]. destruct N as [|c N]; [exact I|]. cbn in *. unfold is_nl in E. lia. }
    eexists N, _. split; [|split; [apply (after_skip R N X)|split; [apply (after_length R N X)|]]].
    + rewrite <- !app_assoc. apply (okt_silent G NonAtomic "setting" _ _ _ _ eq_refl eq_refl). apply okt_alt1, O2.
    + reflexivity.
  - destruct W as [WN [WC WV]].
    assert (K : forall y, ko G NonAtomic &"colour_setting" (n ++ s2t "=" ++ y)).
    { intros y. eapply ko_call; [reflexivity|]. apply ko_seq1, ko_str. intros r' E. apply app_eq_app in E. destruct E as [l [[E1 _]|[E1 E2]]]; [exact (WC l E1)|].
      destruct l as [|c l]; [rewrite app_nil_r in E1; apply (WC []); rewrite app_nil_r; symmetry; exact E1|].
      injection E2 as <- _. assert (I : In 61%N (s2t "Color_")) by (rewrite E1; apply in_or_app; right; left; reflexivity).
      vm_compute in I. repeat (destruct I as [I|I]; [discriminate I|]). exact I. }
    assert (O : exists u, okt NonAtomic (Then Skip &"setting_value") (v ++ R) u [T "setting_value" v []] /\ skips u N /\ (Datatypes.length u <= Datatypes.length R)%nat).
    { destruct v as [|c v].
      - exists N. split; [|split; [apply (after_skip R N X) | apply (after_length R N X)]]. eapply okt_eq; [eapply okt_then; [apply X | apply (empty_ok R N X)]|reflexivity].
      - exists R. split; [|split; [apply X | apply le_n]]. apply (okt_then G NonAtomic _ _ _ ((c :: v) ++ R) R [] [T "setting_value" (c :: v) []]); [|apply (value_ok (c :: v) R N WV X); discriminate].
        destruct (value_suffix [] (c :: v) R N WV X ltac:(discriminate)) as [b' [u [E' [B' [S [L NU]]]]]].
        assert (b' = []) as ->. { destruct b' as [|d b']; [reflexivity|]. inversion B' as [|? ? D _]; subst. injection E' as -> _. destruct WV as [_ [[T _] _]]. specialize (T d v eq_refl). congruence. }
        rewrite E'. apply skip_calm, S. }
    destruct O as [u [O [SU LU]]].
    destruct (okt_normal G "other_setting" _ eq_refl eq_refl (n ++ s2t "=" ++ v ++ R) u ([T "name" n []] ++ [] ++ [T "setting_value" v []])) as [c2 [_ O2]].
    { apply (seq0 _ _ _ (s2t "=" ++ v ++ R)); [apply name_ok; [exact WN | reflexivity] | apply calm_char; [reflexivity | discriminate | discriminate]|].
      eapply okt_then; [apply okt_str | exact O]. }
    eexists u, _. split; [|split; [exact SU|split; [exact LU|]]].
    + rewrite <- !app_assoc. apply (okt_silent G NonAtomic "setting" _ _ _ _ eq_refl eq_refl). apply okt_alt2; [apply K | exact O2].
    + reflexivity.
Qed.

(** ** Repetitions whose parts come after line ends: at the start of the text the grammar does not ask for one *)
Section Reps.
  Variable P : bool -> Prop.
  Hypothesis PF : P false.
  Definition okq (e : expr) (t r : text) (ts : list tree) : Prop := exists c, t = c ++ r /\ forall b k, P b -> matches G NonAtomic e b t k (Some (c, r, k, ts)).
  Definition koq (e : expr) (t : text) : Prop := forall b k, P b -> matches G NonAtomic e b t k None.
  Lemma q_okt e t r ts : okt NonAtomic e t r ts -> okq e t r ts.
  Proof. intros [c [-> H]]. exists c. split; [reflexivity|]. intros b k _. apply H. Qed.
  Lemma q_flag (b : bool) (c : text) : P b -> exists b', (b' = true <-> b = true /\ c = []) /\ P b'.
  Proof.
    intros H. destruct c as [|x c]; [exists b; split; [tauto | exact H]|]. exists false. split; [|exact PF]. split; [discriminate | intros [_ E]; discriminate E].
  Qed.
  Lemma okq_then x y t u r t1 t2 : okq x t u t1 -> okq y u r t2 -> okq (Then x y) t r (t1 ++ t2).
  Proof.
    intros [c1 [-> H1]] [c2 [-> H2]]. exists (c1 ++ c2). split; [apply app_assoc|]. intros b k H. destruct (q_flag b c1 H) as [b' [E H']].
    eapply m_then; [apply H1, H | exact E | apply H2, H'].
  Qed.
  Lemma koq_then2 x y t u t1 : okq x t u t1 -> koq y u -> koq (Then x y) t.
  Proof.
    intros [c1 [-> H1]] H2 b k H. destruct (q_flag b c1 H) as [b' [E H']]. eapply m_then_not2; [apply H1, H | exact E | apply H2, H'].
  Qed.
  Lemma okq_many_nil e t : koq e t -> okq (Many e) t t [].
  Proof. intros K. exists []. split; [reflexivity|]. intros b k H. apply m_many_stop, K, H. Qed.
  Lemma okq_many_cons e t u r t1 t2 : okq e t u t1 -> okq (Many e) u r t2 -> okq (Many e) t r (t1 ++ t2).
  Proof.
    intros [c1 [-> H1]] [c2 [-> H2]]. exists (c1 ++ c2). split; [apply app_assoc|]. intros b k H. destruct (q_flag b c1 H) as [b' [E H']].
    eapply m_many_go; [apply H1, H | exact E | apply H2, H'].
  Qed.
  Variables D X : expr.
  Hypothesis D_ok : forall t r, okt NonAtomic &"NL" t r [] -> okq D t r [].
  Hypothesis D_ko : forall t, stops is_nl t -> koq D t.
  Definition stopped (N : text) : Prop := stops is_nl N \/ exists v t, okt NonAtomic &"NL" N v [] /\ skips v t /\ ko G NonAtomic X t.
  Inductive seqr : text -> text -> text -> text -> list tree -> Prop :=
  | seqr_nil R N : skips R N -> skips N N -> stopped N -> seqr R N R N []
  | seqr_cons R N v t R1 N1 R2 N2 t1 t2 : skips R N -> okt NonAtomic &"NL" N v [] -> skips v t -> okt NonAtomic X t R1 t1 -> seqr R1 N1 R2 N2 t2 -> seqr R N R2 N2 (t1 ++ t2).
  Lemma seqr_end R N R' N' ts : seqr R N R' N' ts -> skips R' N'.
  Proof. induction 1; assumption. Qed.
  Lemma part_ok N v t R1 ts : okt NonAtomic &"NL" N v [] -> skips v t -> okt NonAtomic X t R1 ts -> okq (D ~~ X) N R1 ts.
  Proof. intros O S H. apply (okq_then D _ N v R1 [] ts); [apply D_ok, O|]. apply (okq_then Skip X v t R1 [] ts); apply q_okt; assumption. Qed.
  Lemma part_ko N : stopped N -> koq (D ~~ X) N.
  Proof.
    intros [S|[v [t [O [S K]]]]].
    - intros b k H. apply m_then_not1, D_ko; assumption.
    - eapply koq_then2; [apply D_ok, O|]. eapply koq_then2; [apply q_okt, S|]. intros b k _. apply K.
  Qed.
  Lemma seqr_many R N R' N' ts : seqr R N R' N' ts -> okq (Many (Then Skip (D ~~ X))) R R' ts.
  Proof.
    induction 1 as [R N S S' K|R N v t R1 N1 R2 N2 t1 t2 S O S' H Q IH].
    - apply okq_many_nil. eapply koq_then2; [apply q_okt, S | apply part_ko, K].
    - apply (okq_many_cons _ R R1 R2 t1 t2); [|exact IH]. apply (okq_then Skip _ R N R1 [] t1); [apply q_okt, S | eapply part_ok; eassumption].
  Qed.
  Lemma seqr_star R N R' N' ts : seqr R N R' N' ts -> exists R2, okq (Star (D ~~ X)) N R2 ts /\ skips R2 N'.
  Proof.
    intros [R0 N0 S S' K|R0 N0 v t R1 N1 R2 N2 t1 t2 S O S' H Q].
    - exists N0. split; [|exact S']. exists []. split; [reflexivity|]. intros b k H. apply m_opt_not, m_then_not1, part_ko; assumption.
    - exists R2. split; [|eapply seqr_end, Q]. destruct (okq_then (D ~~ X) (Many (Then Skip (D ~~ X))) N0 R1 R2 t1 t2) as [c [E M]]; [eapply part_ok; eassumption | eapply seqr_many, Q|].
      exists c. split; [exact E|]. intros b k HP. apply m_opt, M, HP.
  Qed.
End Reps.
(** inside the text, and anywhere *)
Definition inner (b : bool) : Prop := b = false.
Definition any (b : bool) : Prop := True.
Notation DS := (SOI // &"NL").
Lemma ds_ok t r : okt NonAtomic &"NL" t r [] -> okq inner DS t r [].
Proof. intros [c [-> H]]. exists c. split; [reflexivity|]. intros b k ->. apply m_alt2; [apply m_soi_not | apply H]. Qed.
Lemma ds_ko t : stops is_nl t -> koq inner DS t.
Proof. intros S b k ->. apply m_alt2; [apply m_soi_not | apply nl_ko, S]. Qed.
Lemma nlq_ok t r : okt NonAtomic &"NL" t r [] -> okq any &"NL" t r [].
Proof. apply q_okt. Qed.
Lemma nlq_ko t : stops is_nl t -> koq any &"NL" t.
Proof. intros S b k _. apply nl_ko, S. Qed.

(** ** Lines *)
Definition solid (l : text) : Prop := forall y, calm (l ++ y) /\ stops is_nl (l ++ y).
Fixpoint lines_at (ls : list text) (N : text) : Prop :=
  match ls with
  | [] => N = [] \/ exists v, okt NonAtomic &"NL" N v [] /\ skips v []
  | l :: ls => exists v R N', okt NonAtomic &"NL" N v [] /\ skips v (l ++ R) /\ after R N' /\ lines_at ls N'
  end.
Lemma trailing_after b N : trailing b -> ended N -> (N = [] \/ exists v, okt NonAtomic &"NL" N v []) -> after (b ++ N) N.
Proof.
  intros [I H] E O. split; [apply skip_idle; assumption|]. split; [|split; assumption].
  intros c v Q. destruct b as [|d b].
  - right. cbn [app] in Q. subst N. cbn in E. apply negb_false_iff in E. exact E.
  - left. injection Q as -> _. exact (H c b eq_refl).
Qed.
Lemma follows_after ls R : Forall solid ls -> follows ls R -> exists N, after R N /\ lines_at ls N.
Proof.
  intros F H. induction H as [b T|b nl k b' T E K B|b nl k b' l ls t T E K B H IH].
  - exists []. rewrite <- (app_nil_r b). split; [apply trailing_after; [exact T | exact I | auto] | left; reflexivity].
  - destruct (nl_ok nl k b' [] E K) as [v [O S]]; [apply skip_idle; [exact B | exact I] | apply skip_calm, ended_calm; exact I | exact I|].
    rewrite app_nil_r in O. exists (nl ++ k ++ b'). split; [apply trailing_after; [exact T | apply eol_ended, E | eauto] | right; eauto].
  - inversion F as [|? ? SL F']; subst. destruct (IH F') as [N' [A L]]. destruct (SL t) as [SC SN].
    destruct (nl_ok nl k b' (l ++ t) E K) as [v [O S]]; [apply skip_blanks; assumption | apply skip_calm, SC | exact SN|].
    exists (nl ++ k ++ b' ++ l ++ t). split; [apply trailing_after; [exact T | apply eol_ended, E | eauto]|]. cbn [lines_at]. exists v, t, N'. auto.
Qed.
Lemma setting_ko t : stops name_char t -> ko G NonAtomic &"setting" t.
Proof.
  intros S. apply (ko_call G NonAtomic "setting" KSilent _ t eq_refl). apply ko_alt.
  - eapply ko_call; [reflexivity|]. apply ko_seq1, ko_str. intros r' ->. discriminate S.
  - eapply ko_call; [reflexivity|]. apply ko_seq1. eapply ko_tok; [reflexivity|]. eapply ko_plus_one; [|exact S].
    apply one_alt; [apply (one_chr G Atomic 47)|]. apply one_alt; [apply (one_chr G Atomic 95)|]. apply one_alt; apply one_sat.
Qed.
Lemma section_ko t : stops (fun c => (c =? 91) || (c =? 123))%N t -> ko G NonAtomic &"section" t.
Proof.
  intros S. apply (ko_call G NonAtomic "section" KNormal _ t eq_refl). apply ko_seq1, ko_alt; apply ko_seq1, ko_str; intros r' ->; discriminate S.
Qed.
Definition headed (ls : list text) : Prop := match ls with [] => True | l :: _ => forall y, stops name_char (l ++ y) end.
Lemma entries_seq es : forall ls R N, Forall well_written es -> headed ls -> skips R N -> skips N N -> lines_at (map entry_text es ++ ls) N ->
  exists R' N' trs, seqr &"setting" R N R' N' trs /\ Forall2 says es trs /\ lines_at ls N' /\ skips N' N'.
Proof.
  induction es as [|e es IH]; intros ls R N W HD S S' L.
  - exists R, N, []. split; [|split; [constructor | split; assumption]]. apply seqr_nil; [exact S | exact S'|]. destruct ls as [|l ls].
    + destruct L as [-> | [v [O SV]]]; [left; exact I | right; exists v, []; split; [exact O | split; [exact SV | apply setting_ko; exact I]]].
    + destruct L as [v [R0 [N0 [O [SV _]]]]]. right. exists v, (l ++ R0). split; [exact O | split; [exact SV | apply setting_ko, HD]].
  - inversion W as [|? ? WE W']; subst. cbn [map app lines_at] in L. destruct L as [v [R0 [N0 [O [SV [A L]]]]]].
    destruct (setting_ok e R0 N0 WE A) as [u [tr [OS [SU [_ SY]]]]].
    destruct (IH ls u N0 W' HD SU (after_skip _ _ A) L) as [R' [N' [trs [Q [FS [LE SE]]]]]].
    exists R', N', ([tr] ++ trs). split; [|split; [constructor; assumption | split; assumption]]. eapply seqr_cons; eassumption.
Qed.
Lemma sections_headed ss : headed (flat_map section_lines ss).
Proof. destruct ss as [|[q n l] ss]; [exact I|]. cbn. destruct q; reflexivity. Qed.
Lemma brackets_ok (q : bool) n y : named n -> okt NonAtomic ((str "[" ~~ &"name" ~~ str "]") // (str "{" ~~ &"name" ~~ str "}"))
  ((if q then s2t "[" ++ n ++ s2t "]" else s2t "{" ++ n ++ s2t "}") ++ y) y [T "name" n []].
Proof.
  intros W. destruct q.
  - apply okt_alt1. rewrite <- !app_assoc. apply seq_str; [|apply name_calm; [exact W | reflexivity]].
    apply (seq0 _ _ _ (s2t "]" ++ y) y [T "name" n []] []); [apply name_ok; [exact W | reflexivity] | apply calm_char; [reflexivity | discriminate | discriminate] | apply okt_str].
  - apply okt_alt2; [apply ko_seq1, ko_str; discriminate|]. rewrite <- !app_assoc. apply seq_str; [|apply name_calm; [exact W | reflexivity]].
    apply (seq0 _ _ _ (s2t "}" ++ y) y [T "name" n []] []); [apply name_ok; [exact W | reflexivity] | apply calm_char; [reflexivity | discriminate | discriminate] | apply okt_str].
Qed.
Definition silent_tree (tr : tree) : Prop := parse_setting tr = Ret None.
Lemma section_ok (q : bool) n l ls R N : named n -> Forall well_written l -> headed ls -> after R N -> lines_at (map entry_text l ++ ls) N ->
  exists v N' tr, okt NonAtomic &"section" ((if q then s2t "[" ++ n ++ s2t "]" else s2t "{" ++ n ++ s2t "}") ++ R) v [tr] /\ skips v N' /\ skips N' N' /\ lines_at ls N' /\
    (Datatypes.length v <= Datatypes.length R)%nat /\ silent_tree tr.
Proof.
  intros WN W HD A L. pose proof (after_skip _ _ A) as SN. destruct (entries_seq l ls R N W HD (proj1 A) SN L) as [R' [N' [trs [Q [_ [L' S']]]]]].
  destruct (seqr_star any I &"NL" &"setting" nlq_ok nlq_ko R N R' N' trs Q) as [R2 [[c [E M]] SR]].
  assert (O : okt NonAtomic (Star (&"NL" ~~ &"setting")) N R2 trs). { exists c. split; [exact E|]. intros b k. rewrite <- E. apply M. exact I. }
  destruct (okt_normal G "section" _ eq_refl eq_refl ((if q then s2t "[" ++ n ++ s2t "]" else s2t "{" ++ n ++ s2t "}") ++ R) R2 ([T "name" n []] ++ trs)) as [c2 [_ O2]].
  { eapply okt_seq; [apply brackets_ok, WN | apply A | exact O]. }
  exists R2, N', (T "section" c2 ([T "name" n []] ++ trs)). split; [exact O2|]. split; [exact SR|]. split; [exact S'|]. split; [exact L'|].
  split; [|reflexivity]. pose proof (after_length _ _ A). subst N. rewrite app_length in *. lia.
Qed.
Lemma sections_seq ss : forall R N, Forall section_written ss -> skips R N -> skips N N -> lines_at (flat_map section_lines ss) N ->
  exists R' N' trs, seqr &"section" R N R' N' trs /\ Forall silent_tree trs /\ lines_at [] N' /\ skips N' N'.
Proof.
  induction ss as [|[q n l] ss IH]; intros R N W S S' L.
  - exists R, N, []. split; [|split; [constructor | split; assumption]]. apply seqr_nil; [exact S | exact S'|].
    destruct L as [-> | [v [O SV]]]; [left; exact I | right; exists v, []; split; [exact O | split; [exact SV | apply section_ko; exact I]]].
  - inversion W as [|? ? WW W']; subst. cbn [section_written] in WW. destruct WW as [WN WL]. cbn [flat_map section_lines app lines_at] in L. destruct L as [v [R0 [N0 [O [SV [A L]]]]]].
    destruct (section_ok q n l _ R0 N0 WN WL (sections_headed ss) A L) as [u [N1 [tr [OS [SU [S1 [L1 [_ SY]]]]]]]].
    destruct (IH u N1 W' SU S1 L1) as [R' [N' [trs [Q [FS [LE SE]]]]]].
    exists R', N', ([tr] ++ trs). split; [|split; [constructor; assumption | split; assumption]]. eapply seqr_cons; eassumption.
Qed.
Lemma end_ok N : lines_at [] N -> okt NonAtomic (Opt &"NL" ~~ EOI) N [] [T "EOI" [] []].
Proof.
  assert (E : okt NonAtomic EOI [] [] [T "EOI" [] []]) by (apply (okt_ok G NonAtomic EOI [] []), ok_eoi; discriminate).
  intros [-> | [v [O S]]].
  - apply (seq0 _ _ _ [] [] [] _); [apply okt_opt_no, nl_ko; exact I | apply ended_calm; exact I | exact E].
  - eapply okt_eq; [eapply okt_seq; [apply okt_opt, O | exact S | exact E]|reflexivity].
Qed.

(** ** The file *)
Notation SETS := (Star (DS ~~ &"setting")).
Notation SECS := (Star (DS ~~ &"section")).
Definition reads_file (es : list entry) (ts : list tree) : Prop := exists a b, ts = a ++ b ++ [T "EOI" [] []] /\ Forall2 says es a /\ Forall silent_tree b.
Lemma tail_ok ss R N : Forall section_written ss -> skips R N -> skips N N -> lines_at (flat_map section_lines ss) N ->
  exists b, okq inner (Then Skip (SECS ~~ Opt &"NL" ~~ EOI)) R [] (b ++ [T "EOI" [] []]) /\ Forall silent_tree b.
Proof.
  intros W S S' L. destruct (sections_seq ss N N W S' S' L) as [R' [N' [b [Q [FS [LE SE]]]]]].
  destruct (seqr_star inner eq_refl DS &"section" ds_ok ds_ko _ _ _ _ _ Q) as [R2 [O SR]]. exists b. split; [|exact FS].
  apply (okq_then inner eq_refl Skip _ R N [] []); [apply q_okt, S|]. apply (okq_then inner eq_refl _ _ N R2 [] b); [exact O|].
  apply (okq_then inner eq_refl Skip _ R2 N' [] []); [apply q_okt, SR | apply q_okt, end_ok, LE].
Qed.
Lemma body_inner es ss N : Forall well_written es -> Forall section_written ss -> skips N N -> lines_at (settings_lines es ss) N ->
  exists ts, okq inner (SETS ~~ SECS ~~ Opt &"NL" ~~ EOI) N [] ts /\ reads_file es ts.
Proof.
  intros W WS S L. destruct (entries_seq es _ N N W (sections_headed ss) S S L) as [R' [N' [a [Q [FS [LE SE]]]]]].
  destruct (seqr_star inner eq_refl DS &"setting" ds_ok ds_ko _ _ _ _ _ Q) as [R2 [O SR]].
  destruct (tail_ok ss R2 N' WS SR SE LE) as [b [OB FB]]. exists (a ++ b ++ [T "EOI" [] []]). split; [|exists a, b; auto].
  apply (okq_then inner eq_refl _ _ N R2 [] a); assumption.
Qed.
(** the first part at the very start *)
Lemma skip_none t b k : calm t -> matches G NonAtomic Skip b t k (Some ([], t, k, [])).
Proof. intros C. destruct (skip_calm _ C) as [e [EE ME]]. assert (e = []) as -> by (apply (app_inv_tail t); symmetry; exact EE). apply ME. Qed.
Lemma first_ok X Y t v t1 R' t2 t3 : calm t -> okt NonAtomic X t v t1 -> (Datatypes.length v < Datatypes.length t)%nat ->
  okq inner (Many (Then Skip (DS ~~ X))) v R' t2 -> okq inner (Then Skip Y) R' [] t3 ->
  forall k, matches G NonAtomic (Star (DS ~~ X) ~~ Y) true t k (Some (t, [], k, t1 ++ t2 ++ t3)).
Proof.
  intros C [c [-> O]] LT [c2 [-> M]] [c3 [-> Z]] k. rewrite app_nil_r in *.
  assert (NE : c <> []) by (intros ->; cbn in LT; lia).
  assert (F : false = true <-> true = true /\ c = []) by (split; [discriminate | intros [_ E]; contradiction]).
  assert (F2 : false = true <-> true = true /\ c ++ c2 = []) by (split; [discriminate | intros [_ E]; apply app_eq_nil in E; tauto]).
  assert (P1 : matches G NonAtomic (DS ~~ X) true (c ++ c2 ++ c3) k (Some (c, c2 ++ c3, k, t1))).
  { apply (m_then G NonAtomic DS _ true true _ k [] (c ++ c2 ++ c3) k [] c (c2 ++ c3) k t1); [apply m_alt1, m_soi | tauto|].
    apply (m_then G NonAtomic Skip _ true true _ k [] (c ++ c2 ++ c3) k [] c (c2 ++ c3) k t1); [|tauto | apply O].
    apply skip_none, C. }
  pose proof (m_then G NonAtomic (DS ~~ X) (Many (Then Skip (DS ~~ X))) true false _ k c (c2 ++ c3) k t1 c2 c3 k t2 P1 F (M false k eq_refl)) as P2.
  pose proof (m_then G NonAtomic (Star (DS ~~ X)) (Then Skip Y) true false _ k (c ++ c2) c3 k (t1 ++ t2) c3 [] k t3 (m_opt G NonAtomic _ true _ k _ P2) F2 (Z false k eq_refl)) as P3.
  rewrite <- !app_assoc in P3. exact P3.
Qed.
Lemma first_none X Y t ts : calm t -> ko G NonAtomic X t -> (forall k, matches G NonAtomic Y true t k (Some (t, [], k, ts))) ->
  forall k, matches G NonAtomic (Star (DS ~~ X) ~~ Y) true t k (Some (t, [], k, ts)).
Proof.
  intros C K H k. assert (S : matches G NonAtomic Skip true t k (Some ([], t, k, []))).
  { apply skip_none, C. }
  apply (m_then G NonAtomic _ _ true true t k [] t k [] t [] k ts); [|tauto|apply (m_then G NonAtomic _ _ true true t k [] t k [] t [] k ts); [exact S | tauto | apply H]].
  apply m_opt_not, m_then_not1. apply (m_then_not2 G NonAtomic DS _ true true t k [] t k []); [apply m_alt1, m_soi | tauto|].
  apply (m_then_not2 G NonAtomic Skip _ true true t k [] t k []); [exact S | tauto | apply K].
Qed.
(** a file without lines *)
Lemma none_ko X N : lines_at [] N -> ended N -> ko G NonAtomic X [] -> ko G NonAtomic X N -> forall b k, matches G NonAtomic (DS ~~ X) b N k None.
Proof.
  intros L E K0 K b k. destruct b.
  - apply (m_then_not2 G NonAtomic DS _ true true N k [] N k []); [apply m_alt1, m_soi | tauto|].
    apply (m_then_not2 G NonAtomic Skip _ true true N k [] N k []); [apply skip_none, ended_calm, E | tauto | apply K].
  - apply (part_ko inner eq_refl DS X ds_ok ds_ko); [|reflexivity]. destruct L as [-> | [v [O S]]]; [left; exact I | right; exists v, []; auto].
Qed.
Lemma none_seq X Y N ts : ended N -> (forall b k, matches G NonAtomic (DS ~~ X) b N k None) -> okt NonAtomic Y N [] ts -> okt NonAtomic (Star (DS ~~ X) ~~ Y) N [] ts.
Proof. intros E K O. apply (seq0 _ _ _ N [] [] ts); [apply okt_opt_no, ko_then1; exact K | apply ended_calm, E | exact O]. Qed.
Lemma none_ok N : lines_at [] N -> ended N -> okt NonAtomic (SETS ~~ SECS ~~ Opt &"NL" ~~ EOI) N [] [T "EOI" [] []].
Proof.
  intros L E. assert (NC : forall f : BinNums.N -> bool, f 10%N = false -> f 13%N = false -> stops f N).
  { intros f A B. destruct N as [|c N]; [exact I|]. cbn in *. apply negb_false_iff, orb_prop in E. destruct E as [E|E]; apply N.eqb_eq in E; subst c; assumption. }
  apply none_seq; [exact E | apply none_ko; [exact L | exact E | apply setting_ko; exact I | apply setting_ko, NC; reflexivity]|].
  apply none_seq; [exact E | apply none_ko; [exact L | exact E | apply section_ko; exact I | apply section_ko, NC; reflexivity]|]. apply end_ok, L.
Qed.
Lemma idles_skip k b : idles is_blank marks k -> idle is_blank marks b -> exists N, skips (k ++ b) N /\ lines_at [] N /\ ended N.
Proof.
  intros K B. assert (SB : skips (b ++ []) []) by (apply skip_idle; [exact B | exact I]). destruct K as [|v nl k V E K].
  - exists []. rewrite app_nil_r in SB. split; [exact SB|]. split; [left; reflexivity | exact I].
  - destruct (nl_ok nl k b [] E K SB) as [w [O S]]; [apply skip_calm, ended_calm; exact I | exact I|]. rewrite app_nil_r in O.
    exists (nl ++ k ++ b). split; [rewrite <- !app_assoc; apply skip_idle; [exact V | apply eol_ended, E]|]. split; [right; eauto | apply eol_ended, E].
Qed.
Lemma solid_entry e : well_written e -> solid (entry_text e).
Proof.
  intros W y. destruct e as [n r g b|n|n v]; cbn [entry_text well_written] in *; [split; [apply calm_char; [reflexivity | discriminate | discriminate] | reflexivity]..|].
  destruct W as [WN _]. rewrite <- app_assoc. split; [apply name_calm; [exact WN | reflexivity]|]. pose proof (name_chars n WN) as F. destruct WN as [NE _]. destruct n as [|c n]; [congruence|].
  inversion F as [|? ? FC _]; subst. cbn. unfold name_char, is_alpha, is_upper, is_lower, is_digit in FC. unfold is_nl. lia.
Qed.
Lemma solid_lines es ss : Forall well_written es -> Forall section_written ss -> Forall solid (settings_lines es ss).
Proof.
  intros W WS. apply Forall_app. split; [apply Forall_map; eapply Forall_impl; [|exact W]; exact solid_entry|].
  apply Forall_flat_map. eapply Forall_impl; [|exact WS]. intros [q n l] [_ WL]. cbn [section_lines]. apply Forall_cons.
  - intros y. destruct q; (split; [apply calm_char; [reflexivity | discriminate | discriminate] | reflexivity]).
  - apply Forall_map. eapply Forall_impl; [|exact WL]. exact solid_entry.
Qed.
Lemma entry_longer e (R : text) : well_written e -> (Datatypes.length R < Datatypes.length (entry_text e ++ R))%nat.
Proof.
  intros W. rewrite app_length. destruct e as [n r g b|n|n v]; cbn [entry_text]; rewrite !app_length; cbn; try lia.
Qed.
Lemma settings_top es ss t : Forall well_written es -> Forall section_written ss -> settings_layout (settings_lines es ss) t ->
  exists ts, top G "settings" t = Ret ts /\ reads_file es ts.
Proof.
  intros W WS H. pose proof (solid_lines es ss W WS) as SO.
  assert (B : exists ts, (forall k, matches G NonAtomic (Then Skip (SETS ~~ SECS ~~ Opt &"NL" ~~ EOI)) true t k (Some (t, [], k, ts))) /\ reads_file es ts).
  { inversion H as [k b K B EL ET|l ls t0 FO EL ET|v nl k b l ls t0 V VN E K B FO EL ET].
    - assert (es = []) as -> by (destruct es; [reflexivity | discriminate EL]).
      destruct (idles_skip k b K B) as [N [S [L EN]]]. exists ([] ++ [] ++ [T "EOI" [] []]). split; [|exists [], []; auto].
      destruct (okt_then G NonAtomic Skip _ _ _ _ _ _ S (none_ok N L EN)) as [c [EC M]]. rewrite app_nil_r in EC. subst c. intros k0. specialize (M true k0). rewrite app_nil_r in M. exact M.
    - rewrite <- EL in SO. inversion SO as [|? ? SL SO']. destruct (follows_after ls t0 SO' FO) as [N [A L]]. destruct (SL t0) as [C _].
      assert (SK : forall Y ts, (forall k, matches G NonAtomic Y true (l ++ t0) k (Some (l ++ t0, [], k, ts))) -> forall k, matches G NonAtomic (Then Skip Y) true (l ++ t0) k (Some (l ++ t0, [], k, ts))).
      { intros Y ts M k. apply (m_then G NonAtomic Skip Y true true _ k [] (l ++ t0) k [] (l ++ t0) [] k ts); [|tauto | apply M].
        apply skip_none, C. }
      unfold settings_lines in EL. destruct es as [|e es].
      + cbn [map app] in EL. destruct ss as [|[q n es'] ss]; [discriminate EL|]. cbn [flat_map section_lines app] in EL. injection EL as El Els. subst l ls.
        inversion WS as [|? ? WW WS']. cbn [section_written] in WW. destruct WW as [WN WL].
        destruct (section_ok q n es' _ t0 N WN WL (sections_headed ss) A L) as [u [N1 [tr [OS [SU [S1 [L1 [LN SY]]]]]]]].
        destruct (sections_seq ss u N1 WS' SU S1 L1) as [R' [N' [trs [Q [FS [LE SE]]]]]].
        exists ([tr] ++ trs ++ [T "EOI" [] []]). split; [|exists [], ([tr] ++ trs); split; [reflexivity | split; [constructor | constructor; assumption]]].
        apply SK. apply first_none; [exact C | apply setting_ko; destruct q; reflexivity|].
        apply (first_ok &"section" _ _ u [tr] R' trs); [exact C | exact OS | | eapply seqr_many; [reflexivity | exact ds_ok | exact ds_ko | exact Q]|].
        * rewrite app_length. destruct q; cbn [app Datatypes.length s2t]; rewrite ?app_length; cbn; lia.
        * apply (okq_then inner eq_refl Skip _ R' N' [] []); [apply q_okt; eapply seqr_end, Q | apply q_okt, end_ok, LE].
      + cbn [map app] in EL. injection EL as El Els. subst l ls. inversion W as [|? ? WE W'].
        destruct (setting_ok e t0 N WE A) as [u [tr [OS [SU [LN SY]]]]].
        destruct (entries_seq es _ u N W' (sections_headed ss) SU (after_skip _ _ A) L) as [R' [N' [trs [Q [FS [LE SE]]]]]].
        destruct (tail_ok ss R' N' WS (seqr_end _ _ _ _ _ _ Q) SE LE) as [b [OB FB]].
        exists ([tr] ++ trs ++ b ++ [T "EOI" [] []]). split; [|exists ([tr] ++ trs), b; split; [reflexivity | split; [constructor; assumption | exact FB]]].
        apply SK. apply (first_ok &"setting" _ _ u [tr] R' trs); [exact C | exact OS | | eapply seqr_many; [reflexivity | exact ds_ok | exact ds_ko | exact Q] | exact OB].
        pose proof (entry_longer e t0 WE). lia.
    - rewrite <- EL in SO. inversion SO as [|? ? SL SO']. destruct (follows_after ls t0 SO' FO) as [N [A L]]. destruct (SL t0) as [C CN].
      destruct (nl_ok nl k b (l ++ t0) E K) as [w [O S]]; [apply skip_blanks; assumption | apply skip_calm, C | exact CN|].
      assert (EN : ended (nl ++ k ++ b ++ l ++ t0)) by apply eol_ended, E.
      destruct (body_inner es ss (nl ++ k ++ b ++ l ++ t0) W WS) as [ts [[c [EC M]] RD]]; [apply skip_calm, ended_calm, EN | rewrite <- EL; exists w, t0, N; auto|].
      rewrite app_nil_r in EC. subst c. exists ts. split; [|exact RD]. intros k0.
      destruct (skip_idle v _ V EN) as [e [EE ME]]. apply app_inv_tail in EE. subst e.
      apply (m_then G NonAtomic Skip _ true false _ k0 v _ k0 [] _ [] k0 ts (ME true k0)); [split; [discriminate | intros [_ Z]; contradiction] | apply M; reflexivity]. }
  destruct B as [ts [B RD]]. exists ts. split; [|exact RD].
  unfold top, pairs. rewrite (parse_matches G "settings" t t [] [] [T "settings" t ts]); [reflexivity | reflexivity|].
  apply (m_call G NonAtomic "settings" KNormal _ true t [] (Some (t, [], [], ts)) eq_refl).
  change (body_atom "settings" KNormal NonAtomic) with NonAtomic.
  apply (m_then G NonAtomic (Opt SOI) _ true true t [] [] t [] [] t [] [] ts); [apply m_opt, m_soi | tauto | apply B].
Qed.
Lemma omap_app {A B} (f : A -> outcome B) a b ya yb : omap f a = Ret ya -> omap f b = Ret yb -> omap f (a ++ b) = Ret (ya ++ yb).
Proof.
  revert ya. induction a as [|x a IH]; intros ya EA EB; cbn [omap app] in *; [injection EA as <-; exact EB|].
  destruct (f x); try discriminate EA. cbn [obind] in *. destruct (omap f a) as [zs| |]; try discriminate EA. cbn [obind] in *. injection EA as <-.
  rewrite (IH zs eq_refl EB). reflexivity.
Qed.
Lemma settings_omap es ts : reads_file es ts -> exists l, omap parse_setting ts = Ret l /\ filter_map (fun o => o) l = filter_map setting_said es.
Proof.
  intros [a [b [-> [FA FB]]]].
  assert (EA : omap parse_setting a = Ret (map setting_said es)).
  { induction FA as [|e tr es a S FA IH]; [reflexivity|]. cbn [omap map]. rewrite S. cbn [obind]. rewrite IH. reflexivity. }
  assert (EB : omap parse_setting (b ++ [T "EOI" [] []]) = Ret (map (fun _ => None) (b ++ [T "EOI" [] []]))).
  { clear FA EA. induction FB as [|tr b S FB IH]; [reflexivity|]. cbn [omap map app]. rewrite S. cbn [obind]. rewrite IH. reflexivity. }
  eexists. split; [apply omap_app; eassumption|]. clear.
  induction es as [|e es IH]; cbn [map app filter_map].
  - induction (b ++ [T "EOI" [] []]) as [|x l IH]; [reflexivity | exact IH].
  - destruct (setting_said e); [f_equal|]; exact IH.
Qed.
Lemma settings_fold es : forall c v, fold_left setting_step (filter_map setting_said es) (c, v) = (put_all (colours_said es) c, put_all (values_said es) v).
Proof.
  induction es as [|e es IH]; intros c v; [reflexivity|]. unfold colours_said, values_said, said in *. cbn [filter_map flat_map].
  destruct e as [n r g b|n|n w]; cbn [setting_said value_said colour_said app].
  - destruct (parse_u8 r); [destruct (parse_u8 g); [destruct (parse_u8 b)|]|]; cbn [app fold_left setting_step fst snd]; rewrite IH; reflexivity.
  - apply IH.
  - cbn [fold_left setting_step fst snd]. rewrite IH. reflexivity.
Qed.
Lemma settings_text_reads es ss t : Forall well_written es -> Forall section_written ss -> settings_layout (settings_lines es ss) t ->
  parse_topsky_settings t = Ret (of_list (colours_said es), of_list (values_said es)).
Proof.
  intros W WS H. destruct (settings_top es ss t W WS H) as [ts [E RD]]. destruct (settings_omap es ts RD) as [l [EL EF]].
  unfold parse_topsky_settings. rewrite E. cbn [obind]. rewrite EL. cbn [obind]. rewrite EF, settings_fold. reflexivity.
Qed.
