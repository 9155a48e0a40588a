(** airway.txt files that are written line by line are read (C85). *)
From Coq Require Import ZifyBool ZifyN ZifyNat.
From Verif Require Import Base Num Float FloatParse Peg Grammars SpecPeg PegProofs PegLang PegForward PegSkip Trees
  SpecText TextProofs Numerals SpecFields FileForward Airways AirwaysProofs AirwayTxt AirwayTxtProofs SpecAirwayText.
Local Open Scope string_scope.
Local Open Scope list_scope.
Notation G := airway_grammar.
Notation okt := (okt G).
Notation skips := (FileForward.skipped G).

(** ** What is skipped *)
Definition calm (r : text) : Prop := (forall y, r <> s2t ";" ++ y) /\ (forall y, r <> s2t "//" ++ y).
Definition ended (r : text) : Prop := stops (fun x => negb (is_nl x)) r.
Lemma comment_ko a r : calm r -> ko G a (Call "COMMENT") r.
Proof. intros [A B]. eapply ko_call; [reflexivity|]. apply ko_seq1, ko_alt; apply ko_str; assumption. Qed.
Lemma ended_calm r : ended r -> calm r.
Proof.
  intros S. destruct r as [|x r]; [split; discriminate|]. cbn in S. apply negb_false_iff in S. unfold is_nl in S.
  split; intros y E; injection E as -> _; discriminate S.
Qed.
Lemma only_comment e : SpecPeg.skipped G e <-> e = Many (Call "COMMENT").
Proof.
  assert (W : ~ defined G "WHITESPACE") by (apply get_None; reflexivity).
  assert (C : defined G "COMMENT") by (unfold defined; eapply get_Some_key; reflexivity).
  split; [intros []; try contradiction; reflexivity | intros ->; constructor; assumption].
Qed.
Lemma skip_calm r : calm r -> skips r r.
Proof. intros C. apply (okt_ok G NonAtomic Skip [] r). intros i k. eapply m_skip; [apply only_comment; reflexivity|]. apply (ok_many_nil G NonAtomic _ r), comment_ko, C. Qed.
Lemma no_spaces b : spaces no_space b -> b = [].
Proof. intros B. destruct b as [|c b]; [reflexivity|]. inversion B as [|? ? X _]; discriminate X. Qed.
Lemma skip_idle v r : idle no_space remarks v -> ended r -> skips (v ++ r) r.
Proof.
  intros [B|[b [h [c [-> [B [H C]]]]]]] S; apply no_spaces in B; subst; [apply skip_calm, ended_calm, S|]. cbn [app].
  pose proof (ended_calm r S) as K. apply okt_ok. intros i k. eapply m_skip; [apply only_comment; reflexivity|]. rewrite <- (app_nil_r (h ++ c)).
  apply (ok_many_cons G NonAtomic _ (h ++ c) [] r [] []); [|apply ok_many_nil, comment_ko, K].
  eapply ok_eq; [eapply ok_call; [reflexivity|]|reflexivity|reflexivity]. change (body_atom "COMMENT" KSilent NonAtomic) with Atomic.
  apply (ok_seq_at G Atomic _ _ h c r [] []); [discriminate| |].
  - destruct H as [<-|[<-|[]]]; [apply ok_alt1, ok_str|]. apply ok_alt2; [apply ko_str; discriminate | apply ok_str].
  - eapply ok_star_one; [discriminate | apply one_not_newline; discriminate | | exact S]. eapply Forall_impl; [|exact C]. intros x [X Y]. unfold is_nl. lia.
Qed.
Lemma eol_ended nl r : eol nl -> ended (nl ++ r).
Proof. intros [-> | ->]; reflexivity. Qed.
Lemma idles_run k t : idles no_space remarks k -> skips t t -> stops is_nl t -> exists u, skips (k ++ t) u /\ run G NEWLINE u t [].
Proof.
  intros K T S. induction K as [|v nl k V E K [u [SU R]]]; [exists t; split; [exact T | apply run_nil, ko_newline, S]|].
  exists (nl ++ k ++ t). split; [rewrite <- !app_assoc; apply skip_idle; [exact V | apply eol_ended, E]|].
  apply (run_cons G NEWLINE _ (k ++ t) u t [] []); [apply newline_ok, E | exact SU | exact R].
Qed.
Lemma nl_ok nl k t : eol nl -> idles no_space remarks k -> skips t t -> stops is_nl t -> exists v, okt NonAtomic &"NL" (nl ++ k ++ t) v [] /\ skips v t.
Proof.
  intros E K T S. destruct (idles_run k t K T S) as [u [SU R]].
  destruct (run_plus G NEWLINE _ (k ++ t) u t [] [] (newline_ok G NonAtomic nl _ E) SU R T) as [v [O SV]].
  exists v. split; [|exact SV]. apply (okt_silent G NonAtomic "NL" (Plus NEWLINE)); [reflexivity | reflexivity | exact O].
Qed.

(** ** Columns *)
Lemma seq0 x y t t' r t1 t2 : okt NonAtomic x t t' t1 -> calm t' -> okt NonAtomic y t' r t2 -> okt NonAtomic (Seq x y) t r (t1 ++ t2).
Proof. intros A C B. eapply okt_seq; [exact A | apply skip_calm, C | exact B]. Qed.
Lemma calm_char c r : c <> 59%N -> c <> 47%N -> calm (c :: r).
Proof. intros B C. split; intros y E; injection E as E _; congruence. Qed.
Lemma calm_tab r : calm (tab ++ r).
Proof. apply calm_char; discriminate. Qed.
Lemma norm n e w r ts : get n G = Some (KNormal, e) -> body_atom n KNormal NonAtomic = NonAtomic -> okt NonAtomic e (w ++ r) r ts -> okt NonAtomic (Call n) (w ++ r) r [T n w ts].
Proof. intros E B O. destruct (okt_normal G n e E B (w ++ r) r ts O) as [c [EC OC]]. apply app_inv_tail in EC. subst c. exact OC. Qed.
Lemma plus_ok x f w r : one G NonAtomic x f -> w <> [] -> Forall (fun c => f c = true) w -> (forall c, f c = true -> c <> 59 /\ c <> 47)%N -> stops f r -> calm r ->
  okt NonAtomic (Plus x) (w ++ r) r [].
Proof.
  intros [O K] N F NC S C.
  assert (CA : forall v, Forall (fun c => f c = true) v -> calm (v ++ r)).
  { intros [|c v] FV; [exact C|]. inversion FV as [|? ? X _]; subst. apply calm_char; apply NC, X. }
  assert (ST : forall c v, f c = true -> okt NonAtomic x ((c :: v) ++ r) (v ++ r) []).
  { intros c v FC. apply (okt_ok G NonAtomic x [c]), O, FC. }
  assert (M : forall v, Forall (fun c => f c = true) v -> okt NonAtomic (Many (Then Skip x)) (v ++ r) r []).
  { induction v as [|c v IH]; intros FV.
    - apply okt_many_nil. eapply ko_then2t; [apply skip_calm, C | apply K, S].
    - inversion FV as [|? ? X FV']; subst. apply (okt_many_cons G NonAtomic _ _ (v ++ r) r [] []); [|apply IH, FV'].
      apply (okt_then G NonAtomic Skip x _ ((c :: v) ++ r) _ [] []); [apply skip_calm, CA, FV | apply ST, X]. }
  destruct w as [|c w]; [congruence|]. inversion F as [|? ? X F']; subst.
  apply (seq0 x (Star x) _ (w ++ r) r [] []); [apply ST, X | apply CA, F'|].
  destruct w as [|d w]; [apply okt_star_nil, K, S|]. inversion F' as [|? ? Y F'']; subst.
  apply okt_opt. apply (okt_then G NonAtomic _ _ _ (w ++ r) r [] []); [apply ST, Y | apply M, F''].
Qed.
Definition name_char (c : N) : bool := is_upper c || is_digit c.
Lemma designator_chars w : designator w -> Forall (fun c => name_char c = true) w.
Proof. intros [_ F]. eapply Forall_impl; [|exact F]. intros c [A|A]; unfold name_char; rewrite A; [reflexivity | apply orb_true_r]. Qed.
Lemma designator_ok w r : designator w -> okt NonAtomic &"designator" (w ++ tab ++ r) (tab ++ r) [T "designator" w []].
Proof.
  intros W. eapply norm; [reflexivity | reflexivity|].
  apply (plus_ok _ name_char); [apply one_alt; apply one_sat | apply W | apply designator_chars, W | | reflexivity | apply calm_tab].
  intros c. unfold name_char, is_upper, is_digit. lia.
Qed.
Lemma designator_calm w r : designator w -> calm (w ++ r).
Proof.
  intros W. pose proof (designator_chars w W) as F. destruct W as [N _]. destruct w as [|c w]; [congruence|]. inversion F as [|? ? X _]; subst.
  unfold name_char, is_upper, is_digit in X. apply calm_char; lia.
Qed.
Lemma tabbed y t r ts : okt NonAtomic y t r ts -> calm t -> okt NonAtomic (TAB ~~ y) (tab ++ t) r ts.
Proof. intros O C. apply (seq0 _ _ _ t r [] ts); [apply okt_str | exact C | exact O]. Qed.
Lemma decimal_hd w : decimal w -> exists c v, w = c :: v /\ (is_digit c = true \/ c = 45%N) /\ exists d u, v = d :: u /\ d <> 9%N /\ d <> 59%N /\ d <> 47%N.
Proof.
  intros [a b [N F] B|a b [N F] B]; (destruct a as [|c a]; [congruence|]); inversion F as [|? ? C F']; subst.
  - exists c, (a ++ s2t "." ++ b). split; [reflexivity|]. split; [left; exact C|]. destruct a as [|d a]; [exists 46%N, b; repeat split; discriminate|].
    inversion F' as [|? ? D _]; subst. exists d, (a ++ s2t "." ++ b). unfold is_digit in D. split; [reflexivity|]. lia.
  - exists 45%N, (c :: a ++ s2t "." ++ b). split; [reflexivity|]. split; [right; reflexivity|]. exists c, (a ++ s2t "." ++ b). unfold is_digit in C. split; [reflexivity|]. lia.
Qed.
Lemma decimal_calm w r : decimal w -> calm (w ++ r).
Proof. intros D. destruct (decimal_hd w D) as [c [v [-> [C _]]]]. cbn [app]. unfold is_digit in C. apply calm_char; lia. Qed.
Lemma decimal_ok w r : decimal w -> exists k, okt NonAtomic &"coord_part" (w ++ tab ++ r) (tab ++ r) [T "coord_part" w k].
Proof.
  intros D. assert (O : okt Compound &"DECIMAL" (w ++ tab ++ r) (tab ++ r) [T "DECIMAL" w []]).
  { eapply tok; [discriminate | reflexivity|]. destruct D as [a b A B|a b A B].
    - apply (ok_seq_at G Atomic _ _ [] (a ++ s2t "." ++ b) _ [] []); [discriminate| |].
      + apply ok_opt_no, (ko_chr G Atomic 45). destruct A as [N F]. destruct a as [|c a]; [congruence|]. inversion F as [|? ? C _]; subst. cbn. unfold is_digit in C. lia.
      + apply (ok_seq_at G Atomic _ _ a (s2t "." ++ b) _ [] []); [discriminate | apply digits_plus; [discriminate | exact A | reflexivity]|].
        apply (ok_seq_at G Atomic _ _ (s2t ".") b _ [] []); [discriminate | apply ok_str | apply digits_plus; [discriminate | exact B | reflexivity]].
    - apply (ok_seq_at G Atomic _ _ (s2t "-") (a ++ s2t "." ++ b) _ [] []); [discriminate | apply ok_opt, ok_str|].
      apply (ok_seq_at G Atomic _ _ a (s2t "." ++ b) _ [] []); [discriminate | apply digits_plus; [discriminate | exact A | reflexivity]|].
      apply (ok_seq_at G Atomic _ _ (s2t ".") b _ [] []); [discriminate | apply ok_str | apply digits_plus; [discriminate | exact B | reflexivity]]. }
  destruct (okt_compound G "coord_part" _ eq_refl NonAtomic _ _ _ O) as [c [EC OC]]. apply app_inv_tail in EC. subst c. eauto.
Qed.
Lemma coord_ok lat lng r : decimal lat -> decimal lng -> exists w k k', okt NonAtomic &"coord" (lat ++ tab ++ lng ++ tab ++ r) (tab ++ r) [T "coord" w [T "coord_part" lat k; T "coord_part" lng k']].
Proof.
  intros A B. destruct (decimal_ok lat (lng ++ tab ++ r) A) as [k OA]. destruct (decimal_ok lng r B) as [k' OB].
  destruct (okt_normal G "coord" _ eq_refl eq_refl (lat ++ tab ++ lng ++ tab ++ r) (tab ++ r) ([T "coord_part" lat k] ++ [T "coord_part" lng k'])) as [c [_ OC]].
  { eapply seq0; [exact OA | apply calm_tab|]. apply tabbed; [exact OB | apply decimal_calm, B]. }
  exists c, k, k'. exact OC.
Qed.
Lemma coord_read w lat lng k k' p : spot lat lng p -> airway_coord (T "coord" w [T "coord_part" lat k; T "coord_part" lng k']) = Ret p.
Proof. intros [_ [_ [A B]]]. unfold airway_coord. cbn [kids_of]. walk. rewrite A. walk. rewrite B. destruct p. reflexivity. Qed.

(** ** Neighbours *)
Notation ZERO := (TAB ~~ Opt (str "0")).
Lemma zero_ok (b : bool) r : calm r -> stops (fun c => c =? 48)%N r -> okt NonAtomic ZERO ((tab ++ if b then s2t "0" else []) ++ r) r [].
Proof.
  intros C S. rewrite <- app_assoc. destruct b.
  - apply tabbed; [apply okt_opt, okt_str | apply calm_char; discriminate].
  - apply tabbed; [apply okt_opt_no, (ko_chr G NonAtomic 48), S | exact C].
Qed.
Lemma nobody_ok z r : List.length z = 5%nat -> okt NonAtomic &"no_neighbour" (slot_text (Nobody z) ++ r) r [T "no_neighbour" (slot_text (Nobody z)) []].
Proof.
  intros L. do 5 (destruct z as [|? z]; [discriminate L|]). destruct z; [|discriminate L]. clear L. eapply norm; [reflexivity | reflexivity|].
  cbn [slot_text map List.concat]. rewrite app_nil_r.
  assert (Z : forall x0 x1 x2 x3 x4 y : text, ((x0 ++ x1 ++ x2 ++ x3 ++ x4) ++ y) ++ r = x0 ++ x1 ++ x2 ++ x3 ++ x4 ++ y ++ r) by (intros; rewrite <- !app_assoc; reflexivity). rewrite Z. clear Z.
  assert (CN : calm (s2t "N" ++ r)) by (apply calm_char; discriminate). assert (CT : forall (b : bool) y, calm ((tab ++ if b then s2t "0" else []) ++ y)) by (intros; rewrite <- app_assoc; apply calm_tab).
  apply (seq0 _ _ _ (s2t "N" ++ r) r [] []); [|exact CN | apply okt_str].
  do 4 (eapply (seq0 _ _ _ _ _ [] []); [apply zero_ok; [apply CT | reflexivity] | apply CT|]). apply zero_ok; [exact CN | reflexivity].
Qed.
Lemma zero_any u : calm u -> (forall v, u = s2t "0" ++ v -> calm v) -> exists v, okt NonAtomic ZERO (tab ++ u) v [] /\ calm v /\ (u = s2t "0" ++ v \/ v = u /\ stops (fun c => c =? 48)%N u).
Proof.
  intros C Z. destruct u as [|c u]; [exists []; split; [|split; [exact C | right; split; [reflexivity | exact I]]]; apply tabbed; [apply okt_opt_no, (ko_chr G NonAtomic 48); exact I | exact C]|].
  destruct (N.eq_dec c 48) as [->|NE].
  - exists u. split; [|split; [apply Z; reflexivity | left; reflexivity]]. apply tabbed; [apply okt_opt, (okt_str G NonAtomic (s2t "0")) | exact C].
  - exists (c :: u). assert (S : stops (fun c => c =? 48)%N (c :: u)) by (apply N.eqb_neq, NE). split; [|split; [exact C | right; auto]]. apply tabbed; [apply okt_opt_no, (ko_chr G NonAtomic 48), S | exact C].
Qed.
Lemma nobody_ko n lat r : designator n -> decimal lat -> ko G NonAtomic &"no_neighbour" (tab ++ n ++ tab ++ lat ++ r).
Proof.
  intros D L. eapply ko_call; [reflexivity|]. change (body_atom "no_neighbour" KNormal NonAtomic) with NonAtomic. apply ko_seq1.
  assert (TK : forall y u, stops (fun c => c =? 9)%N u -> ko G NonAtomic (ZERO ~~ y) u) by (intros y u S; apply ko_seq1, ko_seq1, (ko_chr G NonAtomic 9), S).
  pose proof (designator_chars n D) as F.
  destruct (zero_any (n ++ tab ++ lat ++ r)) as [v [O [C E]]]; [apply designator_calm, D | |].
  { intros v E. destruct n as [|c n]; [destruct D as [N _]; congruence|]. injection E as _ <-. destruct n as [|d n]; [apply calm_tab|].
    inversion F as [|? ? _ F']; subst. inversion F' as [|? ? X _]; subst. unfold name_char, is_upper, is_digit in X. apply calm_char; lia. }
  eapply ko_seq2; [exact O | apply skip_calm, C|].
  assert (V : stops (fun c => c =? 9)%N v \/ v = tab ++ lat ++ r).
  { destruct n as [|c n]; [destruct D as [N _]; congruence|]. inversion F as [|? ? X F']; subst. destruct E as [E|[-> _]].
    - injection E as _ <-. destruct n as [|d n]; [right; reflexivity|]. left. inversion F' as [|? ? Y _]; subst. cbn. unfold name_char, is_upper, is_digit in Y. lia.
    - left. cbn. unfold name_char, is_upper, is_digit in X. lia. }
  destruct V as [S| ->]; [apply TK, S|].
  destruct (decimal_hd lat L) as [c [u [-> [X [d [u' [-> [D1 [D2 D3]]]]]]]]].
  destruct (zero_any ((c :: d :: u') ++ r)) as [v [O' [C' E']]]; [apply decimal_calm, L | |].
  { intros v E'. injection E' as _ <-. apply calm_char; assumption. }
  eapply ko_seq2; [exact O' | apply skip_calm, C'|]. apply TK. destruct E' as [E'|[-> _]]; [injection E' as _ <-; apply N.eqb_neq; exact D1|]. cbn. unfold is_digit in X. lia.
Qed.
Lemma level_ok n r : (forall t, n_level n = Some t -> digits t) -> exists tr, okt NonAtomic (&"level" // &"not_established") (level_text n ++ tab ++ r) (tab ++ r) [tr] /\
  airway_level tr = match n_level n with Some t => do m <- unwrap (parse_u32 t); Ret (Some m) | None => Ret None end.
Proof.
  intros D. unfold level_text. assert (K : forall u, stops is_digit u -> ko G NonAtomic &"level" u).
  { intros u S. eapply ko_call; [reflexivity|]. apply ko_plus_sat, S. }
  destruct (n_level n) as [t|].
  - destruct (D t eq_refl) as [N F]. eexists. split; [apply okt_alt1; eapply norm; [reflexivity | reflexivity|]|].
    + apply (plus_ok _ is_digit); [apply one_sat | exact N | exact F | | reflexivity | apply calm_tab]. intros c. unfold is_digit. lia.
    + reflexivity.
  - destruct (n_nestb n).
    + eexists. split; [apply okt_alt2; [apply K; reflexivity|]; eapply norm; [reflexivity | reflexivity|]; apply okt_alt1, okt_str|]. reflexivity.
    + exists (T "not_established" [] []). split; [apply okt_alt2; [apply K; reflexivity|]; apply (norm "not_established" (str "NESTB" // str "") []); [reflexivity | reflexivity|] | reflexivity].
      apply okt_alt2; [apply ko_str; discriminate | apply (okt_str G NonAtomic [])].
Qed.
Lemma neighbour_ok n r : designator (n_name n) -> decimal (n_lat n) -> decimal (n_lng n) -> (forall t, n_level n = Some t -> digits t) ->
  exists tr, okt NonAtomic (&"no_neighbour" // &"neighbour") (slot_text (Next n) ++ r) r [tr] /\
    forall p m, spot (n_lat n) (n_lng n) p -> match n_level n with Some t => parse_u32 t = m | None => m = None end -> (n_level n <> None -> m <> None) ->
    airway_fix_parse tr = Ret (Some (mkAfix (n_name n) p (n_valid n) m)).
Proof.
  intros D A B LV. destruct (level_ok n (s2t (if n_valid n then "Y" else "N") ++ r) LV) as [lv [OL RL]].
  destruct (coord_ok (n_lat n) (n_lng n) (level_text n ++ tab ++ s2t (if n_valid n then "Y" else "N") ++ r) A B) as [w [k [k' OC]]].
  assert (OB : exists fl, okt NonAtomic &"bool" (s2t (if n_valid n then "Y" else "N") ++ r) r [fl] /\ eqb (text_of fl) (s2t "Y") = n_valid n).
  { destruct (n_valid n).
    - eexists. split; [apply (okt_silent G NonAtomic "bool" _ _ _ _ eq_refl eq_refl); apply okt_alt1; eapply norm; [reflexivity | reflexivity|]; apply okt_str | reflexivity].
    - eexists. split; [apply (okt_silent G NonAtomic "bool" _ _ _ _ eq_refl eq_refl); apply okt_alt2; [eapply ko_call; [reflexivity|]; apply ko_str; discriminate|]; eapply norm; [reflexivity | reflexivity|]; apply okt_str | reflexivity]. }
  destruct OB as [fl [OF RF]].
  assert (CL : calm (level_text n ++ tab ++ s2t (if n_valid n then "Y" else "N") ++ r)).
  { unfold level_text. destruct (n_level n) as [t|]; [|destruct (n_nestb n); [apply calm_char; discriminate | apply calm_tab]].
    destruct (LV t eq_refl) as [NE F]. destruct t as [|c t]; [congruence|]. inversion F as [|? ? X _]; subst. unfold is_digit in X. apply calm_char; lia. }
  assert (CF : calm (s2t (if n_valid n then "Y" else "N") ++ r)) by (destruct (n_valid n); apply calm_char; discriminate).
  eexists. split.
  - cbn [slot_text]. rewrite <- !app_assoc. apply okt_alt2; [apply nobody_ko; assumption|].
    rewrite !(app_assoc tab), !(app_assoc (tab ++ _)), !(app_assoc (_ ++ _)). rewrite <- !app_assoc.
    pose proof (norm "neighbour" _ (slot_text (Next n)) r ([T "designator" (n_name n) []] ++ [T "coord" w [T "coord_part" (n_lat n) k; T "coord_part" (n_lng n) k']] ++ [lv] ++ [fl]) eq_refl eq_refl) as NO.
    cbn [slot_text] in NO. rewrite <- !app_assoc in NO. apply NO. apply tabbed; [|apply designator_calm, D].
    eapply (seq0 _ _ _ _ _ [_]); [apply designator_ok, D | apply calm_tab|]. apply tabbed; [|apply decimal_calm, A].
    eapply (seq0 _ _ _ _ _ [_]); [exact OC | apply calm_tab|]. apply tabbed; [|exact CL].
    eapply (seq0 _ _ _ _ _ [_]); [exact OL | apply calm_tab|]. apply tabbed; [exact OF | exact CF].
  - intros p m SP LM LN. unfold airway_fix_parse. cbn [kids_of app].
    change (is_rule (T "neighbour" _ _) "no_neighbour") with false. change (is_rule (T "neighbour" _ _) "neighbour") with true. cbv iota.
    cbn [next obind text_of]. rewrite (coord_read _ _ _ _ _ p SP). cbn [next obind text_of]. rewrite RL.
    destruct (n_level n) as [t|].
    + rewrite LM. destruct m as [m|]; [|contradiction LN; [discriminate | reflexivity]]. cbn [unwrap obind next]. rewrite RF. reflexivity.
    + subst m. cbn [obind next]. rewrite RF. reflexivity.
Qed.

(** ** Lines *)
Lemma slot_ok l s a r : reads_slot l s a -> exists tr, okt NonAtomic (&"no_neighbour" // &"neighbour") (slot_text s ++ r) r [tr] /\
  match s with Nobody _ => a = [] /\ airway_fix_parse tr = Ret None
  | Next _ => exists f pos, airway_fix_parse tr = Ret (Some f) /\ spot (l_lat l) (l_lng l) pos /\ a = [seg_of (l_airway l) (l_fix l) pos (l_type l) f] end.
Proof.
  destruct s as [z|n]; destruct a as [|g [|g' a]]; cbn [reads_slot]; try contradiction.
  - intros L. eexists. split; [apply okt_alt1, nobody_ok, L | split; reflexivity].
  - intros [D [E1 [SP [E2 [LV [E3 [SF [E4 E5]]]]]]]]. destruct SP as [A [B SP]].
    destruct (neighbour_ok n r D A B) as [tr [O RD]].
    { intros t E. rewrite E in LV. destruct (s_min g); [apply LV | contradiction]. }
    exists tr. split; [exact O|]. eexists _, (s_from_pos g). split; [apply (RD (s_to_pos g) (s_min g))|split; [exact SF|]].
    + split; [exact A | split; [exact B | exact SP]].
    + destruct (n_level n); destruct (s_min g); try contradiction; [apply LV | reflexivity].
    + intros X. destruct (n_level n); [|congruence]. destruct (s_min g); [discriminate | contradiction].
    + unfold seg_of. cbn [af_name af_pos af_valid af_min]. destruct g. cbn in E1, E2, E3, E4, E5 |- *. subst. reflexivity.
Qed.
Lemma slot_tab s l a r : reads_slot l s a -> exists y, slot_text s ++ r = tab ++ y.
Proof.
  intros R. destruct s as [z|n]; cbn [slot_text].
  - destruct a; [|contradiction]. cbn [reads_slot] in R. destruct z as [|b z]; [discriminate R|]. cbn [map List.concat]. rewrite <- !app_assoc. eauto.
  - rewrite <- !app_assoc. eauto.
Qed.
Lemma type_ok ty r : okt NonAtomic &"airway_type" (type_text ty ++ tab ++ r) (tab ++ r) [T "airway_type" (type_text ty) []].
Proof.
  eapply norm; [reflexivity | reflexivity|]. destruct ty.
  - apply okt_alt2; [apply ko_str; discriminate|]. apply okt_alt1, okt_str.
  - apply okt_alt2; [apply ko_str; discriminate|]. apply okt_alt2; [apply ko_str; discriminate|]. apply okt_alt1, okt_str.
  - apply okt_alt1, okt_str.
  - apply okt_alt2; [apply ko_str; discriminate|]. apply okt_alt2; [apply ko_str; discriminate|]. apply okt_alt2; [apply ko_str; discriminate | apply (okt_str G NonAtomic [])].
Qed.
Lemma type_read ty : airway_type_parse (T "airway_type" (type_text ty) []) = Ret ty.
Proof. destruct ty; reflexivity. Qed.
Lemma type_calm ty r : calm (type_text ty ++ tab ++ r).
Proof. destruct ty; apply calm_char; discriminate. Qed.
Lemma spot_same lat lng p q : spot lat lng p -> spot lat lng q -> p = q.
Proof. intros [_ [_ [A B]]] [_ [_ [C D]]]. destruct p, q. cbn [px py fst snd] in *. congruence. Qed.
Lemma line_ok l segs b nl k t : reads_line l segs -> idle no_space remarks b -> eol nl -> idles no_space remarks k -> skips t t -> stops is_nl t ->
  exists v tr, okt NonAtomic &"airway" (line_text l ++ b ++ nl ++ k ++ t) v [tr] /\ skips v t /\ forall acc, airway_pair acc tr = unwrap (insert_all acc segs).
Proof.
  intros [D [W [A [B [s1 [s2 [-> [R1 R2]]]]]]]] V E K ST S.
  destruct (nl_ok nl k t E K ST S) as [v [ON SV]].
  destruct (slot_ok l _ _ (slot_text (l_two l) ++ b ++ nl ++ k ++ t) R1) as [x1 [O1 P1]]. destruct (slot_ok l _ _ (b ++ nl ++ k ++ t) R2) as [x2 [O2 P2]].
  destruct (slot_tab _ l _ (slot_text (l_two l) ++ b ++ nl ++ k ++ t) R1) as [y1 T1]. destruct (slot_tab _ l _ (b ++ nl ++ k ++ t) R2) as [y2 T2].
  assert (C1 : calm (slot_text (l_one l) ++ slot_text (l_two l) ++ b ++ nl ++ k ++ t)) by (rewrite T1; apply calm_tab).
  assert (C2 : calm (slot_text (l_two l) ++ b ++ nl ++ k ++ t)) by (rewrite T2; apply calm_tab).
  destruct (coord_ok (l_lat l) (l_lng l) (s2t "14" ++ tab ++ l_airway l ++ tab ++ type_text (l_type l) ++ slot_text (l_one l) ++ slot_text (l_two l) ++ b ++ nl ++ k ++ t) A B) as [w [k1 [k2 OC]]].
  destruct (okt_normal G "airway" _ eq_refl eq_refl (line_text l ++ b ++ nl ++ k ++ t) v
    ([T "designator" (l_fix l) []] ++ [T "coord" w [T "coord_part" (l_lat l) k1; T "coord_part" (l_lng l) k2]] ++ [T "designator" (l_airway l) []] ++ [T "airway_type" (type_text (l_type l)) []] ++ [x1] ++ [x2] ++ [])) as [c [_ OL]].
  { unfold line_text. rewrite <- !app_assoc.
    eapply (seq0 _ _ _ _ _ [_]); [apply designator_ok, D | apply calm_tab|]. apply tabbed; [|apply decimal_calm, A].
    eapply (seq0 _ _ _ _ _ [_]); [exact OC | apply calm_tab|]. apply tabbed; [|apply calm_char; discriminate].
    eapply (seq0 (str "14") _ _ _ _ []); [apply okt_str | apply calm_tab|]. apply tabbed; [|apply designator_calm, W].
    eapply (seq0 _ _ _ _ _ [_]); [apply designator_ok, W | apply calm_tab|]. apply tabbed; [|rewrite T1; apply type_calm].
    eapply (seq0 _ _ _ (slot_text (l_one l) ++ slot_text (l_two l) ++ b ++ nl ++ k ++ t) _ [_]); [rewrite T1; apply type_ok | exact C1|].
    eapply (seq0 _ _ _ _ _ [_]); [exact O1 | exact C2|].
    apply (okt_seq G _ _ _ (b ++ nl ++ k ++ t) (nl ++ k ++ t) v [_] []); [exact O2 | apply skip_idle; [exact V | apply eol_ended, E] | exact ON]. }
  exists v. eexists. split; [exact OL|]. split; [exact SV|]. intros acc. unfold airway_pair.
  change (is_rule (T "airway" _ _) "airway") with true. cbv iota. cbn [kids_of app next obind text_of].
  destruct (parse_decimal _ A) as [la EA]. destruct (parse_decimal _ B) as [lo EB].
  assert (SP : spot (l_lat l) (l_lng l) (lo, la)) by (split; [exact A | split; [exact B | split; assumption]]).
  rewrite (coord_read _ _ _ _ _ _ SP). cbn [next obind text_of]. rewrite type_read. cbn [obind airway_segments next].
  assert (P1' : exists o, airway_fix_parse x1 = Ret o /\ s1 = match o with Some f => [seg_of (l_airway l) (l_fix l) (lo, la) (l_type l) f] | None => [] end).
  { destruct (l_one l); [exists None; split; apply P1|]. destruct P1 as [f [pos [E1 [S1 ->]]]]. exists (Some f). rewrite (spot_same _ _ _ _ S1 SP). split; [exact E1 | reflexivity]. }
  assert (P2' : exists o, airway_fix_parse x2 = Ret o /\ s2 = match o with Some f => [seg_of (l_airway l) (l_fix l) (lo, la) (l_type l) f] | None => [] end).
  { destruct (l_two l); [exists None; split; apply P2|]. destruct P2 as [f [pos [E1 [S1 ->]]]]. exists (Some f). rewrite (spot_same _ _ _ _ S1 SP). split; [exact E1 | reflexivity]. }
  destruct P1' as [o1 [Q1 ->]], P2' as [o2 [Q2 ->]]. rewrite Q1. cbn [obind].
  assert (SN : forall acc', (do segment <- airway_fix_parse x2; match segment with
      | Some segment => do acc <- unwrap (insert_segment acc' (l_airway l) (l_fix l) (lo, la) segment (l_type l)); Ret acc | None => Ret acc' end) =
      unwrap (insert_all acc' match o2 with Some f => [seg_of (l_airway l) (l_fix l) (lo, la) (l_type l) f] | None => [] end)).
  { intros acc'. rewrite Q2. cbn [obind]. destruct o2 as [f|]; [|reflexivity]. cbn [insert_all]. rewrite insert_seg_of. destruct (insert_segment _ _ _ _ _ _); reflexivity. }
  destruct o1 as [f|]; cbn [app]; [|apply SN]. cbn [insert_all]. rewrite insert_seg_of. destruct (insert_segment acc _ _ _ f _) as [g|]; [apply SN | reflexivity].
Qed.

(** ** Files *)
Lemma line_start l segs r : reads_line l segs -> calm (line_text l ++ r) /\ stops is_nl (line_text l ++ r).
Proof.
  intros [D _]. unfold line_text. rewrite <- app_assoc. split; [apply designator_calm, D|].
  pose proof (designator_chars _ D) as F. destruct D as [N _]. destruct (l_fix l) as [|c w]; [congruence|]. inversion F as [|? ? X _]; subst.
  cbn. unfold name_char, is_upper, is_digit in X. unfold is_nl. lia.
Qed.
Lemma laid_start ls segs t : Forall2 reads_line ls segs -> lines_laid (map line_text ls) t -> skips t t /\ stops is_nl t.
Proof.
  intros F L. destruct F as [|l s ls segs R F]; inversion L; subst; [split; [apply skip_calm; split; discriminate | exact I]|].
  destruct (line_start l s (b ++ nl ++ k ++ t0) R) as [C S]. split; [apply skip_calm, C | exact S].
Qed.
Lemma lines_run ls segs : Forall2 reads_line ls segs -> forall t, lines_laid (map line_text ls) t -> exists ts, run G &"airway" t [] ts /\
  forall acc g, insert_all acc (List.concat segs) = Some g -> ofold airway_pair (ts ++ [T "EOI" [] []]) acc = Ret g.
Proof.
  induction 1 as [|l s ls segs R F IH]; intros t L; inversion L as [|? ? b nl k t0 V E K L0]; subst.
  - exists []. split; [apply run_nil; eapply ko_call; [reflexivity|]; apply ko_seq1; eapply ko_call; [reflexivity|]; apply ko_seq1, ko_alt; apply ko_sat; exact I|].
    intros acc g X. injection X as <-. reflexivity.
  - destruct (IH t0 L0) as [ts [RU RD]]. destruct (laid_start ls segs t0 F L0) as [ST SN].
    destruct (line_ok l s b nl k t0 R V E K ST SN) as [v [tr [O [SV P]]]]. exists ([tr] ++ ts). split; [eapply run_cons; eassumption|].
    intros acc g X. cbn [List.concat] in X. rewrite insert_all_app in X. cbn [app ofold]. rewrite P. destruct (insert_all acc s) as [g'|]; [|discriminate X]. cbn [unwrap obind]. apply RD, X.
Qed.
Lemma airway_text_reads ls segs t : ls <> [] -> Forall2 reads_line ls segs -> airway_layout (map line_text ls) t ->
  exists g, insert_all empty_graph (List.concat segs) = Some g /\ parse_airway_txt t = Ret g.
Proof.
  intros NE F [k [t' [-> [K L]]]]. destruct (insert_all_rep (List.concat segs)) as [g [EG _]]. exists g. split; [exact EG|].
  destruct (laid_start ls segs t' F L) as [ST SN].
  assert (NT : t' <> []).
  { destruct F as [|l s ls segs R F]; [congruence|]. inversion L as [|? ? b nl k0 t0 V E K0 L0]. unfold line_text. destruct R as [[N _] _]. destruct (l_fix l); [congruence | discriminate]. }
  assert (B : exists ts, okt NonAtomic (Plus &"airway" ~~ EOI) t' [] (ts ++ [T "EOI" [] []]) /\ ofold airway_pair (ts ++ [T "EOI" [] []]) empty_graph = Ret g).
  { destruct (lines_run ls segs F t' L) as [ts [RU RD]]. exists ts. split; [|apply RD, EG].
    inversion RU as [u KO E1 E2 E3|u v t0 r0 t1 t2 O SV RU' E1 E2 E3].
    - exfalso. congruence.
    - destruct (run_plus G &"airway" t' v t0 [] t1 t2 O SV RU' (skip_calm [] ltac:(split; discriminate))) as [w [OP SW]].
      eapply okt_seq; [exact OP | exact SW | apply (okt_ok G NonAtomic EOI [] []), ok_eoi; discriminate]. }
  destruct B as [ts [OB RD]].
  assert (M : okt NonAtomic (Then Skip (Opt &"NL" ~~ Plus &"airway" ~~ EOI)) (k ++ t') [] ([] ++ ts ++ [T "EOI" [] []])).
  { destruct K as [|v nl k V E K].
    - cbn [app]. apply (okt_then G NonAtomic Skip _ _ t' [] [] (ts ++ [T "EOI" [] []])); [exact ST|]. apply (okt_seq G (Opt &"NL") _ t' t' t' [] [] (ts ++ [T "EOI" [] []])); [|exact ST | exact OB].
      apply okt_opt_no. eapply ko_call; [reflexivity|]. apply ko_seq1, ko_newline, SN.
    - destruct (nl_ok nl k t' E K ST SN) as [w [ON SV]]. rewrite <- !app_assoc.
      apply (okt_then G NonAtomic Skip _ _ (nl ++ k ++ t') [] [] (ts ++ [T "EOI" [] []])); [apply skip_idle; [exact V | apply eol_ended, E]|].
      apply (okt_seq G (Opt &"NL") _ _ w t' [] [] (ts ++ [T "EOI" [] []])); [apply okt_opt, ON | exact SV | exact OB]. }
  destruct M as [c [EC M]]. rewrite app_nil_r in EC. subst c. unfold parse_airway_txt, top, pairs.
  rewrite (parse_matches G "airways" _ (k ++ t') [] [] [T "airways" (k ++ t') (ts ++ [T "EOI" [] []])]); [exact RD | reflexivity|].
  apply (m_call G NonAtomic "airways" KNormal _ true _ [] (Some (k ++ t', [], [], ts ++ [T "EOI" [] []])) eq_refl).
  pose proof (ok_soi_seq G _ _ _ _ M []) as X. rewrite app_nil_r in X. exact X.
Qed.
