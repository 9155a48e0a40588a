(** Building matches for files of lines: the tools of SctForward for any grammar that ends its lines with the
    [NL] of base.pest. *)
From Coq Require Import ZifyBool ZifyN ZifyNat.
From Verif Require Import Base Peg Grammars SpecPeg PegProofs PegLang PegForward PegSkip Trees SpecText TextProofs SpecFields.
Local Open Scope string_scope.
Local Open Scope list_scope.

Section Okt.
  Variable g : grammar.
  Definition okt (a : atom) (e : expr) (t r : text) (ts : list tree) : Prop := exists c, t = c ++ r /\ ok g a e c r ts.
  (** what is skipped between two parts of a rule *)
  Definition skipped (t r : text) : Prop := okt NonAtomic Skip t r [].

  Lemma okt_ok a e c r ts : ok g a e c r ts -> okt a e (c ++ r) r ts.
  Proof. intros H. exists c. auto. Qed.
  Lemma okt_eq a e t r ts ts' : okt a e t r ts -> ts' = ts -> okt a e t r ts'.
  Proof. intros H ->. exact H. Qed.
  Lemma okt_then a x y t t' r t1 t2 : okt a x t t' t1 -> okt a y t' r t2 -> okt a (Then x y) t r (t1 ++ t2).
  Proof. intros [c1 [-> H1]] [c2 [-> H2]]. exists (c1 ++ c2). split; [apply app_assoc|]. apply ok_then; assumption. Qed.
  Lemma okt_seq x y t u t' r t1 t2 : okt NonAtomic x t u t1 -> skipped u t' -> okt NonAtomic y t' r t2 -> okt NonAtomic (Seq x y) t r (t1 ++ t2).
  Proof. intros H1 S H2. eapply okt_then; [exact H1|]. apply (okt_then NonAtomic Skip y u t' r [] t2); assumption. Qed.
  Lemma okt_seq_at a x y t t' r t1 t2 : a <> NonAtomic -> okt a x t t' t1 -> okt a y t' r t2 -> okt a (Seq x y) t r (t1 ++ t2).
  Proof. intros A [c1 [-> H1]] [c2 [-> H2]]. exists (c1 ++ c2). split; [apply app_assoc|]. apply ok_seq_at; assumption. Qed.
  Lemma ko_then2t a x y t t' t1 : okt a x t t' t1 -> ko g a y t' -> ko g a (Then x y) t.
  Proof. intros [c [-> H]] K. eapply ko_then2; eassumption. Qed.
  Lemma ko_seq2 x y t u t' t1 : okt NonAtomic x t u t1 -> skipped u t' -> ko g NonAtomic y t' -> ko g NonAtomic (Seq x y) t.
  Proof. intros H1 S K. eapply ko_then2t; [exact H1|]. eapply ko_then2t; eassumption. Qed.
  Lemma ko_seq2_att a x y t t' t1 : a <> NonAtomic -> okt a x t t' t1 -> ko g a y t' -> ko g a (Seq x y) t.
  Proof. intros A [c1 [-> H1]] K. eapply ko_seq2_at; eassumption. Qed.
  Lemma okt_alt1 a x y t r ts : okt a x t r ts -> okt a (Alt x y) t r ts.
  Proof. intros [c [-> H]]. exists c. split; [reflexivity | apply ok_alt1, H]. Qed.
  Lemma okt_alt2 a x y t r ts : ko g a x t -> okt a y t r ts -> okt a (Alt x y) t r ts.
  Proof. intros K [c [-> H]]. exists c. split; [reflexivity | apply ok_alt2; assumption]. Qed.
  Lemma okt_opt a x t r ts : okt a x t r ts -> okt a (Opt x) t r ts.
  Proof. intros [c [-> H]]. exists c. split; [reflexivity | apply ok_opt, H]. Qed.
  Lemma okt_opt_no a x t : ko g a x t -> okt a (Opt x) t t [].
  Proof. intros K. exists []. split; [reflexivity | apply ok_opt_no, K]. Qed.
  Lemma okt_not a x t : ko g a x t -> okt a (Not x) t t [].
  Proof. intros K. exists []. split; [reflexivity | apply ok_not, K]. Qed.
  Lemma ko_nott a x t r ts : okt a x t r ts -> ko g a (Not x) t.
  Proof. intros [c [-> H]]. eapply ko_not, H. Qed.
  Lemma okt_str a s r : okt a (Str s) (s ++ r) r [].
  Proof. apply okt_ok, ok_str. Qed.
  Lemma okt_many_nil a x r : ko g a x r -> okt a (Many x) r r [].
  Proof. intros K. exists []. split; [reflexivity | apply ok_many_nil, K]. Qed.
  Lemma okt_many_cons a x t t' r t1 t2 : okt a x t t' t1 -> okt a (Many x) t' r t2 -> okt a (Many x) t r (t1 ++ t2).
  Proof. intros [c1 [-> H1]] [c2 [-> H2]]. exists (c1 ++ c2). split; [apply app_assoc | apply ok_many_cons; assumption]. Qed.
  Lemma okt_star_nil a x r : ko g a x r -> okt a (Star x) r r [].
  Proof. intros K. apply okt_opt_no, ko_then1, K. Qed.
  Lemma okt_silent a n e t r ts : get n g = Some (KSilent, e) -> body_atom n KSilent a = a -> okt a e t r ts -> okt a (Call n) t r ts.
  Proof. intros E B [c [-> H]]. exists c. split; [reflexivity|]. apply (ok_call g a n KSilent e c r ts E). rewrite B. exact H. Qed.
  Lemma okt_normal n e : get n g = Some (KNormal, e) -> body_atom n KNormal NonAtomic = NonAtomic -> forall t r ts, okt NonAtomic e t r ts ->
    exists c, t = c ++ r /\ okt NonAtomic (Call n) t r [T n c ts].
  Proof. intros E B t r ts [c [-> H]]. exists c. split; [reflexivity|]. exists c. split; [reflexivity|]. apply (ok_call g NonAtomic n KNormal e c r ts E). rewrite B. exact H. Qed.
  Lemma okt_compound n e : get n g = Some (KCompound, e) -> forall a t r ts, okt Compound e t r ts ->
    exists c, t = c ++ r /\ okt a (Call n) t r [T n c ts].
  Proof. intros E a t r ts [c [-> H]]. exists c. split; [reflexivity|]. exists c. split; [reflexivity|]. apply (ok_call g a n KCompound e c r ts E). exact H. Qed.
  Lemma tok a n e w r : a <> Atomic -> get n g = Some (KAtomic, e) -> ok g Atomic e w r [] -> okt a (Call n) (w ++ r) r [T n w []].
  Proof.
    intros A E H. apply okt_ok. pose proof (ok_call g a n KAtomic e w r [] E H) as O. destruct a; try exact O; contradiction A; reflexivity.
  Qed.
  Lemma ko_tok a n e r : get n g = Some (KAtomic, e) -> ko g Atomic e r -> ko g a (Call n) r.
  Proof. intros E H. eapply ko_call; eassumption. Qed.
  Lemma ko_chr a c r : stops (fun x => (x =? c)%N) r -> ko g a (Str [c]) r.
  Proof. intros S. apply (one_chr g a c). exact S. Qed.
  Lemma tok_plus a n x f w r : a <> Atomic -> get n g = Some (KAtomic, Plus x) -> one g Atomic x f -> w <> [] -> Forall (fun c => f c = true) w -> stops f r ->
    okt a (Call n) (w ++ r) r [T n w []].
  Proof. intros A E O W F S. eapply tok; [exact A | exact E|]. eapply ok_plus_one; eauto. discriminate. Qed.

  (** repetitions: every part is read, and what follows is not *)
  Inductive run (e : expr) : text -> text -> list tree -> Prop :=
  | run_nil t : ko g NonAtomic e t -> run e t t []
  | run_cons t u t' r t1 t2 : okt NonAtomic e t u t1 -> skipped u t' -> run e t' r t2 -> run e t r (t1 ++ t2).
  (** the rest may keep what would be skipped *)
  Lemma run_many e t r ts : run e t r ts -> forall u, skipped u t -> exists v, okt NonAtomic (Many (Then Skip e)) u v ts /\ skipped v r.
  Proof.
    intros R. induction R as [t K|t u t' r t1 t2 O S R IH]; intros v0 S0.
    - exists v0. split; [|exact S0]. apply okt_many_nil. eapply ko_then2t; eassumption.
    - destruct (IH u S) as [v [M SV]]. exists v. split; [|exact SV]. eapply okt_many_cons; [|exact M]. apply (okt_then NonAtomic Skip e v0 t u [] t1); assumption.
  Qed.
  Lemma run_star e t r ts : run e t r ts -> skipped r r -> exists v, okt NonAtomic (Star e) t v ts /\ skipped v r.
  Proof.
    intros [t0 K|t0 u t' r0 t1 t2 O S R] SR.
    - exists t0. split; [apply okt_star_nil, K | exact SR].
    - destruct (run_many _ _ _ _ R u S) as [v [M SV]]. exists v. split; [|exact SV]. apply okt_opt. eapply okt_then; eassumption.
  Qed.
  Lemma run_plus e t u t' r t1 ts : okt NonAtomic e t u t1 -> skipped u t' -> run e t' r ts -> skipped r r -> exists v, okt NonAtomic (Plus e) t v (t1 ++ ts) /\ skipped v r.
  Proof.
    intros O S R SR. destruct (run_star e t' r ts R SR) as [v [M SV]]. exists v. split; [|exact SV]. eapply okt_seq; eassumption.
  Qed.
End Okt.

(** ** Line breaks *)
Class broken (g : grammar) := { nl_rule : get "NL" g = Some (KSilent, Plus (Star SPTAB ~~ NEWLINE)) }.
Local Notation EOL := (Star SPTAB ~~ NEWLINE).
Section Breaks.
  Variable g : grammar.
  Context {B0 : broken g}.
  Lemma ko_sptab a c r : is_blank c = false -> ko g a SPTAB (c :: r).
  Proof. intros S. unfold is_blank in S. apply ko_alt; [apply (ko_chr g a 32) | apply (ko_chr g a 9)]; cbn [stops]; lia. Qed.
  Lemma ko_sptab_nil a : ko g a SPTAB [].
  Proof. apply ko_alt; [apply (ko_chr g a 32) | apply (ko_chr g a 9)]; exact I. Qed.
  Lemma newline_ok a nl u : eol nl -> okt g a NEWLINE (nl ++ u) u [].
  Proof. intros [-> | ->]; apply okt_ok; [apply ok_newline_lf | apply ok_newline_crlf]. Qed.
  Lemma nl_ko_nil : ko g Atomic &"NL" [].
  Proof.
    apply (ko_call g Atomic "NL" KSilent (Plus EOL)); [apply nl_rule|]. apply ko_seq1.
    eapply ko_seq2_att; [discriminate | apply okt_star_nil, ko_sptab_nil | apply ko_newline; exact I].
  Qed.
  (** a line end as a lookahead *)
  Lemma at_eol u : (exists v c, u = c ++ v /\ c <> [] /\ okt g Atomic EOL u v []) \/ ko g Atomic EOL u.
  Proof.
    assert (P : exists b u', u = b ++ u' /\ blanks b /\ stops is_blank u').
    { induction u as [|c u [b [u' [-> [B S]]]]]; [exists [], []; repeat constructor|].
      destruct (is_blank c) eqn:C; [exists (c :: b), u'; repeat split; [constructor; assumption | exact S]|]. exists [], (c :: b ++ u'). repeat split; [constructor | exact C]. }
    destruct P as [p [u' [-> [PB PS]]]].
    assert (ST : okt g Atomic (Star SPTAB) (p ++ u') u' []).
    { apply okt_ok. eapply (ok_star_one g Atomic SPTAB (fun x => (x =? 32) || (x =? 9))%N); [discriminate | apply one_sptab | exact PB | exact PS]. }
    assert (NN : (exists n v, u' = n ++ v /\ n <> [] /\ okt g Atomic NEWLINE u' v []) \/ ko g Atomic NEWLINE u').
    { destruct u' as [|c v]; [right; apply ko_newline; exact I|]. destruct (is_nl c) eqn:C; [left | right; apply ko_newline; exact C].
      unfold is_nl in C. apply orb_prop in C. destruct C as [C|C]; apply N.eqb_eq in C; subst c.
      - exists [10%N], v. repeat split; [discriminate|]. apply (okt_ok g Atomic NEWLINE [10%N]), ok_newline_lf.
      - destruct v as [|d v]; [exists [13%N], []; repeat split; [discriminate|]; apply (okt_ok g Atomic NEWLINE [13%N]), ok_newline_cr; discriminate|].
        destruct (N.eq_dec d 10) as [->|N].
        + exists [13; 10]%N, v. repeat split; [discriminate|]. apply (okt_ok g Atomic NEWLINE [13; 10]%N), ok_newline_crlf.
        + exists [13%N], (d :: v). repeat split; [discriminate|]. apply (okt_ok g Atomic NEWLINE [13%N]), ok_newline_cr. intros r' Q. injection Q as -> _. contradiction N. reflexivity. }
    destruct NN as [[n [v [-> [NE O]]]]|K].
    - left. exists v, (p ++ n). split; [apply app_assoc|]. split; [destruct p; [exact NE | discriminate]|].
      apply (okt_seq_at g Atomic _ _ _ _ v [] [] ltac:(discriminate) ST O).
    - right. eapply ko_seq2_att; [discriminate | exact ST | exact K].
  Qed.
  Lemma many_eol m : forall u, (Datatypes.length u <= m)%nat -> exists v, okt g Atomic (Many (Then Skip EOL)) u v [].
  Proof.
    induction m as [|m IH]; intros u LE.
    - destruct u; [|cbn in LE; lia]. exists []. apply okt_many_nil. apply (ko_then2 g Atomic Skip _ [] [] []); [apply ok_skip_atomic; discriminate|].
      destruct (at_eol []) as [[v [c [Q [NE _]]]]|K]; [destruct c; [congruence | discriminate] | exact K].
    - destruct (at_eol u) as [[v [c [Q [NE O]]]]|K].
      + destruct (IH v) as [w W]. { subst u. rewrite app_length in LE. destruct c; [congruence|]. cbn in LE. lia. }
        exists w. apply (okt_many_cons g Atomic _ u v w [] []); [|exact W]. apply (okt_then g Atomic Skip _ u u v [] []); [|exact O].
        exists []. split; [reflexivity | apply ok_skip_atomic; discriminate].
      + exists u. apply okt_many_nil. apply (ko_then2 g Atomic Skip _ [] u []); [apply ok_skip_atomic; discriminate | exact K].
  Qed.
  Lemma nl_seen b nl r : blanks b -> eol nl -> exists u, okt g Atomic &"NL" (b ++ nl ++ r) u [].
  Proof.
    intros B E.
    assert (X : okt g Atomic EOL (b ++ nl ++ r) r []).
    { apply (okt_seq_at g Atomic (Star SPTAB) NEWLINE _ (nl ++ r) r [] []); [discriminate | | apply newline_ok, E].
      apply okt_ok. eapply (ok_star_one g Atomic SPTAB (fun x => (x =? 32) || (x =? 9))%N); [discriminate | apply one_sptab | exact B |].
      destruct E as [-> | ->]; reflexivity. }
    assert (Z : exists u, okt g Atomic (Star EOL) r u []).
    { destruct (at_eol r) as [[v [c [_ [_ O]]]]|K]; [|exists r; apply okt_star_nil, K].
      destruct (many_eol (Datatypes.length v) v (le_n _)) as [w W]. exists w. apply okt_opt. apply (okt_then g Atomic _ _ r v w [] []); assumption. }
    destruct Z as [u Z]. exists u. apply (okt_silent g Atomic "NL" _ _ u [] nl_rule eq_refl). apply (okt_seq_at g Atomic _ _ _ r u [] []); [discriminate | exact X | exact Z].
  Qed.
  (** text up to a delimiter or the end of the line *)
  Definition ends (f : N -> bool) (r : text) : Prop :=
    r = [] \/ (exists c r', r = c :: r' /\ f c = true) \/ (exists b nl r', r = b ++ nl ++ r' /\ blanks b /\ eol nl).
  Lemma until_ko x f r : one g Atomic x f -> ends f r -> ko g Atomic (until (&"NL" // x)) r.
  Proof.
    intros [O1 O2] [-> |[[c [r' [-> C]]]|[b [nl [r' [-> [B E]]]]]]].
    - eapply (ko_seq2_at g Atomic (Not _) ANY [] [] []); [discriminate | apply ok_not, ko_alt; [|apply O2; exact I] | apply ko_sat; exact I].
      apply nl_ko_nil.
    - apply ko_seq1. destruct (at_eol (c :: r')) as [[v [d [Q [NE O]]]]|K].
      + assert (S : exists u, okt g Atomic &"NL" (c :: r') u []).
        { destruct (at_eol v) as [[v' [d' [_ [_ O']]]]|K].
          - destruct (many_eol (Datatypes.length v') v' (le_n _)) as [w W]. exists w. apply (okt_silent g Atomic "NL" _ _ w [] nl_rule eq_refl).
            apply (okt_seq_at g Atomic _ _ _ v w [] []); [discriminate | exact O|]. apply okt_opt. apply (okt_then g Atomic _ _ v v' w [] []); assumption.
          - exists v. apply (okt_silent g Atomic "NL" _ _ v [] nl_rule eq_refl). apply (okt_seq_at g Atomic _ _ _ v v [] []); [discriminate | exact O|]. apply okt_star_nil, K. }
        destruct S as [u S]. eapply ko_nott, okt_alt1, S.
      + eapply ko_nott. apply okt_alt2; [|apply (okt_ok g Atomic x [c] r'), O1, C].
        apply (ko_call g Atomic "NL" KSilent (Plus EOL)); [apply nl_rule|]. apply ko_seq1, K.
    - apply ko_seq1. destruct (nl_seen b nl r' B E) as [u O]. eapply ko_nott, okt_alt1, O.
  Qed.
  Lemma blank_inside c v r : Forall (fun c => c <> 10%N /\ c <> 13%N) (c :: v) -> (forall v' d, c :: v = v' ++ [d] -> is_blank d = false) -> ko g Atomic &"NL" ((c :: v) ++ r).
  Proof.
    intros F T. apply (ko_call g Atomic "NL" KSilent (Plus EOL)); [apply nl_rule|]. apply ko_seq1.
    assert (P : exists b d v', c :: v = b ++ d :: v' /\ blanks b /\ is_blank d = false).
    { clear F. revert c T. induction v as [|d v IH]; intros c T.
      - exists [], c, []. repeat split; [constructor|]. apply (T [] c). reflexivity.
      - destruct (is_blank c) eqn:C; [|exists [], c, (d :: v); repeat split; [constructor | exact C]].
        destruct (IH d) as [b [e [v' [E [B D]]]]]. { intros v' x E. apply (T (c :: v') x). rewrite E. reflexivity. }
        exists (c :: b), e, v'. rewrite E. repeat split; [constructor; assumption | exact D]. }
    destruct P as [b [d [v' [E [B D]]]]]. rewrite E in *. rewrite <- app_assoc.
    apply (ko_seq2_att g Atomic _ _ _ (d :: v' ++ r) []); [discriminate| |].
    - apply okt_ok. eapply (ok_star_one g Atomic SPTAB (fun x => (x =? 32) || (x =? 9))%N); [discriminate | apply one_sptab | exact B | exact D].
    - apply ko_newline. apply Forall_elt in F. cbn [stops]. unfold is_nl. lia.
  Qed.
  Lemma delimited x f w r : one g Atomic x f -> Forall (fun c => f c = false /\ c <> 10 /\ c <> 13)%N w -> trimmed w -> ends f r ->
    ok g Atomic (Star (until (&"NL" // x))) w r [].
  Proof.
    intros O F [_ T] E. pose proof (until_ko x f r O E) as K.
    assert (GO : forall c v, Forall (fun c => f c = false /\ c <> 10 /\ c <> 13)%N (c :: v) -> (forall v' d, c :: v = v' ++ [d] -> is_blank d = false) ->
      ok g Atomic (until (&"NL" // x)) [c] (v ++ r) []).
    { intros c v F' T'. apply (ok_seq_at g Atomic (Not _) ANY [] [c] (v ++ r) [] []); [discriminate | | apply ok_sat; reflexivity].
      apply ok_not, ko_alt; [apply (blank_inside c v r); [|exact T'] | apply (proj2 O)]; [|inversion F' as [|? ? [X _] _]; exact X].
      eapply Forall_impl; [|exact F']. intros d [_ D]. exact D. }
    destruct w as [|c w]; [apply ok_star_nil, K|]. apply ok_opt. apply (ok_then g Atomic _ _ [c] w r [] []); [apply GO; assumption|].
    assert (F' : Forall (fun c => f c = false /\ c <> 10 /\ c <> 13)%N w) by (inversion F; assumption).
    assert (T' : forall v' d, w = v' ++ [d] -> is_blank d = false) by (intros v' d X; apply (T (c :: v') d); rewrite X; reflexivity).
    clear F T. induction w as [|d w IH].
    - apply ok_many_nil. apply (ko_then2 g Atomic Skip _ [] r []); [apply ok_skip_atomic; discriminate | exact K].
    - apply (ok_many_cons g Atomic _ [d] w r [] []).
      + apply (ok_then g Atomic Skip _ [] [d] (w ++ r) [] []); [apply ok_skip_atomic; discriminate | apply GO; assumption].
      + apply IH; [inversion F'; assumption|]. intros v' e X. apply (T' (d :: v') e). rewrite X. reflexivity.
  Qed.
  (** ** Tokens *)
  Lemma field_tok a w r : a <> Atomic -> get "colon_delimited_text" g = Some (KAtomic, Star (until (&"NL" // str ":"))) -> field 58 w -> ends (fun c => c =? 58)%N r ->
    okt g a &"colon_delimited_text" (w ++ r) r [T "colon_delimited_text" w []].
  Proof.
    intros A E [F T] N. eapply tok; [exact A | exact E|]. apply (delimited _ (fun c => c =? 58)%N); [apply one_chr| |exact T | exact N].
    eapply Forall_impl; [|exact F]. intros c. cbn beta. lia.
  Qed.
  Lemma digits_plus a s r : a <> NonAtomic -> SpecText.digits s -> stops is_digit r -> ok g a (Plus ASCII_DIGIT) s r [].
  Proof. intros A [N F] S. apply ok_plus_sat; assumption. Qed.
  Definition number_stop (c : N) : bool := is_digit c || (c =? 46)%N.
  Lemma stops_number r : stops number_stop r -> stops is_digit r /\ stops (fun c => (c =? 46)%N) r.
  Proof. destruct r as [|c r]; [auto|]. cbn [stops]. unfold number_stop. intros H. apply orb_false_elim in H. exact H. Qed.
  Lemma unsigned_hd u r : unsigned_numeral u -> exists c w, u ++ r = c :: w /\ number_stop c = true.
  Proof.
    intros [a [N F]|a b F [N F']].
    - destruct a as [|c a]; [congruence|]. inversion F as [|? ? D _]; subst. exists c, (a ++ r). split; [reflexivity|]. unfold number_stop. rewrite D. reflexivity.
    - destruct a as [|c a]; [exists 46%N, (b ++ r); split; reflexivity|]. inversion F as [|? ? D _]; subst. eexists c, _. split; [reflexivity|]. unfold number_stop. rewrite D. reflexivity.
  Qed.
  Lemma sign_ok sg u r : (sg = [] \/ sg = s2t "-" \/ sg = s2t "+") -> (exists c w, u ++ r = c :: w /\ number_stop c = true) ->
    ok g Atomic (Opt (str "-" // str "+")) sg (u ++ r) [].
  Proof.
    intros SG [c [w [E C]]]. destruct SG as [->|[->| ->]]; [|apply ok_opt, ok_alt1, ok_str|apply ok_opt, ok_alt2; [apply ko_str; discriminate | apply ok_str]].
    rewrite E. apply ok_opt_no. unfold number_stop, is_digit in C. apply ko_alt; [apply (ko_chr g Atomic 45) | apply (ko_chr g Atomic 43)]; cbn [stops]; lia.
  Qed.
  Lemma numeral_ok s r : numeral s -> stops number_stop r ->
    ok g Atomic (Opt (str "-" // str "+") ~~ ((Star ASCII_DIGIT ~~ str "." ~~ Plus ASCII_DIGIT) // Plus ASCII_DIGIT)) s r [].
  Proof.
    intros [sg [u [-> [SG U]]]] ST. destruct (stops_number r ST) as [SD SP].
    apply (ok_seq_at g Atomic _ _ sg u r [] []); [discriminate | apply sign_ok; [exact SG | apply unsigned_hd, U] |].
    destruct U as [a D|a b F D].
    - apply ok_alt2; [|apply digits_plus; [discriminate | exact D | exact SD]].
      eapply ko_seq2_at; [discriminate | apply (ok_star_sat g Atomic is_digit a r); [discriminate | apply D | exact SD]|].
      apply ko_seq1, (ko_chr g Atomic 46 r), SP.
    - apply ok_alt1. apply (ok_seq_at g Atomic _ _ a _ r [] []); [discriminate | apply ok_star_sat; [discriminate | exact F | reflexivity] |].
      apply (ok_seq_at g Atomic _ _ (s2t ".") b r [] []); [discriminate | apply ok_str | apply digits_plus; [discriminate | exact D | exact SD]].
  Qed.
  Lemma whole_ok s r : whole s -> stops is_digit r -> ok g Atomic (Opt (str "-" // str "+") ~~ Plus ASCII_DIGIT) s r [].
  Proof.
    intros [sg [u [-> [SG U]]]] SD. apply (ok_seq_at g Atomic _ _ sg u r [] []); [discriminate| |apply digits_plus; [discriminate | exact U | exact SD]].
    apply sign_ok; [exact SG|]. apply unsigned_hd. constructor. exact U.
  Qed.
  Lemma integer_tok a s r : a <> Atomic -> get "integer" g = Some (KAtomic, Opt (str "-" // str "+") ~~ Plus ASCII_DIGIT) -> whole s -> stops is_digit r ->
    okt g a &"integer" (s ++ r) r [T "integer" s []].
  Proof. intros A E W S. eapply tok; [exact A | exact E | apply whole_ok; assumption]. Qed.
  Lemma decimal_tok a s r : a <> Atomic -> get "decimal" g = Some (KAtomic, Opt (str "-" // str "+") ~~ ((Star ASCII_DIGIT ~~ str "." ~~ Plus ASCII_DIGIT) // Plus ASCII_DIGIT)) ->
    numeral s -> stops number_stop r -> okt g a &"decimal" (s ++ r) r [T "decimal" s []].
  Proof. intros A E N S. eapply tok; [exact A | exact E | apply numeral_ok; assumption]. Qed.

End Breaks.

(** ** Files of lines *)
Class lined (g : grammar) := {
  sp : N -> bool;
  heads : list text;
  skip_spaces : forall b r, Forall (fun c => sp c = true) b -> stops sp r -> (forall h r', In h heads -> r <> h ++ r') -> ok g NonAtomic Skip b r [];
  skip_remark : forall b h c r, Forall (fun c => sp c = true) b -> In h heads -> in_line c -> stops (fun x => negb (is_nl x)) r -> ok g NonAtomic Skip (b ++ h ++ c) r [];
  sp_blank : forall c, sp c = true -> is_blank c = true;
  heads_hd : forall h, In h heads -> exists c h', h = c :: h' /\ (c = 59 \/ c = 47)%N;
  lined_breaks :> broken g }.

Section Lines.
  Variable g : grammar.
  Context {L : lined g}.
  Definition spaced (b : text) : Prop := spaces sp b.
  Definition firm (r : text) : Prop := stops sp r /\ forall h r', In h heads -> r <> h ++ r'.
  Definition firmer (r : text) : Prop := firm r /\ stops is_nl r /\ stops is_blank r.
  Lemma firm_char c r : is_blank c = false -> c <> 59%N -> c <> 47%N -> firm (c :: r).
  Proof.
    intros S A B. split; [cbn; destruct (sp c) eqn:E; [|reflexivity]; apply sp_blank in E; congruence|].
    intros h r' I E. destruct (heads_hd h I) as [d [h' [-> D]]]. injection E as -> _. destruct D; congruence.
  Qed.
  Lemma firmer_char c r : is_blank c = false -> is_nl c = false -> c <> 59%N -> c <> 47%N -> firmer (c :: r).
  Proof. intros S N A B. split; [apply firm_char; assumption|]. split; assumption. Qed.
  Lemma firm_nil : firm [].
  Proof. split; [exact I|]. intros h r' I E. destruct (heads_hd h I) as [d [h' [-> D]]]. discriminate. Qed.
  Lemma firmer_nil : firmer [].
  Proof. split; [apply firm_nil | split; exact I]. Qed.
  Lemma firm_line nl r : eol nl -> firm (nl ++ r).
  Proof. intros [-> | ->]; apply firm_char; try reflexivity; discriminate. Qed.
  Lemma skip_firm b r : spaced b -> firm r -> skipped g (b ++ r) r.
  Proof. intros B [S H]. apply okt_ok, skip_spaces; assumption. Qed.
  Lemma skip_none r : firm r -> skipped g r r.
  Proof. intros F. apply (skip_firm [] r); [constructor | exact F]. Qed.
  Lemma okt_seq0 x y t t' r t1 t2 : okt g NonAtomic x t t' t1 -> firm t' -> okt g NonAtomic y t' r t2 -> okt g NonAtomic (Seq x y) t r (t1 ++ t2).
  Proof. intros H F H2. eapply okt_seq; [exact H | apply skip_none, F | exact H2]. Qed.
  Lemma ko_seq0 x y t t' t1 : okt g NonAtomic x t t' t1 -> firm t' -> ko g NonAtomic y t' -> ko g NonAtomic (Seq x y) t.
  Proof. intros H F K. eapply ko_seq2; [exact H | apply skip_none, F | exact K]. Qed.

  (** line breaks: the end of a line and lines without content *)
  Definition void (v : text) : Prop := idle sp heads v.
  Definition voids (k : text) : Prop := idles sp heads k.
  Lemma skip_void v nl r : void v -> eol nl -> skipped g (v ++ nl ++ r) (nl ++ r).
  Proof.
    intros [S|[b [h [c [-> [B [H C]]]]]]] E; [apply skip_firm; [exact S | apply firm_line, E]|].
    apply okt_ok. apply skip_remark; try assumption. destruct E as [-> | ->]; reflexivity.
  Qed.
  Lemma eol_ok nl u : eol nl -> okt g NonAtomic EOL (nl ++ u) u [].
  Proof.
    intros E. apply (okt_seq0 (Star SPTAB) NEWLINE _ (nl ++ u) u [] []); [|apply firm_line, E | apply (newline_ok g), E].
    apply okt_star_nil. destruct E as [-> | ->]; apply (ko_sptab g); reflexivity.
  Qed.
  Lemma eol_ko t : firmer t -> ko g NonAtomic EOL t.
  Proof.
    intros [F [S B]]. eapply ko_seq0; [|exact F | apply ko_newline, S]. apply okt_star_nil. destruct t as [|c t]; [apply (ko_sptab_nil g) | apply (ko_sptab g), B].
  Qed.
  Lemma voids_run k : voids k -> forall b t, spaced b -> firmer t -> exists u, skipped g (k ++ b ++ t) u /\ run g EOL u t [].
  Proof.
    intros V b t B F. induction V as [|v nl k V E K IH].
    - exists t. split; [apply (skip_firm b t); [exact B | apply F] | apply run_nil, eol_ko, F].
    - destruct IH as [u [S R]]. exists (nl ++ k ++ b ++ t). split; [rewrite <- !app_assoc; apply skip_void; assumption|].
      apply (run_cons g EOL _ (k ++ b ++ t) u t [] []); [apply eol_ok, E | exact S | exact R].
  Qed.
  Lemma nl_ok nl k b t : eol nl -> voids k -> spaced b -> firmer t -> exists v, okt g NonAtomic &"NL" (nl ++ k ++ b ++ t) v [] /\ skipped g v t.
  Proof.
    intros E V B F. destruct (voids_run k V b t B F) as [u [S R]].
    destruct (run_plus g EOL (nl ++ k ++ b ++ t) (k ++ b ++ t) u t [] [] (eol_ok nl _ E) S R (skip_none t (proj1 F))) as [v [O SV]].
    exists v. split; [|exact SV]. apply (okt_silent g NonAtomic "NL" _ _ v [] nl_rule eq_refl). exact O.
  Qed.
  Lemma nl_ko a t : stops is_nl t -> stops is_blank t -> (a = NonAtomic -> firm t) -> ko g a &"NL" t.
  Proof.
    intros N B F. apply (ko_call g a "NL" KSilent (Plus EOL)); [apply nl_rule|]. apply ko_seq1. change (body_atom "NL" KSilent a) with a.
    assert (S : okt g a (Star SPTAB) t t []).
    { apply okt_star_nil. destruct t as [|c t]; [apply (ko_sptab_nil g) | apply (ko_sptab g), B]. }
    destruct a; [eapply ko_seq0; [exact S | apply F; reflexivity | apply ko_newline, N] | |]; (eapply ko_seq2_att; [discriminate | exact S | apply ko_newline, N]).
  Qed.
  (** ** Lines *)
  (** [R] is the end of a line, before [N], and the line break; the next content is [t] *)
  Definition line_rest (R N t : text) : Prop :=
    exists b nl k b', R = b ++ N /\ N = nl ++ k ++ b' ++ t /\ spaced b /\ eol nl /\ voids k /\ spaced b' /\ firmer t.
  Lemma rest_skip R N t : line_rest R N t -> skipped g R N.
  Proof. intros [b [nl [k [b' [-> [-> [B [E _]]]]]]]]. apply skip_firm; [exact B | apply firm_line, E]. Qed.
  Lemma rest_here R N t : line_rest R N t -> line_rest N N t.
  Proof. intros [b [nl [k [b' [-> [-> [B [E [V [B' F]]]]]]]]]]. exists [], nl, k, b'. repeat (split; [solve [assumption | reflexivity | constructor]|]). exact F. Qed.
  Lemma rest_firm R N t : line_rest R N t -> firm N.
  Proof. intros [b [nl [k [b' [-> [-> [B [E _]]]]]]]]. apply firm_line, E. Qed.
  Lemma rest_next R N t : line_rest R N t -> firmer t.
  Proof. intros [b [nl [k [b' H]]]]. apply H. Qed.
  Lemma rest_ends R N t f : line_rest R N t -> ends f R.
  Proof.
    intros [b [nl [k [b' [-> [-> [B [E _]]]]]]]]. right. right. exists b, nl, (k ++ b' ++ t). repeat split; try assumption.
    eapply Forall_impl; [|exact B]. intros c. apply sp_blank.
  Qed.
  Lemma rest_hd R N t : line_rest R N t -> exists c R', R = c :: R' /\ (is_blank c = true \/ is_nl c = true).
  Proof.
    intros [b [nl [k [b' [-> [-> [B [E _]]]]]]]]. destruct B as [|c b C B]; [|exists c; eexists; split; [reflexivity | left; apply sp_blank, C]].
    destruct E as [-> | ->]; eexists _, _; (split; [reflexivity | right; reflexivity]).
  Qed.
  Lemma rest_stops R N t f : line_rest R N t -> (forall c, f c = true -> is_blank c = false /\ is_nl c = false) -> stops f R.
  Proof.
    intros L0 F. destruct (rest_hd R N t L0) as [c [R' [-> H]]]. cbn [stops]. destruct (f c) eqn:E; [|reflexivity]. destruct (F c E). destruct H; congruence.
  Qed.
  Lemma rest_nl R N t : line_rest R N t -> exists v, okt g NonAtomic &"NL" N v [] /\ skipped g v t.
  Proof. intros [b [nl [k [b' [-> [-> [B [E [V [B' F]]]]]]]]]]. apply nl_ok; assumption. Qed.
  (** an expression reads (a part of) a line before [t]; [to] says where it stops *)
  Definition reads_at (t : text) (to : text -> text -> Prop) (e : expr) (l : text) (P : list tree -> Prop) : Prop :=
    forall R N, line_rest R N t -> exists v ts, okt g NonAtomic e (l ++ R) v ts /\ to v N /\ P ts.
  Lemma reads_call t to n e l (P Q : list tree -> Prop) : get n g = Some (KNormal, e) -> body_atom n KNormal NonAtomic = NonAtomic ->
    reads_at t to e l P -> (forall c ts, P ts -> Q [T n c ts]) -> reads_at t to (Call n) l Q.
  Proof.
    intros E B H PQ R N L0. destruct (H R N L0) as [v [ts [O [S PT]]]]. destruct (okt_normal g n e E B _ _ _ O) as [c [_ O']].
    exists v, [T n c ts]. split; [exact O'|]. split; [exact S | apply PQ, PT].
  Qed.
  Lemma reads_silent t to n e l P : get n g = Some (KSilent, e) -> body_atom n KSilent NonAtomic = NonAtomic -> reads_at t to e l P -> reads_at t to (Call n) l P.
  Proof.
    intros E B H R N L0. destruct (H R N L0) as [v [ts [O X]]]. exists v, ts. split; [|exact X]. eapply okt_silent; eassumption.
  Qed.
  Lemma reads_alt1 t to x y l P : reads_at t to x l P -> reads_at t to (Alt x y) l P.
  Proof. intros H R N L0. destruct (H R N L0) as [v [ts [O X]]]. exists v, ts. split; [apply okt_alt1, O | exact X]. Qed.
  Lemma reads_alt2 t to x y l P : (forall R N, line_rest R N t -> ko g NonAtomic x (l ++ R)) -> reads_at t to y l P -> reads_at t to (Alt x y) l P.
  Proof. intros K H R N L0. destruct (H R N L0) as [v [ts [O X]]]. exists v, ts. split; [apply okt_alt2; [eapply K, L0 | exact O] | exact X]. Qed.
  Lemma reads_mono t to e l (P Q : list tree -> Prop) : reads_at t to e l P -> (forall ts, P ts -> Q ts) -> reads_at t to e l Q.
  Proof. intros H PQ R N L0. destruct (H R N L0) as [v [ts [O [S X]]]]. exists v, ts. auto. Qed.
  Definition cons_to (t1 : list tree) (P : list tree -> Prop) (ts : list tree) : Prop := exists t2, ts = t1 ++ t2 /\ P t2.
  (** the next part of a line can be read after white space was skipped *)
  Definition opening (c : N) : Prop := sp c = false /\ forall h', ~ In (c :: h') heads.
  Definition opens (l : text) : Prop := match l with [] => True | c :: _ => opening c end.
  Lemma opening_plain c : is_blank c = false -> c <> 59%N -> c <> 47%N -> opening c.
  Proof.
    intros S A B. split; [destruct (sp c) eqn:E; [|reflexivity]; apply sp_blank in E; congruence|].
    intros h' I. destruct (heads_hd _ I) as [d [h'' [E D]]]. injection E as -> _. destruct D; congruence.
  Qed.
  Lemma opens_firm c l : opening c -> firm (c :: l).
  Proof.
    intros [S H]. split; [exact S|]. intros h r' I E. destruct (heads_hd _ I) as [d [h'' [-> D]]]. injection E as -> _. exact (H _ I).
  Qed.
  Lemma opens_app w l : opens w -> opens l -> opens (w ++ l).
  Proof. destruct w; [auto|]. intros O _. exact O. Qed.
  Lemma reads_seq nx to x y w l P t1 : (forall R N t, line_rest R N t -> okt g NonAtomic x (w ++ l ++ R) (l ++ R) t1) -> opens l -> reads_at nx to y l P ->
    reads_at nx to (Seq x y) (w ++ l) (cons_to t1 P).
  Proof.
    intros X O H R N L0. pose proof (X R N nx L0) as OX. rewrite <- app_assoc. destruct l as [|c l].
    - destruct (H N N (rest_here R N nx L0)) as [v [ts [OY [S PT]]]]. exists v, (t1 ++ ts). split; [|unfold cons_to; eauto].
      eapply okt_seq; [exact OX | eapply rest_skip, L0 | exact OY].
    - destruct (H R N L0) as [v [ts [OY [S PT]]]]. exists v, (t1 ++ ts). split; [|unfold cons_to; eauto].
      eapply okt_seq; [exact OX | apply skip_none, opens_firm, O | exact OY].
  Qed.
  Lemma reads_str nx to s y l P : opens l -> reads_at nx to y l P -> reads_at nx to (Str s ~~ y) (s ++ l) P.
  Proof.
    intros O H. eapply reads_mono; [eapply (reads_seq nx to (Str s) y s l P []); [intros; apply okt_str | exact O | exact H]|].
    intros ts [t2 [-> X]]. exact X.
  Qed.
  (** the end of the line *)
  Lemma reads_tok nx x w ts : (forall R N t, line_rest R N t -> okt g NonAtomic x (w ++ R) R ts) -> reads_at nx (skipped g) x w (eq ts).
  Proof. intros X R N L0. exists R, ts. split; [eapply X, L0|]. split; [eapply rest_skip, L0 | reflexivity]. Qed.
  Definition before (t : text) (v N : text) : Prop := skipped g v t.
  Lemma reads_line nx e l P : reads_at nx (skipped g) e l P -> reads_at nx (before nx) (e ~~ &"NL") l P.
  Proof.
    intros H R N L0. destruct (H R N L0) as [v [ts [O [S PT]]]]. destruct (rest_nl R N nx L0) as [w [O' S']]. exists w, ts. split; [|split; assumption].
    eapply okt_eq; [eapply okt_seq; eassumption | rewrite app_nil_r; reflexivity].
  Qed.
  (** the end of a line and what comes after it *)
  Lemma reads_line_then nx (to' : text -> text -> Prop) e l P y v0 ts0 : reads_at nx (skipped g) e l P -> okt g NonAtomic y nx v0 ts0 -> (forall N, to' v0 N) ->
    reads_at nx to' (e ~~ &"NL" ~~ y) l (fun ts => exists t1, ts = t1 ++ ts0 /\ P t1).
  Proof.
    intros H OY T0 R N L0. destruct (H R N L0) as [v [ts [O [S PT]]]]. destruct (rest_nl R N nx L0) as [w [O' S']]. exists v0, (ts ++ ts0).
    split; [|split; [apply T0 | eauto]]. eapply okt_seq; [exact O | exact S|]. apply (okt_seq g _ _ N w nx v0 [] ts0); assumption.
  Qed.

  (** ** Several lines, and what follows them *)
  Inductive lines_to : list text -> text -> text -> Prop :=
  | lines_nil t : firmer t -> lines_to [] t t
  | lines_cons l ls R N t T0 : firmer (l ++ R) -> line_rest R N t -> lines_to ls t T0 -> lines_to (l :: ls) (l ++ R) T0.
  Definition content (l : text) : Prop := exists c v, l = c :: v /\ opening c /\ is_nl c = false /\ is_blank c = false.
  Lemma content_firmer l r : content l -> firmer (l ++ r).
  Proof. intros [c [v [-> [O [N B]]]]]. split; [apply opens_firm, O | split; assumption]. Qed.
  Lemma laid_firmer ls t : Forall content ls -> laid sp heads ls t -> firmer t.
  Proof. intros F H. destruct H as [|l ls b nl k b' t]; [apply firmer_nil|]. inversion F; subst. apply content_firmer. assumption. Qed.
  Lemma laid_split a b t : Forall content (a ++ b) -> laid sp heads (a ++ b) t -> exists T0, lines_to a t T0 /\ laid sp heads b T0.
  Proof.
    revert t. induction a as [|l a IH]; intros t F H.
    - exists t. split; [constructor; eapply laid_firmer; eassumption | exact H].
    - cbn [app] in *. inversion F as [|? ? C F']; subst. inversion H as [|? ? bb nl k b' t' B E K B' H']; subst.
      destruct (IH t' F' H') as [T0 [L0 H0]]. exists T0. split; [|exact H0].
      apply (lines_cons l a _ (nl ++ k ++ b' ++ t') t'); [apply content_firmer, C | |exact L0]. exists bb, nl, k, b'. repeat (split; [solve [reflexivity | assumption]|]). eapply laid_firmer; eassumption.
  Qed.
  Lemma lines_firmer a t T0 : lines_to a t T0 -> firmer T0.
  Proof. induction 1; assumption. Qed.
  Lemma lines_start a t T0 : lines_to a t T0 -> firmer t.
  Proof. intros []; assumption. Qed.
  (** a line for each of [xs] *)
  Lemma lines_run {X} (e : expr) (f : X -> text) (Q : X -> tree -> Prop) xs t T0 :
    Forall (fun x => forall nx, reads_at nx (skipped g) e (f x) (fun ts => exists tr, ts = [tr] /\ Q x tr)) xs ->
    lines_to (map f xs) t T0 -> ko g NonAtomic (e ~~ &"NL") T0 -> exists trs, run g (e ~~ &"NL") t T0 trs /\ Forall2 Q xs trs.
  Proof.
    intros F. revert t. induction F as [|x xs H F IH]; intros t LT K.
    - inversion LT; subst. exists []. split; constructor. exact K.
    - cbn [map] in LT. inversion LT as [|l ls R N u T1 F0 L0 LT']; subst. destruct (IH u LT' K) as [trs [RN FQ]].
      destruct (reads_line u e (f x) _ (H u) R N L0) as [v [ts [O [S [tr [-> QX]]]]]]. exists (tr :: trs). split; [|constructor; assumption].
      apply (run_cons g _ _ v u T0 [tr] trs); assumption.
  Qed.
  Lemma lines_star {X} (e : expr) (f : X -> text) (Q : X -> tree -> Prop) xs t T0 :
    Forall (fun x => forall nx, reads_at nx (skipped g) e (f x) (fun ts => exists tr, ts = [tr] /\ Q x tr)) xs ->
    lines_to (map f xs) t T0 -> ko g NonAtomic (e ~~ &"NL") T0 -> exists v trs, okt g NonAtomic (Star (e ~~ &"NL")) t v trs /\ skipped g v T0 /\ Forall2 Q xs trs.
  Proof.
    intros F LT K. destruct (lines_run e f Q xs t T0 F LT K) as [trs [RN FQ]].
    destruct (run_star g _ t T0 trs RN) as [v [O S]]; [apply skip_none, (lines_firmer _ _ _ LT)|]. exists v, trs. auto.
  Qed.
  Lemma lines_plus {X} (e : expr) (f : X -> text) (Q : X -> tree -> Prop) xs t T0 : xs <> [] ->
    Forall (fun x => forall nx, reads_at nx (skipped g) e (f x) (fun ts => exists tr, ts = [tr] /\ Q x tr)) xs ->
    lines_to (map f xs) t T0 -> ko g NonAtomic (e ~~ &"NL") T0 -> exists v trs, okt g NonAtomic (Plus (e ~~ &"NL")) t v trs /\ skipped g v T0 /\ Forall2 Q xs trs.
  Proof.
    intros NE F LT K. destruct F as [|x xs H F]; [congruence|]. cbn [map] in LT. inversion LT as [|l ls R N u T1 F0 L0 LT']; subst.
    destruct (lines_run e f Q xs u T0 F LT' K) as [trs [RN FQ]].
    destruct (reads_line u e (f x) _ (H u) R N L0) as [v [ts [O [S [tr [-> QX]]]]]].
    destruct (run_plus g _ _ v u T0 [tr] trs O S RN) as [w [O' S']]; [apply skip_none, (lines_firmer _ _ _ LT)|]. exists w, (tr :: trs). auto.
  Qed.
  (** entries of several lines *)
  Lemma lines_app a b t T0 : lines_to (a ++ b) t T0 -> exists u, lines_to a t u /\ lines_to b u T0.
  Proof.
    revert t. induction a as [|l a IH]; intros t LT; cbn [app] in LT.
    - exists t. split; [|exact LT]. constructor. eapply lines_start, LT.
    - inversion LT as [|? ? R N u T1 F0 L0 LT']; subst. destruct (IH u LT') as [w [A B]]. exists w. split; [|exact B]. eapply lines_cons; eassumption.
  Qed.
  Lemma entries_run {X} (e : expr) (f : X -> list text) (fresh : text -> Prop) (Q : X -> tree -> Prop) xs t T0 :
    Forall (fun x => forall t T0, lines_to (f x) t T0 -> fresh T0 -> exists v tr, okt g NonAtomic e t v [tr] /\ skipped g v T0 /\ Q x tr) xs ->
    Forall (fun x => forall t T0, lines_to (f x) t T0 -> fresh t) xs ->
    lines_to (flat_map f xs) t T0 -> fresh T0 -> ko g NonAtomic e T0 -> fresh t /\ exists trs, run g e t T0 trs /\ Forall2 Q xs trs.
  Proof.
    intros F. revert t. induction F as [|x xs H F IH]; intros t FR LT FT K.
    - cbn [flat_map] in LT. inversion LT; subst. split; [exact FT|]. exists []. split; constructor. exact K.
    - inversion FR as [|? ? FX FR']; subst. cbn [flat_map] in LT. destruct (lines_app _ _ _ _ LT) as [u [A B]].
      destruct (IH u FR' B FT K) as [FU [trs [RN FQ]]]. destruct (H t u A FU) as [v [tr [O [S QX]]]]. split; [eapply FX, A|].
      exists (tr :: trs). split; [|constructor; assumption]. apply (run_cons g e t v u T0 [tr] trs); assumption.
  Qed.
  (** ** Whole files *)
  Lemma start_ok k b t y r ts : voids k -> spaced b -> firmer t -> okt g NonAtomic y t r ts -> okt g NonAtomic (Then Skip (Opt &"NL" ~~ y)) (k ++ b ++ t) r ts.
  Proof.
    intros V B F O. destruct V as [|v nl k V E K].
    - apply (okt_then g NonAtomic Skip _ _ t r [] ts); [apply (skip_firm b t); [exact B | apply F]|].
      apply (okt_seq0 (Opt &"NL") y t t r [] ts); [apply okt_opt_no, nl_ko; [apply F | apply F | intros _; apply F] | apply F | exact O].
    - apply (okt_then g NonAtomic Skip _ _ (nl ++ k ++ b ++ t) r [] ts); [rewrite <- !app_assoc; apply skip_void; assumption|].
      destruct (nl_ok nl k b t E K B F) as [w [OW SW]]. apply (okt_seq g (Opt &"NL") y _ w t r [] ts); [apply okt_opt, OW | exact SW | exact O].
  Qed.
  Lemma file_top start y t t' ts : get start g = Some (KNormal, SOI ~~ Opt &"NL" ~~ y) -> body_atom start KNormal NonAtomic = NonAtomic -> checks g start = true ->
    (exists k b, t = k ++ b ++ t' /\ voids k /\ spaced b) -> firmer t' -> okt g NonAtomic y t' [] ts -> top g start t = Ret ts.
  Proof.
    intros E BA C [k [b [-> [V B]]]] F O. destruct (start_ok k b t' y [] ts V B F O) as [c [EC M]]. rewrite app_nil_r in EC. subst c.
    unfold top, pairs. rewrite (parse_matches g start _ (k ++ b ++ t') [] [] [T start (k ++ b ++ t') ts]); [reflexivity | exact C|].
    apply (m_call g NonAtomic start KNormal _ true _ [] (Some (k ++ b ++ t', [], [], ts)) E). rewrite BA.
    pose proof (ok_soi_seq g _ _ _ _ M []) as X. rewrite app_nil_r in X. exact X.
  Qed.
End Lines.
