(** Fields with colons between them, in any grammar with lines (C80). *)
From Coq Require Import ZifyBool ZifyN ZifyNat.
From Verif Require Import Base Num Peg Grammars SpecPeg PegProofs PegLang PegForward PegSkip Trees SpecText TextProofs SpecFields FileForward.
Local Open Scope string_scope.
Local Open Scope list_scope.

Definition ctree (w : text) : tree := T "colon_delimited_text" w [].
Definition itree (w : text) : tree := T "integer" w [].
Definition dtree (w : text) : tree := T "decimal" w [].
Lemma whole_numeral w : whole w -> numeral w.
Proof. intros [sg [u [-> [SG U]]]]. exists sg, u. repeat split; auto. constructor. exact U. Qed.
Lemma int_stop c : is_digit c = true -> is_blank c = false /\ is_nl c = false /\ c <> 58%N.
Proof. unfold is_digit, is_blank, is_nl. lia. Qed.
Lemma num_stop c : number_stop c = true -> is_blank c = false /\ is_nl c = false /\ c <> 58%N.
Proof. unfold number_stop, is_digit, is_blank, is_nl. lia. Qed.

Section Colon.
  Variable g : grammar.
  Context {L : lined g}.
  Hypothesis CT : get "colon_delimited_text" g = Some (KAtomic, Star (until (&"NL" // str ":"))).
  Hypothesis INT : get "integer" g = Some (KAtomic, Opt (str "-" // str "+") ~~ Plus ASCII_DIGIT).
  Hypothesis DEC : get "decimal" g = Some (KAtomic, Opt (str "-" // str "+") ~~ ((Star ASCII_DIGIT ~~ str "." ~~ Plus ASCII_DIGIT) // Plus ASCII_DIGIT)).
  Definition colon_bound (l : text) : Prop := l = [] \/ exists l', l = s2t ":" ++ l'.
  Lemma colon_here l : colon_bound (s2t ":" ++ l).
  Proof. right. eauto. Qed.
  Lemma colon_none : colon_bound [].
  Proof. left. reflexivity. Qed.
  Lemma colon_opens l : opens g (s2t ":" ++ l).
  Proof. apply (opening_plain g); [reflexivity | discriminate | discriminate]. Qed.
  Lemma cb_opens l : colon_bound l -> opens g l.
  Proof. intros [-> |[l' ->]]; [exact I | apply colon_opens]. Qed.
  Lemma cb_ends l R N t : colon_bound l -> line_rest g R N t -> ends (fun c => c =? 58)%N (l ++ R).
  Proof. intros [-> |[l' ->]] L0; [eapply rest_ends, L0|]. right. left. exists 58%N. eexists. split; [reflexivity | reflexivity]. Qed.
  Lemma cb_stops f l R N t : colon_bound l -> line_rest g R N t -> (forall c, f c = true -> is_blank c = false /\ is_nl c = false /\ c <> 58%N) -> stops f (l ++ R).
  Proof.
    intros [-> |[l' ->]] L0 F; [eapply (rest_stops g); [exact L0|]; intros c E; destruct (F c E) as [A [B _]]; auto|].
    cbn. destruct (f 58%N) eqn:E; [|reflexivity]. destruct (F _ E) as [_ [_ X]]. congruence.
  Qed.
  Lemma ct_ok w l R N t : field 58 w -> colon_bound l -> line_rest g R N t -> okt g NonAtomic &"colon_delimited_text" (w ++ l ++ R) (l ++ R) [ctree w].
  Proof. intros W B L0. apply (field_tok g); [discriminate | exact CT | exact W | eapply cb_ends; eassumption]. Qed.
  Lemma ct_seq nx to y w l P : field 58 w -> colon_bound l -> reads_at g nx to y l P -> reads_at g nx to (&"colon_delimited_text" ~~ y) (w ++ l) (cons_to [ctree w] P).
  Proof. intros W B H. apply reads_seq; [intros R N t L0; eapply ct_ok; eassumption | apply cb_opens, B | exact H]. Qed.
  Lemma ct_end nx w : field 58 w -> reads_at g nx (skipped g) &"colon_delimited_text" w (eq [ctree w]).
  Proof. intros W. apply reads_tok. intros R N t L0. apply (ct_ok w [] R N t); [exact W | apply colon_none | exact L0]. Qed.
  Lemma colon_seq nx to y l P : opens g l -> reads_at g nx to y l P -> reads_at g nx to (str ":" ~~ y) (s2t ":" ++ l) P.
  Proof. apply reads_str. Qed.
  Lemma int_ok w l R N t : whole w -> colon_bound l -> line_rest g R N t -> okt g NonAtomic &"integer" (w ++ l ++ R) (l ++ R) [itree w].
  Proof. intros W B L0. apply (integer_tok g); [discriminate | exact INT | exact W | eapply cb_stops; try eassumption; apply int_stop]. Qed.
  Lemma int_seq nx to y w l P : whole w -> colon_bound l -> reads_at g nx to y l P -> reads_at g nx to (&"integer" ~~ y) (w ++ l) (cons_to [itree w] P).
  Proof. intros W B H. apply reads_seq; [intros R N t L0; eapply int_ok; eassumption | apply cb_opens, B | exact H]. Qed.
  Lemma int_end nx w : whole w -> reads_at g nx (skipped g) &"integer" w (eq [itree w]).
  Proof. intros W. apply reads_tok. intros R N t L0. apply (int_ok w [] R N t); [exact W | apply colon_none | exact L0]. Qed.
  Lemma dec_ok w l R N t : numeral w -> colon_bound l -> line_rest g R N t -> okt g NonAtomic &"decimal" (w ++ l ++ R) (l ++ R) [dtree w].
  Proof. intros W B L0. apply (decimal_tok g); [discriminate | exact DEC | exact W | eapply cb_stops; try eassumption; apply num_stop]. Qed.
  Lemma dec_seq nx to y w l P : numeral w -> colon_bound l -> reads_at g nx to y l P -> reads_at g nx to (&"decimal" ~~ y) (w ++ l) (cons_to [dtree w] P).
  Proof. intros W B H. apply reads_seq; [intros R N t L0; eapply dec_ok; eassumption | apply cb_opens, B | exact H]. Qed.
  Lemma dec_end nx w : numeral w -> reads_at g nx (skipped g) &"decimal" w (eq [dtree w]).
  Proof. intros W. apply reads_tok. intros R N t L0. apply (dec_ok w [] R N t); [exact W | apply colon_none | exact L0]. Qed.
  Lemma numeral_opens w l : numeral w -> opens g (w ++ l).
  Proof.
    intros [sg [u [-> [SG U]]]]. rewrite <- app_assoc. destruct SG as [->|[->| ->]]; [|apply (opening_plain g); [reflexivity | discriminate | discriminate]..].
    destruct (unsigned_hd u l U) as [c [v [E C]]]. cbn [app]. rewrite E. unfold number_stop, is_digit in C. apply (opening_plain g); unfold is_blank; lia.
  Qed.
  Lemma reads_line_opt' nx e l P : reads_at g nx (skipped g) e l P -> reads_at g nx (before g nx) (e ~~ Opt &"NL") l P.
  Proof.
    intros H R N L0. destruct (H R N L0) as [v [ts [O [S PT]]]]. destruct (rest_nl g R N nx L0) as [w [O' S']]. exists w, ts. split; [|split; assumption].
    eapply okt_eq; [eapply okt_seq; [exact O | exact S | apply okt_opt, O'] | rewrite app_nil_r; reflexivity].
  Qed.
  (** no number starts here *)
  Definition unnumbered (c : N) : Prop := number_stop c = false /\ c <> 43%N /\ c <> 45%N.
  Lemma number_ko c r : unnumbered c -> ko g Atomic (Opt (str "-" // str "+") ~~ ((Star ASCII_DIGIT ~~ str "." ~~ Plus ASCII_DIGIT) // Plus ASCII_DIGIT)) (c :: r)
    /\ ko g Atomic (Opt (str "-" // str "+") ~~ Plus ASCII_DIGIT) (c :: r).
  Proof.
    intros [A [B C]]. unfold number_stop in A. apply orb_false_elim in A. destruct A as [A A'].
    assert (O : okt g Atomic (Opt (str "-" // str "+")) (c :: r) (c :: r) []).
    { apply okt_opt_no. apply ko_alt; [apply (FileForward.ko_chr g Atomic 45) | apply (FileForward.ko_chr g Atomic 43)]; cbn [stops]; lia. }
    assert (K : ko g Atomic ASCII_DIGIT (c :: r)) by (apply ko_sat; exact A).
    split; (eapply ko_seq2_att; [discriminate | exact O|]); [|apply ko_seq1, K].
    apply ko_alt; [|apply ko_seq1, K]. eapply ko_seq2_att; [discriminate | apply okt_star_nil, K|]. apply ko_seq1, (FileForward.ko_chr g Atomic 46). cbn [stops]. lia.
  Qed.
  Lemma decimal_ko a c r : unnumbered c -> ko g a &"decimal" (c :: r).
  Proof. intros U. eapply ko_tok; [exact DEC | apply number_ko, U]. Qed.
  Lemma integer_ko a c r : unnumbered c -> ko g a &"integer" (c :: r).
  Proof. intros U. eapply ko_tok; [exact INT | apply number_ko, U]. Qed.
  (** a line for each of [xs], with its end *)
  Lemma closed_lines_run {X} (e : expr) (f : X -> text) (Q : X -> tree -> Prop) xs t T0 :
    Forall (fun x => forall nx, reads_at g nx (before g nx) e (f x) (fun ts => exists tr, ts = [tr] /\ Q x tr)) xs ->
    lines_to g (map f xs) t T0 -> ko g NonAtomic e T0 -> exists trs, run g e t T0 trs /\ Forall2 Q xs trs.
  Proof.
    intros F. revert t. induction F as [|x xs H F IH]; intros t LT K.
    - inversion LT; subst. exists []. split; constructor. exact K.
    - cbn [map] in LT. inversion LT as [|l ls R N u T1 F0 L0 LT']; subst. destruct (IH u LT' K) as [trs [RN FQ]].
      destruct (H u R N L0) as [v [ts [O [S [tr [-> QX]]]]]]. exists (tr :: trs). split; [|constructor; assumption].
      apply (run_cons g _ _ v u T0 [tr] trs); assumption.
  Qed.
  Lemma run_plus_ne e t r ts : run g e t r ts -> ts <> [] -> skipped g r r -> exists v, okt g NonAtomic (Plus e) t v ts /\ skipped g v r.
  Proof. intros [t0 K|t0 u t' r0 t1 t2 O S R] NE SR; [congruence|]. eapply run_plus; eassumption. Qed.
  Lemma closed_lines_plus {X} (e : expr) (f : X -> text) (Q : X -> tree -> Prop) xs t T0 : xs <> [] ->
    Forall (fun x => forall nx, reads_at g nx (before g nx) e (f x) (fun ts => exists tr, ts = [tr] /\ Q x tr)) xs ->
    lines_to g (map f xs) t T0 -> ko g NonAtomic e T0 -> exists v trs, okt g NonAtomic (Plus e) t v trs /\ skipped g v T0 /\ Forall2 Q xs trs.
  Proof.
    intros NE F LT K. destruct (closed_lines_run e f Q xs t T0 F LT K) as [trs [RN FQ]].
    destruct (run_plus_ne e t T0 trs RN) as [v [O S]]; [intros ->; inversion FQ; subst; congruence | apply (skip_none g), (lines_firmer g _ _ _ LT) | exists v, trs; auto].
  Qed.
  (** a fixed line, its end and what follows *)
  Lemma str_line_then s y R N u v ts : line_rest g R N u -> okt g NonAtomic y u v ts -> okt g NonAtomic (Str s ~~ &"NL" ~~ y) (s ++ R) v ts.
  Proof.
    intros L0 O. destruct (rest_nl g R N u L0) as [w [O' S']]. apply (okt_seq g (Str s) _ _ R N v [] ts); [apply okt_str | eapply (rest_skip g), L0|].
    apply (okt_seq g _ _ N w u v [] ts); assumption.
  Qed.
End Colon.
