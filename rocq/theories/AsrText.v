(** Proofs for C81: the pairs of a written .asr file. *)
From Coq Require Import ZifyBool ZifyN ZifyNat.
From Verif Require Import Base Num Peg Grammars SpecPeg PegProofs PegLang PegForward PegSkip Trees SpecText TextProofs SpecPairs SpecFields FileForward SpecAsrText.
Local Open Scope string_scope.
Local Open Scope list_scope.

Local Notation G := asr_grammar.

(** ** What is skipped *)
Definition clear (t : text) : Prop := forall r, t <> 59%N :: r.
Lemma skip_is : SpecPeg.skipped G (Many (Call "COMMENT")).
Proof. apply skipped_comment; [apply get_None; reflexivity | unfold defined; eapply get_Some_key; reflexivity]. Qed.
Lemma ok_skip c r : ok G NonAtomic (Many (Call "COMMENT")) c r [] -> ok G NonAtomic Skip c r [].
Proof. intros H b k. eapply m_skip; [apply skip_is | apply H]. Qed.
Lemma comment_ko a t : clear t -> ko G a (Call "COMMENT") t.
Proof.
  intros C. eapply ko_call; [reflexivity|]. apply ko_seq1, (ko_chr G _ 59). destruct t as [|c t]; [exact I|]. cbn [stops]. destruct (N.eqb_spec c 59) as [->|]; [contradiction (C t eq_refl) | reflexivity].
Qed.
Lemma skip_clear t : clear t -> skipped G t t.
Proof. intros C. exists []. split; [reflexivity|]. apply ok_skip, ok_many_nil, comment_ko, C. Qed.
Lemma newline_ok a nl u : eol nl -> okt G a NEWLINE (nl ++ u) u [].
Proof. intros [-> | ->]; apply okt_ok; [apply ok_newline_lf | apply ok_newline_crlf]. Qed.
Lemma clear_eol nl u : eol nl -> clear (nl ++ u).
Proof. intros [-> | ->] r E; discriminate E. Qed.

(** a text of content: it does not start with a line break nor with a remark *)
Definition solid (t : text) : Prop := clear t /\ stops is_nl t.
Local Notation voids := (idles (fun _ : N => false) [s2t ";"]).
Lemma no_spaces b : spaces (fun _ : N => false) b -> b = [].
Proof. intros S. destruct S as [|c b H _]; [reflexivity | discriminate H]. Qed.
Lemma idle_cases v : idle (fun _ : N => false) [s2t ";"] v -> v = [] \/ exists c, v = s2t ";" ++ c /\ in_line c.
Proof.
  intros [S|[b [h [c [-> [B [[<-|[]] C]]]]]]]; [left; apply no_spaces, S | right]. apply no_spaces in B. subst b. exists c. auto.
Qed.
Lemma okt_many_skip_cons x t t' r : okt G Atomic x t t' [] -> okt G Atomic (Many (Then Skip x)) t' r [] -> okt G Atomic (Many (Then Skip x)) t r [].
Proof.
  intros O M. eapply (okt_many_cons G Atomic _ t t' r [] []); [|exact M]. apply (okt_then G Atomic Skip x t t t' [] []); [|exact O].
  exists []. split; [reflexivity | apply ok_skip_atomic; discriminate].
Qed.
(** empty lines *)
Definition remark_first (k : text) : Prop := k = [] \/ exists c nl k1, k = s2t ";" ++ c ++ nl ++ k1 /\ in_line c /\ eol nl /\ voids k1.
Lemma remark_first_stops k t : remark_first k -> solid t -> stops is_nl (k ++ t).
Proof. intros [->|[c [nl [k1 [-> _]]]]] S; [apply S | reflexivity]. Qed.
Lemma empties k : voids k -> forall t, solid t -> exists k', remark_first k' /\ List.length k' <= List.length k /\ okt G Atomic (Many (Then Skip NEWLINE)) (k ++ t) (k' ++ t) [].
Proof.
  intros V t S. induction V as [|v nl k V E K IH].
  - exists []. split; [left; reflexivity|]. split; [apply le_n|]. apply okt_many_nil. eapply ko_then2t; [|apply ko_newline, S].
    exists []. split; [reflexivity | apply ok_skip_atomic; discriminate].
  - destruct (idle_cases v V) as [->|[c [-> C]]].
    + destruct IH as [k' [A [B O]]]. exists k'. split; [exact A|]. split; [rewrite app_nil_l, app_length; lia|].
      eapply okt_many_skip_cons; [|exact O]. rewrite app_nil_l, <- app_assoc. apply newline_ok, E.
    + exists (s2t ";" ++ c ++ nl ++ k). rewrite <- (app_assoc (s2t ";") c (nl ++ k)). split; [right; exists c, nl, k; auto|]. split; [apply le_n|].
      apply okt_many_nil. eapply ko_then2t; [exists []; split; [reflexivity | apply ok_skip_atomic; discriminate]|].
      apply ko_newline. reflexivity.
Qed.
Lemma empties_star k t : voids k -> solid t -> exists k', remark_first k' /\ List.length k' <= List.length k /\ okt G Atomic (Star NEWLINE) (k ++ t) (k' ++ t) [].
Proof.
  intros V S. destruct V as [|v nl k V E K].
  - exists []. split; [left; reflexivity|]. split; [apply le_n|]. apply okt_star_nil, ko_newline, S.
  - destruct (idle_cases v V) as [->|[c [-> C]]].
    + destruct (empties k K t S) as [k' [A [B O]]]. exists k'. split; [exact A|]. split; [rewrite app_nil_l, app_length; lia|].
      apply okt_opt. apply (okt_then G Atomic _ _ _ (k ++ t) _ [] []); [|exact O]. rewrite app_nil_l, <- app_assoc. apply newline_ok, E.
    + exists (s2t ";" ++ c ++ nl ++ k). rewrite <- (app_assoc (s2t ";") c (nl ++ k)). split; [right; exists c, nl, k; auto|]. split; [apply le_n|].
      apply okt_star_nil, ko_newline. reflexivity.
Qed.
Lemma comment_ok c nl u r : in_line c -> eol nl -> okt G Atomic (Star NEWLINE) u r [] -> okt G NonAtomic (Call "COMMENT") (s2t ";" ++ c ++ nl ++ u) r [].
Proof.
  intros C E O.
  assert (B : okt G Atomic (str ";" ~~ Star (until NEWLINE) ~~ &"NL") (s2t ";" ++ c ++ nl ++ u) r []).
  { apply (okt_seq_at G Atomic _ _ _ (c ++ nl ++ u) r [] []); [discriminate | apply okt_str|].
    apply (okt_seq_at G Atomic _ _ _ (nl ++ u) r [] []); [discriminate| |].
    - apply okt_ok. eapply ok_star_one; [discriminate | apply one_not_newline; discriminate | | destruct E as [-> | ->]; reflexivity].
      eapply Forall_impl; [|exact C]. cbn beta. intros x [X Y]. unfold is_nl. lia.
    - apply (okt_silent G Atomic "NL" (Plus NEWLINE)); [reflexivity | reflexivity|].
      apply (okt_seq_at G Atomic _ _ _ u r [] []); [discriminate | apply newline_ok, E | exact O]. }
  destruct B as [x [-> B]]. exists x. split; [reflexivity|]. apply (ok_call G NonAtomic "COMMENT" KSilent _ x r [] eq_refl). exact B.
Qed.
(** remarks *)
Lemma remarks n : forall k, List.length k <= n -> remark_first k -> forall t, solid t -> okt G NonAtomic (Many (Call "COMMENT")) (k ++ t) t [].
Proof.
  induction n as [|n IH]; intros k L [->|[c [nl [k1 [-> [C [E V]]]]]]] t S; try (apply okt_many_nil, comment_ko, S).
  - cbn in L. lia.
  - destruct (empties_star k1 t V S) as [k2 [F [L2 O]]].
    apply (okt_many_cons G NonAtomic _ _ (k2 ++ t) t [] []); [|apply IH; [|exact F | exact S]].
    + rewrite <- !app_assoc. apply comment_ok; assumption.
    + cbn in L. rewrite !app_length in L. lia.
Qed.
Lemma skip_remarks k t : remark_first k -> solid t -> skipped G (k ++ t) t.
Proof. intros F S. destruct (remarks _ k (le_n _) F t S) as [c [E O]]. exists c. split; [exact E | apply ok_skip, O]. Qed.
Lemma voids_run k : voids k -> forall t, solid t -> exists u, skipped G (k ++ t) u /\ run G NEWLINE u t [].
Proof.
  intros V t S. induction V as [|v nl k V E K IH].
  - exists t. split; [apply skip_clear, S | apply run_nil, ko_newline, S].
  - destruct (idle_cases v V) as [->|[c [-> C]]].
    + destruct IH as [u [A B]]. exists (nl ++ k ++ t). rewrite app_nil_l, <- app_assoc. split; [apply skip_clear, clear_eol, E|].
      apply (run_cons G NEWLINE _ (k ++ t) u t [] []); [apply newline_ok, E | exact A | exact B].
    + exists t. split; [apply skip_remarks; [right; exists c, nl, k; rewrite <- (app_assoc (s2t ";") c (nl ++ k)); auto | exact S]|]. apply run_nil, ko_newline, S.
Qed.
Lemma nl_ok nl k t : eol nl -> voids k -> solid t -> exists v, okt G NonAtomic &"NL" (nl ++ k ++ t) v [] /\ skipped G v t.
Proof.
  intros E V S. destruct (voids_run k V t S) as [u [A R]].
  destruct (run_plus G NEWLINE (nl ++ k ++ t) (k ++ t) u t [] [] (newline_ok _ nl _ E) A R (skip_clear t (proj1 S))) as [v [O SV]].
  exists v. split; [|exact SV]. apply (okt_silent G NonAtomic "NL" _ _ v [] eq_refl eq_refl). exact O.
Qed.
(** the end of a line *)
Definition ended (R : text) : Prop := exists c r, R = c :: r /\ is_nl c = true.
Lemma ended_eol nl u : eol nl -> ended (nl ++ u).
Proof. intros [-> | ->]; eexists _, _; split; reflexivity. Qed.
Lemma ended_clear R : ended R -> clear R.
Proof. intros [c [r [-> H]]] x E. injection E as -> _. discriminate H. Qed.
Lemma ended_stops f R : ended R -> (forall c, f c = true -> is_nl c = false) -> stops f R.
Proof. intros [c [r [-> H]]] F. cbn [stops]. destruct (f c) eqn:E; [|reflexivity]. apply F in E. congruence. Qed.
Lemma ko_until e t a : a <> NonAtomic -> (exists r ts, okt G a e t r ts) -> ko G a (until e) t.
Proof. intros A [r [ts O]]. apply ko_seq1. eapply ko_nott, O. Qed.
Lemma newline_any a c r : is_nl c = true -> exists r', okt G a NEWLINE (c :: r) r' [] /\ List.length r' <= List.length r.
Proof.
  intros H. unfold is_nl in H. apply orb_true_iff in H. destruct H as [H|H]; apply N.eqb_eq in H; subst c.
  - exists r. split; [|lia]. apply (okt_ok G a NEWLINE [10%N]), ok_newline_lf.
  - destruct r as [|d r]; [exists []; split; [|lia]; apply (okt_ok G a NEWLINE [13%N]), ok_newline_cr; discriminate|].
    destruct (N.eqb_spec d 10) as [->|D].
    + exists r. split; [|cbn; lia]. apply (okt_ok G a NEWLINE [13%N; 10%N]), ok_newline_crlf.
    + exists (d :: r). split; [|lia]. apply (okt_ok G a NEWLINE [13%N]), ok_newline_cr. intros r' E. injection E as E _. contradiction.
Qed.
Lemma newlines_many n : forall r, List.length r <= n -> exists r', okt G Atomic (Many (Then Skip NEWLINE)) r r' [].
Proof.
  assert (K : forall r, stops is_nl r -> exists r', okt G Atomic (Many (Then Skip NEWLINE)) r r' []).
  { intros r S. exists r. apply okt_many_nil. eapply ko_then2t; [exists []; split; [reflexivity | apply ok_skip_atomic; discriminate]|]. apply ko_newline, S. }
  induction n as [|n IH]; intros [|c r] L; try (apply K; exact I); [cbn in L; lia|].
  destruct (is_nl c) eqn:E; [|apply K; exact E]. destruct (newline_any Atomic c r E) as [r' [O L']]. cbn in L.
  destruct (IH r' ltac:(lia)) as [r2 M]. exists r2. eapply okt_many_skip_cons; eassumption.
Qed.
Lemma nl_any c r : is_nl c = true -> exists r', okt G Atomic &"NL" (c :: r) r' [].
Proof.
  intros E. destruct (newline_any Atomic c r E) as [r1 [O _]].
  assert (ST : exists r2, okt G Atomic (Star NEWLINE) r1 r2 []).
  { destruct r1 as [|d r1]; [eexists; apply okt_star_nil, ko_newline; exact I|]. destruct (is_nl d) eqn:D; [|eexists; apply okt_star_nil, ko_newline; exact D].
    destruct (newline_any Atomic d r1 D) as [r3 [O3 _]]. destruct (newlines_many _ r3 (le_n _)) as [r4 M]. exists r4.
    apply okt_opt. apply (okt_then G Atomic _ _ _ r3 _ [] []); assumption. }
  destruct ST as [r2 ST]. exists r2. apply (okt_silent G Atomic "NL" (Plus NEWLINE)); [reflexivity | reflexivity|].
  apply (okt_seq_at G Atomic _ _ _ r1 r2 [] []); [discriminate | exact O | exact ST].
Qed.
Lemma nl_none r : stops is_nl r -> ko G Atomic &"NL" r.
Proof. intros S. eapply ko_call; [reflexivity|]. apply ko_seq1, ko_newline, S. Qed.
Lemma one_value : one G Atomic (until &"NL") (fun c => negb (is_nl c)).
Proof.
  split; [|intros r S; destruct r as [|c r]].
  - intros c r E. apply negb_true_iff in E. apply (ok_seq_at G Atomic _ ANY [] [c] r [] []); [discriminate | apply ok_not, nl_none, E | apply ok_sat; reflexivity].
  - apply (ko_seq2_at G Atomic (Not &"NL") ANY [] [] []); [discriminate | apply ok_not, nl_none; exact I | apply ko_sat; exact I].
  - cbn [stops] in S. apply negb_false_iff in S. destruct (nl_any c r S) as [r' O]. apply ko_seq1. eapply ko_nott, O.
Qed.
Lemma one_multivalue : one G Atomic (until (&"NL" // str ":")) (fun c => negb (is_nl c || (c =? 58)%N)).
Proof.
  split; [|intros r S; destruct r as [|c r]].
  - intros c r E. apply negb_true_iff, orb_false_iff in E. destruct E as [E1 E2].
    apply (ok_seq_at G Atomic _ ANY [] [c] r [] []); [discriminate | apply ok_not, ko_alt; [apply nl_none, E1 | apply (ko_chr G Atomic 58), E2] | apply ok_sat; reflexivity].
  - apply (ko_seq2_at G Atomic (Not (&"NL" // str ":")) ANY [] [] []); [discriminate | apply ok_not, ko_alt; [apply nl_none; exact I | apply (ko_chr G Atomic 58); exact I] | apply ko_sat; exact I].
  - cbn [stops] in S. apply negb_false_iff in S. apply ko_seq1. destruct (is_nl c) eqn:E; cbn [orb] in S.
    + destruct (nl_any c r E) as [r' O]. eapply ko_nott, okt_alt1, O.
    + apply N.eqb_eq in S. subst c. eapply ko_nott, okt_alt2; [apply nl_none, E | apply (okt_str G Atomic [58%N])].
Qed.

(** ** Fields *)
Definition stopped (r : text) : Prop := exists c r', r = c :: r' /\ (is_nl c = true \/ c = 58%N \/ c = 45%N).
Lemma stopped_ended r : ended r -> stopped r.
Proof. intros [c [r' [-> H]]]. exists c, r'. auto. Qed.
Lemma stopped_colon r : stopped (s2t ":" ++ r).
Proof. exists 58%N, r. auto. Qed.
Lemma stopped_stops f r : stopped r -> (forall c, f c = true -> is_nl c = false /\ c <> 58%N /\ c <> 45%N) -> stops f r.
Proof. intros [c [r' [-> H]]] F. cbn [stops]. destruct (f c) eqn:E; [|reflexivity]. apply F in E. destruct E as [A [B C]]. destruct H as [H|[H|H]]; congruence. Qed.
Lemma digit_stop c : is_digit c = true -> is_nl c = false /\ c <> 58%N /\ c <> 45%N.
Proof. unfold is_digit, is_nl. lia. Qed.
Lemma value_ok w r : in_line w -> ended r -> okt G NonAtomic &"value" (w ++ r) r [tok_pair "value" w].
Proof.
  intros W E. eapply tok; [discriminate | reflexivity|]. eapply ok_star_one; [discriminate | apply one_value | |].
  - eapply Forall_impl; [|exact W]. cbn beta. intros c [A B]. unfold is_nl. lia.
  - destruct E as [c [r' [-> H]]]. cbn [stops]. rewrite H. reflexivity.
Qed.
Lemma multivalue_ok w r : name w -> okt G NonAtomic &"multivalue" (w ++ s2t ":" ++ r) (s2t ":" ++ r) [tok_pair "multivalue" w].
Proof.
  intros [C [W _]]. eapply tok; [discriminate | reflexivity|]. eapply ok_star_one; [discriminate | apply one_multivalue | | reflexivity].
  unfold in_line in W. rewrite Forall_forall in *. intros c I. specialize (C c I). specialize (W c I). cbn beta in *. unfold is_nl. lia.
Qed.
Lemma backslash_ok w r : before_backslash w -> okt G NonAtomic &"multivalue_backslash" (w ++ s2t "\" ++ r) (s2t "\" ++ r) [tok_pair "multivalue_backslash" w].
Proof.
  intros [C _]. eapply tok; [discriminate | reflexivity|]. eapply ok_star_one; [discriminate | apply one_until; [discriminate | apply (one_chr G Atomic 92)] | | reflexivity].
  eapply Forall_impl; [|exact C]. cbn beta. intros c H. lia.
Qed.
Lemma minus_ok s u e r : minus_opt s u -> (exists c v, u = c :: v /\ is_digit c = true) -> ok G Atomic e u r [] -> ok G Atomic (Opt (str "-") ~~ e) s r [].
Proof.
  intros [-> | ->] [c [v [-> D]]] O.
  - apply (ok_seq_at G Atomic _ _ [] (c :: v) r [] []); [discriminate | | exact O]. apply ok_opt_no, (ko_chr G Atomic 45). cbn [app stops]. unfold is_digit in D. lia.
  - apply (ok_seq_at G Atomic _ _ (s2t "-") (c :: v) r [] []); [discriminate | apply ok_opt, ok_str | exact O].
Qed.
Lemma digits_hd u : digits u -> exists c v, u = c :: v /\ is_digit c = true.
Proof. intros [N F]. destruct F as [|c v D _]; [contradiction N; reflexivity|]. exists c, v. auto. Qed.
Lemma integer_ok w r : whole_number w -> stopped r -> okt G NonAtomic &"INTEGER" (w ++ r) r [tok_pair "INTEGER" w].
Proof.
  intros [u [M D]] S. eapply tok; [discriminate | reflexivity|]. eapply minus_ok; [exact M | apply digits_hd, D|]. destruct D as [N D].
  apply ok_plus_sat; [discriminate | exact N | exact D | apply stopped_stops; [exact S | apply digit_stop]].
Qed.
Lemma decimal_ok a w r : decimal_number w -> stopped r -> a <> Atomic -> okt G a &"DECIMAL" (w ++ r) r [T "DECIMAL" w []].
Proof.
  intros [u [M D]] S A. eapply tok; [exact A | reflexivity|]. assert (SD : stops is_digit r) by (apply stopped_stops; [exact S | apply digit_stop]).
  destruct D as [D|[x [y [-> [X Y]]]]].
  - eapply minus_ok; [exact M | apply digits_hd, D|]. destruct D as [N D]. rewrite <- (app_nil_r u).
    apply (ok_seq_at G Atomic _ _ u [] r [] []); [discriminate | apply ok_plus_sat; [discriminate | exact N | exact D | exact SD]|].
    apply ok_opt_no, ko_seq1, (ko_chr G Atomic 46). apply stopped_stops; [exact S|]. unfold is_nl. lia.
  - eapply minus_ok; [exact M | destruct (digits_hd x X) as [c [v [-> DC]]]; exists c, (v ++ s2t "." ++ y); auto|]. destruct X as [NX DX], Y as [NY DY].
    apply (ok_seq_at G Atomic _ _ x (s2t "." ++ y) r [] []); [discriminate | apply ok_plus_sat; [discriminate | exact NX | exact DX | reflexivity]|].
    apply ok_opt. apply (ok_seq_at G Atomic _ _ (s2t ".") y r [] []); [discriminate | apply ok_str|]. apply ok_plus_sat; [discriminate | exact NY | exact DY | exact SD].
Qed.
(** a pair of a rule that is neither silent nor atomic *)
Lemma normal_ok n e w r ts : get n G = Some (KNormal, e) -> body_atom n KNormal NonAtomic = NonAtomic -> okt G NonAtomic e (w ++ r) r ts -> okt G NonAtomic (Call n) (w ++ r) r [T n w ts].
Proof. intros E B O. destruct (okt_normal G n e E B _ _ _ O) as [c [X H]]. apply app_inv_tail in X. subst c. exact H. Qed.
Lemma part_ok w r : decimal_number w -> stopped r -> okt G NonAtomic &"coord_part" (w ++ r) r [tok_pair "coord_part" w].
Proof.
  intros W S. eapply normal_ok; [reflexivity | reflexivity|]. apply okt_alt1. apply decimal_ok; [exact W | exact S | discriminate].
Qed.
Lemma bool_ok (b : bool) r : okt G NonAtomic &"BOOL" (s2t (if b then "1" else "0") ++ r) r [tok_pair "BOOL" (s2t (if b then "1" else "0"))].
Proof.
  eapply normal_ok; [reflexivity | reflexivity|]. destruct b; [apply okt_alt2; [apply (ko_chr G NonAtomic 48); reflexivity|] | apply okt_alt1]; apply okt_str.
Qed.
(** ** Words *)
Fixpoint clash (a b : text) : bool := match a, b with x :: a, y :: b => negb (x =? y)%N || clash a b | _, _ => false end.
Lemma clash_ne a : forall b x y, clash a b = true -> a ++ x <> b ++ y.
Proof.
  induction a as [|c a IH]; intros [|d b] x y C E; try discriminate C. cbn in C, E. injection E as -> E. rewrite N.eqb_refl in C. exact (IH b x y C E).
Qed.
Lemma ko_clash a s t x : clash t s = true -> ko G a (Str s) (t ++ x).
Proof. intros C. apply ko_str. intros r. apply clash_ne, C. Qed.
Lemma word_ok n s r : get n G = Some (KNormal, Str (s2t s)) -> body_atom n KNormal NonAtomic = NonAtomic -> n <> "coord_part" -> okt G NonAtomic (Call n) (s2t s ++ r) r [tok_pair n (s2t s)].
Proof.
  intros E B N. unfold tok_pair. destruct (string_dec n "coord_part") as [X|_]; [contradiction|]. eapply normal_ok; [exact E | exact B | apply okt_str].
Qed.
Lemma word_ko n s t x : get n G = Some (KNormal, Str (s2t s)) -> clash t (s2t s) = true -> ko G NonAtomic (Call n) (t ++ x).
Proof. intros E C. eapply ko_call; [exact E|]. apply ko_clash, C. Qed.
Ltac word := first [apply word_ok; [reflexivity | reflexivity | discriminate] | apply okt_alt1; word | apply okt_alt2; [eapply word_ko; reflexivity | word]].
Lemma kinds_ok kinds rule e : In (rule, kinds, e) [("fix_type", fix_kinds, &"symbol" // &"name"); ("navaid_type", navaid_kinds, &"symbol" // &"name" // &"frequency");
    ("airway_type", airway_kinds, &"line" // &"name"); ("ground_network_type", ground_kinds, &"exit" // &"taxiway" // &"terminal_taxiway")] ->
  forall k w r, In (k, w) kinds -> okt G NonAtomic (Call rule) (s2t w ++ r) r [tok_pair k (s2t w)].
Proof.
  intros I k w r J. cbn [In] in I. repeat (destruct I as [I|I]; [injection I as <- <- <-; eapply okt_silent; [reflexivity | reflexivity|];
    cbn [In] in J; repeat (destruct J as [J|J]; [injection J as <- <-; word|]); contradiction|]). contradiction.
Qed.
Lemma ended_clash s t R : ended R -> (exists c v, t = s ++ c :: v /\ is_nl c = false) -> ko G NonAtomic (Str t) (s ++ R).
Proof.
  intros [c [r [-> H]]] [d [v [-> D]]]. apply ko_str. intros r' E. rewrite <- app_assoc in E. apply app_inv_head in E. injection E as -> _. congruence.
Qed.
Ltac centre E := first [apply okt_alt1; apply okt_str | apply okt_str
  | apply okt_alt2; [first [apply ko_clash; reflexivity | apply ended_clash; [exact E | eexists _, _; split; reflexivity]] | centre E]].
Lemma centre_ok w r : In w centre_lines -> ended r -> okt G NonAtomic &"ext_centerline" (s2t w ++ r) r [tok_pair "ext_centerline" (s2t w)].
Proof.
  intros I E. eapply normal_ok; [reflexivity | reflexivity|]. cbv [centre_lines flat_map map app String.append In] in I.
  repeat (destruct I as [<-|I]; [centre E|]). contradiction.
Qed.
Lemma runway_kinds_ok k w r : In (k, w) runway_kinds -> ended r -> okt G NonAtomic &"runway_type" (s2t w ++ r) r [tok_pair k (s2t w)].
Proof.
  intros I E. eapply okt_silent; [reflexivity | reflexivity|]. destruct I as [I|[I|I]]; [injection I as <- <-; word | injection I as <- <-; word|].
  apply in_map_iff in I. destruct I as [x [X I]]. injection X as <- <-.
  assert (HD : clash (s2t x) (s2t "centerline") = true /\ clash (s2t x) (s2t "name") = true).
  { cbv [centre_lines flat_map map app String.append In] in I. repeat (destruct I as [<-|I]; [split; reflexivity|]). contradiction. }
  apply okt_alt2; [eapply word_ko; [reflexivity | apply HD]|]. apply okt_alt2; [eapply word_ko; [reflexivity | apply HD]|]. apply centre_ok; assumption.
Qed.

(** ** Runways *)
Lemma desig_ok a w r : a <> Atomic -> designator w -> stopped r -> okt G a &"runway_desig" (w ++ r) r [T "runway_desig" w []].
Proof.
  intros A [x [y [l [-> [X [Y L]]]]]] S. eapply tok; [exact A | reflexivity|].
  apply (ok_seq_at G Atomic _ _ [x; y] l r [] []); [discriminate | apply (ok_seq_at G Atomic _ _ [x] [y] (l ++ r) [] []); [discriminate | apply ok_sat, X | apply ok_sat, Y]|].
  assert (K : forall c, is_nl c = false -> c <> 58%N -> c <> 45%N -> ko G Atomic (Str [c]) r).
  { intros c C1 C2 C3. apply ko_chr. apply stopped_stops; [exact S|]. intros d D. apply N.eqb_eq in D. subst d. auto. }
  cbn [In] in L. repeat (destruct L as [<-|L]; [first
    [solve [apply ok_opt_no; repeat apply ko_alt; apply K; (reflexivity || discriminate)]
    |apply ok_opt; repeat first [apply ok_alt1, ok_str | apply ok_str | apply ok_alt2; [apply ko_str; intros r'; discriminate|]]]|]). contradiction.
Qed.
Local Notation gap := (str " " ~~ &"runway_desig").
Lemma gap_ko c r : (c = 32%N -> stops is_digit r) -> ko G Atomic gap (c :: r).
Proof.
  intros H. destruct (N.eqb_spec c 32) as [->|N]; [|apply ko_seq1, (ko_chr G Atomic 32); cbn [stops]; lia].
  apply (ko_seq2_at G Atomic _ _ [32%N] r []); [discriminate | apply (ok_str G Atomic [32%N])|]. eapply ko_call; [reflexivity|]. apply ko_seq1, ko_seq1, ko_sat, H. reflexivity.
Qed.
Lemma gap_none : ko G Atomic gap [].
Proof. apply ko_seq1, (ko_chr G Atomic 32). exact I. Qed.
Lemma ok_gap d r : designator d -> stopped r -> exists r' ts, okt G Atomic gap (32%N :: d ++ r) r' ts.
Proof.
  intros D S. destruct (desig_ok NonAtomic d r ltac:(discriminate) D S) as [c [E O]].
  assert (OA : exists ts, okt G Atomic &"runway_desig" (d ++ r) r ts).
  { destruct D as [x [y [l [-> [X [Y L]]]]]]. apply app_inv_tail in E. subst c.
    assert (B : exists ts, ok G Atomic ((ASCII_DIGIT ~~ ASCII_DIGIT) ~~ Opt (str "L" // str "R" // str "C" // str "W" // str "G")) ([x; y] ++ l) r ts).
    { exists []. apply (ok_seq_at G Atomic _ _ [x; y] l r [] []); [discriminate | apply (ok_seq_at G Atomic _ _ [x] [y] (l ++ r) [] []); [discriminate | apply ok_sat, X | apply ok_sat, Y]|].
      assert (K : forall c, is_nl c = false -> c <> 58%N -> c <> 45%N -> ko G Atomic (Str [c]) r).
      { intros c C1 C2 C3. apply ko_chr. apply stopped_stops; [exact S|]. intros e H. apply N.eqb_eq in H. subst e. auto. }
      cbn [In] in L. repeat (destruct L as [<-|L]; [first
        [solve [apply ok_opt_no; repeat apply ko_alt; apply K; (reflexivity || discriminate)]
        |apply ok_opt; repeat first [apply ok_alt1, ok_str | apply ok_str | apply ok_alt2; [apply ko_str; intros r'; discriminate|]]]|]). contradiction. }
    destruct B as [ts B]. eexists. apply okt_ok. eapply ok_call; [reflexivity | exact B]. }
  destruct OA as [ts OA]. eexists r, _. apply (okt_seq_at G Atomic _ _ _ (d ++ r) r [] ts); [discriminate | apply (okt_str G Atomic [32%N]) | exact OA].
Qed.
Lemma airport_many w D : (forall u c v, w = u ++ 32%N :: c :: v -> is_digit c = false) -> ko G Atomic (until gap) (32%N :: D) ->
  okt G Atomic (Many (Then Skip (until gap))) (w ++ 32%N :: D) (32%N :: D) [] /\ okt G Atomic (Star (until gap)) (w ++ 32%N :: D) (32%N :: D) [].
Proof.
  intros F K. induction w as [|c w IH].
  - split; [|apply okt_star_nil, K]. apply okt_many_nil. eapply ko_then2t; [exists []; split; [reflexivity | apply ok_skip_atomic; discriminate] | exact K].
  - destruct IH as [M _]; [intros u d v ->; apply (F (c :: u) d v eq_refl)|].
    assert (O : okt G Atomic (until gap) ((c :: w) ++ 32%N :: D) (w ++ 32%N :: D) []).
    { apply (okt_seq_at G Atomic _ ANY _ (c :: w ++ 32%N :: D) _ [] []); [discriminate | apply okt_not, gap_ko | apply (okt_ok G Atomic ANY [c]), ok_sat; reflexivity].
      intros ->. destruct w as [|d w]; [reflexivity | exact (F [] d w eq_refl)]. }
    split; [eapply okt_many_skip_cons; eassumption|]. apply okt_opt. apply (okt_then G Atomic _ _ _ (w ++ 32%N :: D) _ [] []); assumption.
Qed.
Lemma airport_ok w d r : airport_name w -> designator d -> stopped r -> okt G NonAtomic &"airport" (w ++ s2t " " ++ d ++ r) (s2t " " ++ d ++ r) [tok_pair "airport" w].
Proof.
  intros [_ F] D S. destruct (ok_gap d r D S) as [r' [ts O]].
  destruct (airport_many w (d ++ r) F) as [_ [c [E X]]]; [apply ko_seq1; eapply ko_nott, O|].
  change (s2t " " ++ d ++ r) with (32%N :: d ++ r). eapply tok; [discriminate | reflexivity|]. apply app_inv_tail in E. subst c. exact X.
Qed.

(** ** Lines *)
Lemma clear_name w r : no_remark w -> clear r -> clear (w ++ r).
Proof. intros W R x E. destruct w as [|c w]; [exact (R x E)|]. injection E as -> _. exact (W w eq_refl). Qed.
Lemma clear_digits w r : decimal_number w -> clear (w ++ r).
Proof.
  intros [u [M D]] x E. assert (H : exists c v, u = c :: v /\ is_digit c = true).
  { destruct D as [D|[a [b [-> [D _]]]]]; [apply digits_hd, D|]. destruct (digits_hd a D) as [c [v [-> DC]]]. exists c, (v ++ s2t "." ++ b). auto. }
  destruct H as [c [v [-> DC]]]. destruct M as [-> | ->]; injection E as E _; subst; discriminate.
Qed.
Lemma whole_decimal w : whole_number w -> decimal_number w.
Proof. intros [u [M D]]. exists u. auto. Qed.
Lemma clear_desig d r : designator d -> clear (d ++ r).
Proof. intros [x [y [l [-> [X _]]]]] z E. injection E as -> _. discriminate X. Qed.
Lemma clear_word (s : string) r : match s with EmptyString => False | String c _ => N_of_ascii c <> 59%N end -> clear (s2t s ++ r).
Proof. destruct s as [|c s]; [contradiction|]. intros H x E. injection E as E _. contradiction. Qed.
Lemma seq0 x y t t' r t1 t2 : okt G NonAtomic x t t' t1 -> clear t' -> okt G NonAtomic y t' r t2 -> okt G NonAtomic (Seq x y) t r (t1 ++ t2).
Proof. intros H C O. eapply okt_seq; [exact H | apply skip_clear, C | exact O]. Qed.
Lemma line_ok n kw e l r ts : get n G = Some (KNormal, str kw ~~ e) -> body_atom n KNormal NonAtomic = NonAtomic -> clear (l ++ r) -> okt G NonAtomic e (l ++ r) r ts ->
  okt G NonAtomic (Call n) ((s2t kw ++ l) ++ r) r [T n (s2t kw ++ l) ts].
Proof.
  intros E B C O. eapply normal_ok; [exact E | exact B|]. rewrite <- app_assoc. apply (seq0 _ _ _ (l ++ r) r [] ts); [apply okt_str | exact C | exact O].
Qed.
Local Ltac line := unfold pair_of, line_text, toks; cbn [fst snd map piece_text List.concat flat_map app]; rewrite ?app_nil_r; rewrite <- ?app_assoc.
Local Ltac pick I := cbn [In] in I; repeat (destruct I as [I|I]; [injection I; intros; subst|]); try contradiction.
Lemma written_ok l R : written l -> ended R -> okt G NonAtomic (Call (fst l)) (line_text l ++ R) R [pair_of l].
Proof.
  intros W E. assert (C := ended_clear R E). assert (S := stopped_ended R E).
  assert (CC : forall r, clear (s2t ":" ++ r)) by (intros r x X; discriminate X).
  destruct W as [n kw s I H|n kw b I|n kw s I H|s H|a b c d HA HB HC HD|p k v HP HK HV|n kw s I H|s H|a b HA HB|n kw kinds s k w I H J|s a b k w H HA HB J].
  - assert (X : okt G NonAtomic &"INTEGER" (s ++ R) R [tok_pair "INTEGER" s]) by (apply integer_ok; assumption).
    assert (CS : clear (s ++ R)) by (apply clear_digits, whole_decimal, H).
    pick I; unfold pair_of, line_text, toks; cbn [fst snd map piece_text List.concat flat_map]; rewrite !app_nil_r;
      (eapply line_ok; [reflexivity | reflexivity | exact CS | exact X]).
  - assert (X := bool_ok b R).
    assert (CS : clear (s2t (if b then "1" else "0") ++ R)) by (destruct b; intros x Y; discriminate Y).
    pick I; unfold pair_of, line_text, toks; cbn [fst snd map piece_text List.concat flat_map]; rewrite !app_nil_r;
      (eapply line_ok; [reflexivity | reflexivity | exact CS | exact X]).
  - assert (X : okt G NonAtomic &"value" (s ++ R) R [tok_pair "value" s]) by (apply value_ok; [apply H | exact E]).
    assert (CS : clear (s ++ R)) by (apply clear_name; [apply H | exact C]).
    pick I; unfold pair_of, line_text, toks; cbn [fst snd map piece_text List.concat flat_map]; rewrite !app_nil_r;
      (eapply line_ok; [reflexivity | reflexivity | exact CS | exact X]).
  - unfold pair_of, line_text, toks; cbn [fst snd map piece_text List.concat flat_map]; rewrite !app_nil_r.
    eapply line_ok; [reflexivity | reflexivity | apply clear_digits, H|]. apply decimal_ok; [exact H | exact S | discriminate].
  - unfold pair_of, line_text, toks; cbn [fst snd map piece_text List.concat flat_map]; rewrite !app_nil_r.
    eapply line_ok; [reflexivity | reflexivity | rewrite <- !app_assoc; apply clear_digits, HA|]. rewrite <- !app_assoc. cbn [app].
    assert (CO : forall x y t, decimal_number x -> decimal_number y -> stopped t ->
      okt G NonAtomic &"coordinate" (x ++ s2t ":" ++ y ++ t) t [tok_pair "coord_part" x; tok_pair "coord_part" y]).
    { intros x y t HX HY ST. eapply okt_silent; [reflexivity | reflexivity|].
      apply (seq0 _ _ _ (s2t ":" ++ y ++ t) t [_] [_]); [apply part_ok; [exact HX | apply stopped_colon] | apply CC|].
      apply (seq0 _ _ _ (y ++ t) t [] [_]); [apply okt_str | apply clear_digits, HY | apply part_ok; assumption]. }
    apply (seq0 _ _ _ (s2t ":" ++ c ++ s2t ":" ++ d ++ R) R [_; _] [_; _]); [apply CO; [exact HA | exact HB | apply stopped_colon] | apply CC|].
    apply (seq0 _ _ _ (c ++ s2t ":" ++ d ++ R) R [] [_; _]); [apply okt_str | apply clear_digits, HC | apply CO; assumption].
  - unfold pair_of, line_text, toks; cbn [fst snd map piece_text List.concat flat_map]; rewrite !app_nil_r.
    eapply line_ok; [reflexivity | reflexivity | rewrite <- !app_assoc; apply clear_name; [apply HP | apply CC]|]. rewrite <- !app_assoc. cbn [app].
    apply (seq0 _ _ _ (s2t ":" ++ k ++ s2t ":" ++ v ++ R) R [_] [_; _]); [apply multivalue_ok, HP | apply CC|].
    apply (seq0 _ _ _ (k ++ s2t ":" ++ v ++ R) R [] [_; _]); [apply okt_str | apply clear_name; [apply HK | apply CC]|].
    apply (seq0 _ _ _ (s2t ":" ++ v ++ R) R [_] [_]); [apply multivalue_ok, HK | apply CC|].
    apply (seq0 _ _ _ (v ++ R) R [] [_]); [apply okt_str | apply clear_name; [apply HV | exact C]|]. apply value_ok; [apply HV | exact E].
  - assert (X : okt G NonAtomic (&"multivalue" ~~ str ":") ((s ++ s2t ":") ++ R) R [tok_pair "multivalue" s]).
    { rewrite <- app_assoc. apply (seq0 _ _ _ (s2t ":" ++ R) R [_] []); [apply multivalue_ok, H | apply CC | apply okt_str]. }
    assert (CS : clear ((s ++ s2t ":") ++ R)) by (rewrite <- app_assoc; apply clear_name; [apply H | apply CC]).
    pick I; unfold pair_of, line_text, toks; cbn [fst snd map piece_text List.concat flat_map]; rewrite !app_nil_r;
      (eapply line_ok; [reflexivity | reflexivity | exact CS | exact X]).
  - unfold pair_of, line_text, toks; cbn [fst snd map piece_text List.concat flat_map]; rewrite !app_nil_r.
    eapply line_ok; [reflexivity | reflexivity | rewrite <- !app_assoc; apply clear_name; [apply H | apply (CC (s2t "polygon" ++ R))]|]. rewrite <- !app_assoc. cbn [app].
    apply (seq0 _ _ _ (s2t ":polygon" ++ R) R [_] []); [apply (multivalue_ok s (s2t "polygon" ++ R) H) | apply (CC (s2t "polygon" ++ R)) | apply okt_str].
  - unfold pair_of, line_text, toks; cbn [fst snd map piece_text List.concat flat_map]; rewrite !app_nil_r.
    assert (CB : forall r, clear (s2t "\" ++ r)) by (intros r x X; discriminate X).
    eapply line_ok; [reflexivity | reflexivity | rewrite <- !app_assoc; apply clear_name; [apply HA | apply CB]|]. rewrite <- !app_assoc. cbn [app].
    apply (seq0 _ _ _ (s2t "\" ++ b ++ s2t ":freetext" ++ R) R [_] [_]); [apply backslash_ok, HA | apply CB|].
    apply (seq0 _ _ _ (b ++ s2t ":freetext" ++ R) R [] [_]); [apply okt_str | apply clear_name; [apply HB | apply (CC (s2t "freetext" ++ R))]|].
    apply (seq0 _ _ _ (s2t ":freetext" ++ R) R [_] []); [apply (multivalue_ok b (s2t "freetext" ++ R) HB) | apply (CC (s2t "freetext" ++ R)) | apply okt_str].
  - assert (X : forall rule e, In (rule, kinds, e) [("fix_type", fix_kinds, &"symbol" // &"name"); ("navaid_type", navaid_kinds, &"symbol" // &"name" // &"frequency");
      ("airway_type", airway_kinds, &"line" // &"name"); ("ground_network_type", ground_kinds, &"exit" // &"taxiway" // &"terminal_taxiway")] ->
      okt G NonAtomic (&"multivalue" ~~ str ":" ~~ Call rule) ((s ++ s2t ":" ++ s2t w) ++ R) R [tok_pair "multivalue" s; tok_pair k (s2t w)]).
    { intros rule e IR. rewrite <- !app_assoc. apply (seq0 _ _ _ (s2t ":" ++ s2t w ++ R) R [_] [_]); [apply multivalue_ok, H | apply CC|].
      apply (seq0 _ _ _ (s2t w ++ R) R [] [_]); [apply okt_str | | eapply kinds_ok; eassumption].
      cbn [In] in IR. repeat (destruct IR as [IR|IR]; [injection IR; intros; subst; cbv [fix_kinds navaid_kinds airway_kinds ground_kinds] in J; cbn [In] in J;
        repeat (destruct J as [J|J]; [injection J as <- <-; apply clear_word; discriminate|]); contradiction|]). contradiction. }
    assert (CS : clear ((s ++ s2t ":" ++ s2t w) ++ R)) by (rewrite <- !app_assoc; apply clear_name; [apply H | apply CC]).
    pick I; unfold pair_of, line_text, toks; cbn [fst snd map piece_text List.concat flat_map]; rewrite !app_nil_r;
      (eapply line_ok; [reflexivity | reflexivity | exact CS | eapply X; cbn [In]; auto 6]).
  - unfold pair_of, line_text, toks; cbn [fst snd map piece_text List.concat flat_map]; rewrite !app_nil_r.
    assert (CB : forall r, clear (s2t " " ++ r)) by (intros r x X; discriminate X).
    assert (CM : forall r, clear (s2t "-" ++ r)) by (intros r x X; discriminate X).
    eapply line_ok; [reflexivity | reflexivity | rewrite <- !app_assoc; apply clear_name; [apply H | apply CB]|]. rewrite <- !app_assoc. cbn [app].
    assert (SM : forall r, stopped (s2t "-" ++ r)) by (intros r; exists 45%N, r; auto).
    apply (seq0 _ _ _ (s2t ":" ++ s2t w ++ R) R [tok_pair "airport" s; tok_pair "runway_desig" a; tok_pair "runway_desig" b] [_]); [|apply CC|].
    + eapply okt_silent; [reflexivity | reflexivity|].
      apply (seq0 _ _ _ (s2t " " ++ a ++ s2t "-" ++ b ++ s2t ":" ++ s2t w ++ R) _ [_] [_; _]); [apply airport_ok; [exact H | exact HA | apply SM] | apply CB|].
      apply (seq0 _ _ _ (a ++ s2t "-" ++ b ++ s2t ":" ++ s2t w ++ R) _ [] [_; _]); [apply okt_str | apply clear_desig, HA|].
      apply (seq0 _ _ _ (s2t "-" ++ b ++ s2t ":" ++ s2t w ++ R) _ [_] [_]); [apply desig_ok; [discriminate | exact HA | apply SM] | apply CM|].
      apply (seq0 _ _ _ (b ++ s2t ":" ++ s2t w ++ R) _ [] [_]); [apply okt_str | apply clear_desig, HB|]. apply desig_ok; [discriminate | exact HB | apply stopped_colon].
    + apply (seq0 _ _ _ (s2t w ++ R) R [] [_]); [apply okt_str | | apply runway_kinds_ok; assumption].
      assert (HW : In w ("centerline" :: "name" :: centre_lines)).
      { destruct J as [J|[J|J]]; [injection J as <- <-; left; reflexivity | injection J as <- <-; right; left; reflexivity|].
        apply in_map_iff in J. destruct J as [x [X J]]. injection X as <- <-. right. right. exact J. }
      cbv [centre_lines flat_map map app String.append In] in HW. repeat (destruct HW as [<-|HW]; [apply clear_word; discriminate|]). contradiction.
Qed.

(** ** Files *)
Definition words : list (string * string) := [("above", "ABOVE:"); ("below", "BELOW:"); ("disable_panning", "DISABLEPANNING:"); ("disable_zooming", "DISABLEZOOMING:");
  ("display_rotation", "DisplayRotation:"); ("display_type", "DisplayTypeName:"); ("display_type_geo_referenced", "DisplayTypeGeoReferenced:");
  ("display_type_need_radar_content", "DisplayTypeNeedRadarContent:"); ("history_dots", "HISTORY_DOTS:"); ("leader", "LEADER:"); ("plugin", "PLUGIN:");
  ("sector_file", "SECTORFILE:"); ("sector_title", "SECTORTITLE:"); ("show_leader", "SHOWLEADER:"); ("show_c", "SHOWC:"); ("show_standby", "SHOWSB:");
  ("simulation_mode", "SIMULATION_MODE:"); ("tag_family", "TAGFAMILY:"); ("turn_leader", "TURNLEADER:"); ("window_area", "WINDOWAREA:"); ("free_text", "Free Text:");
  ("airports", "Airports:"); ("fixes", "Fixes:"); ("ndbs", "NDBs:"); ("vors", "VORs:"); ("low_airways", "Low airways:"); ("high_airways", "High airways:");
  ("sids", "Sids:"); ("stars", "Stars:"); ("geo", "Geo:"); ("ground_network", "Ground Network:"); ("regions", "Regions:"); ("artcc_boundary", "ARTCC boundary:");
  ("artcc_low_boundary", "ARTCC low boundary:"); ("artcc_high_boundary", "ARTCC high boundary:"); ("runways", "Runways:")].
Lemma words_rules : Forall (fun '(n, kw) => exists e, get n G = Some (KNormal, Seq (Str (s2t kw)) e)) words.
Proof. repeat constructor; eexists; reflexivity. Qed.
Lemma words_clash : forallb (fun '(n, kw) => forallb (fun '(m, kw') => String.eqb n m || clash (s2t kw) (s2t kw')) words) words = true.
Proof. vm_compute. reflexivity. Qed.
Fixpoint alts (n : string) (ns : list string) : expr := match ns with [] => Call n | m :: ns => Call n // alts m ns end.
Lemma alts_ok n t r ts : okt G NonAtomic (Call n) t r ts -> forall ns m, In n (m :: ns) -> (forall x, In x (m :: ns) -> x <> n -> ko G NonAtomic (Call x) t) -> okt G NonAtomic (alts m ns) t r ts.
Proof.
  intros O ns. induction ns as [|x ns IH]; intros m I K; cbn [alts].
  - destruct I as [->|[]]. exact O.
  - destruct (string_dec m n) as [->|N]; [apply okt_alt1, O|]. apply okt_alt2; [apply K; [left; reflexivity | exact N]|].
    destruct I as [I|I]; [contradiction|]. apply IH; [exact I|]. intros y J. apply K. right. exact J.
Qed.
Lemma alts_ko t ns : forall m, (forall x, In x (m :: ns) -> ko G NonAtomic (Call x) t) -> ko G NonAtomic (alts m ns) t.
Proof.
  induction ns as [|x ns IH]; intros m K; cbn [alts]; [apply K; left; reflexivity|]. apply ko_alt; [apply K; left; reflexivity|]. apply IH. intros y J. apply K. right. exact J.
Qed.
Lemma setting_is : get "setting" G = Some (KSilent, alts "above" (map fst (tl words)) ~~ Opt &"NL").
Proof. reflexivity. Qed.
Lemma word_in n kw : existsb (fun '(a, b) => String.eqb a n && String.eqb b kw) words = true -> In (n, kw) words.
Proof.
  intros H. apply existsb_exists in H. destruct H as [[a b] [I H]]. apply andb_true_iff in H. destruct H as [A B]. apply String.eqb_eq in A, B. subst. exact I.
Qed.
Lemma written_word l : written l -> exists kw x, In (fst l, kw) words /\ line_text l = s2t kw ++ x.
Proof.
  intros W. destruct W as [n kw s I H|n kw b I|n kw s I H|s H|a b c d HA HB HC HD|p k v HP HK HV|n kw s I H|s H|a b HA HB|n kw kinds s k w I H J|s a b k w H HA HB J];
    unfold line_text; cbn [fst snd map piece_text List.concat]; (eexists _, _; split; [|reflexivity]);
    try (pick I); apply word_in; reflexivity.
Qed.
Lemma others l R m : written l -> In m (map fst words) -> m <> fst l -> ko G NonAtomic (Call m) (line_text l ++ R).
Proof.
  intros W I N. destruct (written_word l W) as [kw [x [J ->]]]. apply in_map_iff in I. destruct I as [[m' kw'] [<- I]]. cbn [fst] in N |- *.
  pose proof words_rules as F. rewrite Forall_forall in F. destruct (F _ I) as [e E]. eapply ko_call; [exact E|]. apply ko_seq1. rewrite <- app_assoc. apply ko_clash.
  pose proof words_clash as C. rewrite forallb_forall in C. specialize (C _ J). cbn beta iota in C. rewrite forallb_forall in C. specialize (C _ I). cbn beta iota in C.
  apply orb_true_iff in C. destruct C as [C|C]; [apply String.eqb_eq in C; congruence | exact C].
Qed.
Lemma setting_ok l nl k t : written l -> eol nl -> voids k -> solid t -> exists v, okt G NonAtomic &"setting" (line_text l ++ nl ++ k ++ t) v [pair_of l] /\ skipped G v t.
Proof.
  intros W E V S. destruct (nl_ok nl k t E V S) as [v [O SV]]. exists v. split; [|exact SV].
  eapply okt_silent; [exact setting_is | reflexivity|]. apply (seq0 _ _ _ (nl ++ k ++ t) v [_] []); [|apply clear_eol, E | apply okt_opt, O].
  apply (alts_ok (fst l)); [apply written_ok; [exact W | apply ended_eol, E] | | intros x I N; apply others; assumption].
  destruct (written_word l W) as [kw [x [J _]]]. apply (in_map fst) in J. exact J.
Qed.
Lemma written_solid l R : written l -> solid (line_text l ++ R).
Proof.
  intros W. destruct (written_word l W) as [kw [x [J ->]]]. rewrite <- app_assoc.
  assert (H : match s2t kw with c :: _ => c <> 59%N /\ is_nl c = false | [] => False end).
  { clear - J. cbv [words In] in J. repeat (destruct J as [J|J]; [injection J as _ <-; split; [discriminate | reflexivity]|]). contradiction. }
  destruct (s2t kw) as [|c u]; [contradiction|]. destruct H as [A B]. split; [intros y E; injection E as E _; contradiction | exact B].
Qed.
Lemma laid_lines ls t : laid (fun _ : N => false) [s2t ";"] (map line_text ls) t -> Forall written ls ->
  solid t /\ run G &"setting" t [] (map pair_of ls).
Proof.
  revert t. induction ls as [|l ls IH]; intros t L F.
  - inversion L. split; [split; [intros r; discriminate | exact I]|]. apply run_nil. eapply ko_call; [exact setting_is|]. apply ko_seq1.
    assert (K : forall n, In n (map fst words) -> ko G NonAtomic (Call n) []).
    { intros n J. apply in_map_iff in J. destruct J as [[m kw] [<- J]]. pose proof words_rules as X. rewrite Forall_forall in X. destruct (X _ J) as [e E0].
      eapply ko_call; [exact E0|]. apply ko_seq1, ko_str. intros r R. clear - J R. cbv [words In] in J. repeat (destruct J as [J|J]; [injection J as _ <-; discriminate R|]). contradiction. }
    exact (alts_ko [] (map fst (tl words)) "above" K).
  - remember (map line_text (l :: ls)) as xs eqn:X. destruct L as [|y ys b nl k b' t' B E V B' L]; [discriminate X|]. injection X as -> ->.
    apply no_spaces in B, B'. subst b b'. inversion F as [|? ? W F' E1]. subst. destruct (IH t' L F') as [S R]. rewrite !app_nil_l in *.
    split; [apply written_solid, W|]. destruct (setting_ok l nl k t' W E V S) as [v [O SV]]. cbn [map]. eapply (run_cons G &"setting" _ v t' [] [pair_of l] (map pair_of ls)); eassumption.
Qed.
Lemma run_plus_ne e t r ts : run G e t r ts -> ts <> [] -> skipped G r r -> exists v, okt G NonAtomic (Plus e) t v ts /\ skipped G v r.
Proof. intros [t0 K|t0 u t' r0 t1 t2 O S R] NE SR; [congruence|]. eapply run_plus; eassumption. Qed.
(** the lines before the first setting *)
Lemma start_ok k t y r ts : voids k -> solid t -> okt G NonAtomic y t r ts -> okt G NonAtomic (Then Skip (Opt &"NL" ~~ y)) (k ++ t) r ts.
Proof.
  intros V S O. destruct (voids_run k V t S) as [u [A R]]. apply (okt_then G NonAtomic Skip _ _ u r [] ts); [exact A|].
  remember (@nil tree) as ks eqn:K. destruct R as [t K'|t u1 t1 r1 ts1 ts2 O1 S1 R1].
  - apply (okt_seq G (Opt &"NL") y t t t r [] ts); [apply okt_opt_no | apply skip_clear, S | exact O]. eapply ko_call; [reflexivity|]. apply ko_seq1, K'.
  - destruct (run_plus G NEWLINE _ _ _ _ _ _ O1 S1 R1 (skip_clear _ (proj1 S))) as [v [OV SV]]. rewrite K in OV.
    apply (okt_seq G (Opt &"NL") y t v r1 r [] ts); [apply okt_opt | exact SV | exact O].
    apply (okt_silent G NonAtomic "NL" _ _ v [] eq_refl eq_refl). exact OV.
Qed.
Lemma asr_text_parsed ls t : ls <> [] -> Forall written ls -> asr_layout ls t -> parsed G "asr" t (map pair_of ls ++ [T "EOI" [] []]).
Proof.
  intros N F [k [b [t' [-> [V [B L]]]]]]. apply no_spaces in B. subst b. rewrite app_nil_l. destruct (laid_lines ls t' L F) as [S R].
  destruct (run_plus_ne _ _ _ _ R) as [v [O SV]]; [destruct ls; [contradiction N; reflexivity | discriminate] | apply skip_clear; intros r; discriminate|].
  assert (Y : okt G NonAtomic (Plus &"setting" ~~ EOI) t' [] (map pair_of ls ++ [T "EOI" [] []])).
  { eapply okt_seq; [exact O | exact SV | exists []; split; [reflexivity | apply ok_eoi; discriminate]]. }
  destruct (start_ok k t' _ [] _ V S Y) as [c [EC M]]. rewrite app_nil_r in EC. subst c. exists [].
  apply (m_call G NonAtomic "asr" KNormal _ true _ [] (Some (k ++ t', [], [], map pair_of ls ++ [T "EOI" [] []])) eq_refl).
  pose proof (ok_soi_seq G _ _ _ _ M []) as X. rewrite app_nil_r in X. exact X.
Qed.
