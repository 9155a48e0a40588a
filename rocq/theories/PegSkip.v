(** Implicit white space and comments of the grammars, in both directions. *)
From Coq Require Import ZifyBool ZifyN ZifyNat.
From Verif Require Import Base Peg Grammars SpecPeg PegProofs PegLang PegForward.

Local Open Scope string_scope.
Local Open Scope list_scope.

Definition comment_start (r : text) : Prop := exists r', r = s2t ";" ++ r' \/ r = s2t "//" ++ r'.
Definition is_comment (c : text) : Prop :=
  exists s body, c = s ++ body /\ (s = s2t ";" \/ s = s2t "//") /\ Forall (fun x => negb (is_nl x) = true) body.
Definition gapped (f : N -> bool) (c r : text) : Prop :=
  exists bl cm, c = bl ++ cm /\ Forall (fun x => f x = true) bl /\
    ((cm = [] /\ stops f r /\ ~ comment_start r) \/ (is_comment cm /\ stops (fun x => negb (is_nl x)) r)).

Section Skip.
  Variable g : grammar.
  Variable f : N -> bool.
  Variable w : expr.
  Hypothesis Q : quiet g = true.
  Hypothesis has_ws : get "WHITESPACE" g = Some (KSilent, w).
  Hypothesis ws_ok : one g Atomic w f.
  Hypothesis ws_yes : one' g Atomic w f.

  Lemma one_ws a : one g a (Call "WHITESPACE") f.
  Proof. apply (one_call g a "WHITESPACE" KSilent w f has_ws); [exact ws_ok | exact I]. Qed.
  Lemma one'_ws a : one' g a (Call "WHITESPACE") f.
  Proof.
    split.
    - intros c r ts H. cbn [yes] in H. destruct (node_inv g Q _ _ _ _ _ H _ _ has_ws) as [ts' [Y ->]]. apply ws_yes in Y. exact Y.
    - intros r H. cbn [no] in H. apply (nonode_inv g Q _ _ _ H _ _) in has_ws. apply ws_yes, has_ws.
  Qed.

  (** Without comments *)
  Section Plain.
    Hypothesis no_comment : get "COMMENT" g = None.
    Lemma skip_plain_ok c r : Forall (fun x => f x = true) c -> stops f r -> ok g NonAtomic Skip c r [].
    Proof.
      intros F S b k. eapply m_skip.
      - apply skipped_ws; [|apply get_None; exact no_comment]. unfold defined. eapply get_Some_key, has_ws.
      - apply (ok_many_one g NonAtomic _ f c r (one_ws NonAtomic) F S).
    Qed.
    Lemma skip_plain_yes c r : skips g c r -> Forall (fun x => f x = true) c /\ stops f r.
    Proof.
      intros S. apply (skips_inv g Q) in S. destruct S as [e [S Y]].
      assert (DW : defined g "WHITESPACE") by (eapply get_Some_key, has_ws).
      assert (NC : ~ defined g "COMMENT") by (apply get_None; exact no_comment).
      destruct S; try contradiction. cbn [yes] in Y. apply (reps_one g NonAtomic (Call "WHITESPACE") f) in Y; [tauto | apply one'_ws].
    Qed.
  End Plain.

  Section Std.
    Hypothesis has_comment : get "COMMENT" g = Some (KSilent, comment_body).
    Hypothesis f_semi : f 59 = false.
    Hypothesis f_slash : f 47 = false.
    Hypothesis f_lf : f 10 = false.
    Hypothesis f_cr : f 13 = false.

    Lemma comment_ok a c r : is_comment c -> stops (fun x => negb (is_nl x)) r -> ok g a (Call "COMMENT") c r [].
    Proof.
      intros [s [body [-> [S F]]]] ST. eapply ok_eq; [eapply ok_call; [exact has_comment|]|reflexivity|reflexivity].
      change (body_atom "COMMENT" KSilent a) with Atomic.
      apply (ok_seq_at g Atomic _ _ s body r [] []); [discriminate| |].
      - destruct S as [->| ->]; [apply ok_alt1, ok_str|]. apply ok_alt2; [|apply ok_str]. apply ko_str. discriminate.
      - eapply ok_star_one; [discriminate | apply one_not_newline; discriminate | exact F | exact ST].
    Qed.
    Lemma comment_ko a r : ~ comment_start r -> ko g a (Call "COMMENT") r.
    Proof.
      intros N. eapply ko_call; [exact has_comment|]. apply ko_seq1.
      apply ko_alt; apply ko_str; intros r' ->; apply N; exists r'; auto.
    Qed.
    Lemma comment_yes a c r ts : node g "COMMENT" a c r ts -> is_comment c /\ stops (fun x => negb (is_nl x)) r /\ ts = [].
    Proof.
      intros H. destruct (node_inv g Q _ _ _ _ _ H _ _ has_comment) as [ts' [Y ->]].
      change (body_atom "COMMENT" KSilent a) with Atomic in Y. apply yes_seq_at in Y; [|discriminate].
      destruct Y as [c1 [c2 [t1 [t2 [-> [-> [Y1 Y2]]]]]]].
      apply (yes_star_one g Atomic _ _ _ _ _ ltac:(discriminate) (one'_not_newline g Atomic ltac:(discriminate))) in Y2.
      destruct Y2 as [F [S ->]].
      destruct Y1 as [[-> ->]|[_ [-> ->]]]; (split; [|auto]); eexists _, _; eauto.
    Qed.
    Lemma comment_no a r : nonode g "COMMENT" a r -> ~ comment_start r.
    Proof.
      intros H. pose proof (nonode_inv g Q _ _ _ H _ _ has_comment) as N.
      change (body_atom "COMMENT" KSilent a) with Atomic in N. intros [r' E].
      destruct N as [N|[c1 [r1 [t1 [-> [_ N]]]]]].
      - destruct N as [N1 N2]. destruct E as [->| ->]; [apply (N1 r') | apply (N2 r')]; reflexivity.
      - destruct N as [N|[c2 [r2 [t2 [-> [[_ Z] N]]]]]]; contradiction.
    Qed.
    Lemma nl_facts r : stops (fun x => negb (is_nl x)) r -> stops f r /\ ~ comment_start r.
    Proof.
      intros S. split.
      - destruct r as [|x r]; [exact I|]. cbn [stops] in *. apply negb_false_iff, orb_prop in S.
        destruct S as [S|S]; apply N.eqb_eq in S; subst x; assumption.
      - intros [r' [->| ->]]; discriminate S.
    Qed.
    Lemma comment_hd c r : is_comment c -> stops f (c ++ r).
    Proof. intros [s [body [-> [[->| ->] F]]]]; assumption. Qed.

    Lemma skip_std_ok c r : gapped f c r -> ok g NonAtomic Skip c r [].
    Proof.
      intros [bl [cm [-> [F C]]]]. assert (S1 : stops f (cm ++ r)).
      { destruct C as [[-> [S _]]|[C _]]; [exact S | apply comment_hd, C]. }
      assert (O : ok g NonAtomic (Then (Many (Call "WHITESPACE")) (Many (Then (Call "COMMENT") (Many (Call "WHITESPACE"))))) (bl ++ cm) r []).
      { apply (ok_then g NonAtomic _ _ bl cm r [] []); [apply (ok_many_one g NonAtomic _ f _ _ (one_ws NonAtomic) F S1)|].
        destruct C as [[-> [S N]]|[C S]].
        - apply ok_many_nil, ko_then1, comment_ko, N.
        - destruct (nl_facts r S) as [S' N].
          rewrite <- (app_nil_r cm). apply (ok_many_cons g NonAtomic _ cm [] r [] []); [|apply ok_many_nil, ko_then1, comment_ko, N].
          rewrite <- (app_nil_r cm). apply (ok_then g NonAtomic _ _ cm [] r [] []); [apply comment_ok; assumption|].
          apply (ok_many_one g NonAtomic _ f _ _ (one_ws NonAtomic)); [constructor | exact S']. }
      intros b k. eapply m_skip; [|apply O].
      apply skipped_both; unfold defined; eapply get_Some_key; eassumption.
    Qed.
    Lemma skip_std_yes c r : skips g c r -> gapped f c r.
    Proof.
      intros S. apply (skips_inv g Q) in S. destruct S as [e [S Y]].
      assert (DW : defined g "WHITESPACE") by (eapply get_Some_key, has_ws).
      assert (DC : defined g "COMMENT") by (eapply get_Some_key, has_comment).
      destruct S; try contradiction. destruct Y as [bl [cm [t1 [t2 [-> [_ [Y1 Y2]]]]]]].
      apply (reps_one g NonAtomic (Call "WHITESPACE") f) in Y1; [|apply one'_ws]. destruct Y1 as [F [S1 _]].
      exists bl, cm. split; [reflexivity|]. split; [exact F|].
      inversion Y2 as [r0 N|c1 c2 r0 u1 u2 HH R]; subst.
      - left. split; [reflexivity|]. cbn [app] in S1. split; [exact S1|].
        destruct N as [N|[? [? [? [? [_ N]]]]]]; [|contradiction]. eapply comment_no, N.
      - destruct HH as [d1 [d2 [v1 [v2 [-> [-> [D1 D2]]]]]]]. apply comment_yes in D1. destruct D1 as [C [ST _]].
        apply (reps_one g NonAtomic (Call "WHITESPACE") f) in D2; [|apply one'_ws]. destruct D2 as [FD [SD _]].
        assert (d2 = []) as ->.
        { destruct d2 as [|x d2]; [reflexivity|]. cbn [app stops] in ST. inversion FD as [|? ? FX _]; subst.
          apply negb_false_iff, orb_prop in ST. destruct ST as [ST|ST]; apply N.eqb_eq in ST; subst x; congruence. }
        cbn [app] in *.
        assert (c2 = []) as ->.
        { inversion R as [|e1 e2 r1 w1 w2 HH R']; [reflexivity|]; subst. destruct HH as [h1 [h2 [x1 [x2 [-> [-> [D1 _]]]]]]].
          apply comment_yes in D1. destruct D1 as [[s [body [-> [SS _]]]] _].
          destruct SS as [->| ->]; discriminate ST. }
        right. rewrite !app_nil_r. split; [exact C|]. exact ST.
    Qed.
    Lemma skip_std c r : skips g c r <-> gapped f c r.
    Proof.
      split; [apply skip_std_yes|]. intros G. exists true, [], []. apply skip_std_ok, G.
    Qed.
    (** Nothing but blanks before a character that starts something else *)
    Lemma gapped_blanks c r : gapped f c r -> ~ stops (fun x => negb (is_nl x)) r -> Forall (fun x => f x = true) c /\ stops f r.
    Proof.
      intros [bl [cm [-> [F [[-> [S _]]|[_ S]]]]]] N; [rewrite app_nil_r; auto | contradiction].
    Qed.
  End Std.
End Skip.

Lemma one_sptab g a : one g a SPTAB (fun x => (x =? 32) || (x =? 9))%N.
Proof. apply one_alt; apply one_chr. Qed.
Lemma one'_sptab g a : one' g a SPTAB (fun x => (x =? 32) || (x =? 9))%N.
Proof. apply one'_alt; apply one'_chr. Qed.
