(** Proofs about grammars in general. *)
From Coq Require Import ZifyBool ZifyN ZifyNat.
From Verif Require Import Base Peg Grammars SpecPeg.

(** ** Splitting *)
Lemma strip_Some s r r' : strip s r = Some r' <-> r = s ++ r'.
Proof.
  revert r; induction s as [|c s IH]; intros r; cbn [strip app].
  - split; congruence.
  - destruct r as [|c' r]; [split; discriminate|]. destruct (c =? c')%N eqn:E.
    + apply N.eqb_eq in E. subst. rewrite IH. split; intros H; [rewrite H; reflexivity | injection H; auto].
    + apply N.eqb_neq in E. split; intros H; [discriminate | injection H; congruence].
Qed.
Lemma strip_None s r : strip s r = None <-> forall r', r <> s ++ r'.
Proof.
  destruct (strip s r) as [r'|] eqn:E.
  - split; [discriminate|]. intros H. apply strip_Some in E. destruct (H _ E).
  - split; [|reflexivity]. intros _ r' H. apply strip_Some in H. congruence.
Qed.

Definition to_result (x : res) : option result :=
  match x with Ok c r k ts => Some (Some (c, r, k, ts)) | Fail => Some None | _ => None end.

Lemma bind_inv x b f y : bind x b f = y -> (forall c r k ts, y <> Ok c r k ts) \/
  exists c r k ts c' r' k' ts', x = Ok c r k ts /\ f (b && is_empty c) r k = Ok c' r' k' ts' /\ y = Ok (c ++ c') r' k' (ts ++ ts').
Proof.
  unfold bind. destruct x as [c r k ts| | |]; [|left; intros; subst; discriminate..].
  destruct (f _ r k) as [c' r' k' ts'| | |] eqn:E; [|left; intros; subst; discriminate..].
  intros <-. right. exists c, r, k, ts, c', r', k', ts'. auto.
Qed.
Lemma bind_Ok x b f c r k ts : bind x b f = Ok c r k ts <->
  exists c1 r1 k1 t1 c2 t2, x = Ok c1 r1 k1 t1 /\ f (b && is_empty c1) r1 k1 = Ok c2 r k t2 /\ c = c1 ++ c2 /\ ts = t1 ++ t2.
Proof.
  unfold bind. split.
  - destruct x as [c1 r1 k1 t1| | |]; try discriminate. destruct (f _ r1 k1) as [c2 r2 k2 t2| | |] eqn:E; try discriminate.
    intros H. injection H as <- <- <- <-. exists c1, r1, k1, t1, c2, t2. auto.
  - intros [c1 [r1 [k1 [t1 [c2 [t2 [-> [E [-> ->]]]]]]]]]. rewrite E. reflexivity.
Qed.

Definition splits (f : parser) : Prop := forall b r k c r' k' ts, f b r k = Ok c r' k' ts -> r = c ++ r'.
Lemma bind_splits (f g : parser) b : splits f -> splits g -> splits (fun b' r k => bind (f b r k) b' g).
Proof.
  intros F G b' r k c r' k' ts H. apply bind_Ok in H. destruct H as [c1 [r1 [k1 [t1 [c2 [t2 [E1 [E2 [-> _]]]]]]]]].
  apply F in E1. apply G in E2. rewrite <- app_assoc. congruence.
Qed.
Lemma many_n_splits n (f : parser) : splits f -> splits (many_n n f).
Proof.
  intros F. induction n as [|n IH]; intros b r k c r' k' ts; cbn [many_n]; [discriminate|].
  destruct (f b r k) as [[|c1 cs] r1 k1 t1| | |] eqn:E; try discriminate.
  - intros H. apply F in E. destruct (bind_Ok (Ok (c1 :: cs) r1 k1 t1) b (many_n n f) c r' k' ts) as [X _]. destruct (X H) as [? [? [? [? [c2 [t2 [E1 [E2 [-> _]]]]]]]]].
    injection E1 as <- <- <- <-. apply IH in E2. rewrite <- app_assoc. congruence.
  - intros H. injection H as <- <- <- <-. reflexivity.
Qed.
Lemma many_splits (f : parser) : splits f -> splits (many f).
Proof. intros F b r k. apply many_n_splits, F. Qed.

Section Soundness.
  Variable g : grammar.
  Definition sound (f : parser) (a : atom) (e : expr) : Prop :=
    forall b r k o, to_result (f b r k) = Some o -> matches g a e b r k o.

  Lemma start_iff b (c : text) : (b && is_empty c = true <-> b = true /\ c = []).
  Proof. destruct b, c; cbn; split; intros H; try discriminate; try (destruct H; discriminate); auto. Qed.

  Lemma sound_bind (f h : parser) a e1 e2 : sound f a e1 -> sound h a e2 -> sound (fun b r k => bind (f b r k) b h) a (Then e1 e2).
  Proof.
    intros F H b r k o. unfold bind. specialize (F b r k). destruct (f b r k) as [c1 r1 k1 t1| | |]; cbn [to_result] in *; try discriminate.
    - specialize (F _ eq_refl). specialize (H (b && is_empty c1) r1 k1).
      destruct (h _ r1 k1) as [c2 r2 k2 t2| | |]; cbn [to_result] in *; try discriminate; intros E; injection E as <-.
      + eapply m_then; [exact F | apply start_iff | apply H; reflexivity].
      + eapply m_then_not2; [exact F | apply start_iff | apply H; reflexivity].
    - intros E; injection E as <-. apply m_then_not1, F. reflexivity.
  Qed.

  Lemma many_n_not_fail n f b r k : many_n n f b r k <> Fail.
  Proof.
    revert b r k; induction n as [|n IH]; intros b r k; cbn [many_n]; [discriminate|].
    destruct (f b r k) as [[|c1 cs] r1 k1 t1| | |]; try discriminate. unfold bind.
    specialize (IH (b && is_empty (c1 :: cs)) r1 k1). destruct (many_n n f _ r1 k1); congruence.
  Qed.

  Lemma sound_many_n n (f : parser) a e : sound f a e -> sound (many_n n f) a (Many e).
  Proof.
    intros F. induction n as [|n IH]; intros b r k o; cbn [many_n]; [discriminate|].
    specialize (F b r k). destruct (f b r k) as [[|c1 cs] r1 k1 t1| | |]; cbn [to_result] in F; try discriminate.
    - specialize (F _ eq_refl). unfold bind. specialize (IH (b && is_empty (c1 :: cs)) r1 k1).
      pose proof (many_n_not_fail n f (b && is_empty (c1 :: cs)) r1 k1) as NF.
      destruct (many_n n f _ r1 k1) as [c2 r2 k2 t2| | |]; try congruence; cbn [to_result] in *; try discriminate.
      intros E; injection E as <-. eapply (m_many_go g a e b _ r k (c1 :: cs)); [exact F | apply start_iff | apply IH; reflexivity].
    - intros E; injection E as <-. apply m_many_stop, F. reflexivity.
  Qed.
  Lemma sound_many (f : parser) a e : sound f a e -> sound (many f) a (Many e).
  Proof. intros F b r k o. apply sound_many_n, F. Qed.

  Variable call : string -> atom -> parser.
  Hypothesis call_sound : forall n a, sound (call n a) a (Call n).

  Lemma has_defined n : if has_rule g n then defined g n else ~ defined g n.
  Proof.
    unfold has_rule, defined. destruct (get n g) eqn:E; [eapply get_Some_key, E | apply get_None, E].
  Qed.

  Lemma skip_sound a : sound (skip (has_rule g) call a) a Skip.
  Proof.
    intros b r k o. unfold skip. pose proof (has_defined "WHITESPACE") as W. pose proof (has_defined "COMMENT") as C.
    destruct a; [|intros E; injection E as <-; apply m_skip_atomic; discriminate..].
    destruct (has_rule g "WHITESPACE"), (has_rule g "COMMENT"); intros E.
    - eapply m_skip; [apply skipped_both; assumption|].
      revert E. apply (sound_bind (many (call "WHITESPACE" NonAtomic))).
      + apply sound_many, call_sound.
      + apply sound_many. apply (sound_bind (call "COMMENT" NonAtomic)); [apply call_sound | apply sound_many, call_sound].
    - eapply m_skip; [apply skipped_ws; assumption|]. revert E. apply sound_many, call_sound.
    - eapply m_skip; [apply skipped_comment; assumption|]. revert E. apply sound_many, call_sound.
    - eapply m_skip; [apply skipped_none; assumption|]. injection E as <-. apply (m_str g NonAtomic [] b r k).
  Qed.

  Lemma eval_sound a e : sound (eval (has_rule g) call a e) a e.
  Proof.
    induction e as [s|f| | |n|e1 IH1 e2 IH2|e1 IH1 e2 IH2|e IH|e IH|e IH|e IH| |]; intros b r k o; cbn [eval].
    - destruct (strip s r) as [r'|] eqn:E; cbn [to_result]; intros H; injection H as <-.
      + apply strip_Some in E. subst. apply m_str.
      + apply m_str_not, strip_None, E.
    - destruct r as [|c r]; [|destruct (f c) eqn:E]; cbn [to_result]; intros H; injection H as <-; [apply m_sat_end | apply m_sat, E | apply m_sat_not, E].
    - destruct b; cbn [to_result]; intros H; injection H as <-; [apply m_soi | apply m_soi_not].
    - destruct r as [|c r]; cbn [to_result]; intros H; injection H as <-; [|apply m_eoi_not].
      pose proof (m_eoi g a b k) as M. destruct a; exact M.
    - apply call_sound.
    - apply (sound_bind (eval (has_rule g) call a e1)); assumption.
    - specialize (IH1 b r k). specialize (IH2 b r k o). destruct (eval _ _ a e1 b r k); cbn [to_result] in *; intros H; try discriminate.
      + injection H as <-. apply m_alt1, IH1. reflexivity.
      + apply m_alt2; [apply IH1; reflexivity | apply IH2, H].
    - unfold opt. specialize (IH b r k). destruct (eval _ _ a e b r k); cbn [to_result] in *; intros H; try discriminate; injection H as <-.
      + apply m_opt, IH. reflexivity.
      + apply m_opt_not, IH. reflexivity.
    - apply sound_many, IH.
    - specialize (IH b r k). destruct (eval _ _ a e b r k); cbn [to_result] in *; intros H; try discriminate; injection H as <-.
      + eapply m_not_not, IH. reflexivity.
      + apply m_not, IH. reflexivity.
    - specialize (IH b r k). destruct (eval _ _ a e b r k); cbn [to_result] in *; intros H; try discriminate; injection H as <-.
      + apply m_push, IH. reflexivity.
      + apply m_push_not, IH. reflexivity.
    - destruct k as [|s k]; [discriminate|]. destruct (strip s r) as [r'|] eqn:E; cbn [to_result]; intros H; injection H as <-.
      + apply strip_Some in E. subst. apply m_pop.
      + apply m_pop_not, strip_None, E.
    - apply skip_sound.
  Qed.
End Soundness.

Lemma wrap_result n a x o : to_result (wrap n a x) = Some o -> exists o', to_result x = Some o' /\ o = record n a o'.
Proof.
  destruct x as [c r k ts| | |]; cbn [wrap to_result]; intros H; try discriminate; injection H as <-; eexists; (split; [reflexivity|]); reflexivity.
Qed.
Lemma implicit_body n kd (a : atom) : kd = KNormal \/ kd = KSilent -> (if implicit n then Atomic else a) = body_atom n kd a.
Proof.
  intros H. unfold implicit, eqb, body_atom. unfold eq_dec, EqDec_string.
  destruct H as [-> | ->]; destruct (string_dec n "WHITESPACE"), (string_dec n "COMMENT"); reflexivity.
Qed.
Lemma run_sound g d : forall n a, sound g (run d g n a) a (Call n).
Proof.
  induction d as [|d IH]; intros n a b r k o; cbn [run]; [discriminate|].
  destruct (get n g) as [[kd e]|] eqn:G; [|discriminate].
  pose proof (eval_sound g (run d g) IH) as ES. destruct kd.
  - rewrite (implicit_body n KNormal) by auto. intros H. apply wrap_result in H. destruct H as [o' [E ->]].
    apply (m_call g a n KNormal e b r k o' G). apply ES, E.
  - rewrite (implicit_body n KSilent) by auto. intros H.
    apply (m_call g a n KSilent e b r k o G). apply ES, H.
  - intros H. apply wrap_result in H. destruct H as [o' [E ->]].
    apply (m_call g a n KAtomic e b r k o' G). apply ES, E.
  - intros H. apply wrap_result in H. destruct H as [o' [E ->]].
    apply (m_call g a n KCompound e b r k o' G). apply ES, E.
Qed.

(** ** Determinism *)
Lemma skipped_unique g e e' : skipped g e -> skipped g e' -> e = e'.
Proof. intros [] []; tauto || reflexivity. Qed.
Lemma start_unique b (c : text) b1 b2 : (b1 = true <-> b = true /\ c = []) -> (b2 = true <-> b = true /\ c = []) -> b1 = b2.
Proof. intros [A B] [C D]. destruct b1, b2; try reflexivity; [symmetry|]; auto. Qed.
Lemma matches_det g a e b r k o1 : matches g a e b r k o1 -> forall o2, matches g a e b r k o2 -> o1 = o2.
Proof.
  induction 1; intros o2 M2; inversion M2; subst; try reflexivity; try congruence;
  repeat match goal with
  | H : ?s ++ _ = ?s ++ _ |- _ => apply app_inv_head in H; subst
  | H : forall r', ?s ++ ?r <> ?s ++ r' |- _ => exfalso; eapply H; reflexivity
  | G1 : get ?n ?g = Some _, G2 : get ?n ?g = Some _ |- _ => rewrite G1 in G2; injection G2 as <- <-
  | S1 : skipped ?g _, S2 : skipped ?g _ |- _ => pose proof (skipped_unique _ _ _ S1 S2); subst; clear S2
  | IH : forall o2, matches ?g ?a ?e ?b ?r ?k o2 -> _ = o2, M : matches ?g ?a ?e ?b ?r ?k _ |- _ =>
      apply IH in M; first [discriminate M | injection M as; subst | subst]
  | S1 : (?b1 = true <-> ?b = true /\ ?c = []), S2 : (?b2 = true <-> ?b = true /\ ?c = []) |- _ =>
      pose proof (start_unique _ _ _ _ S1 S2); subst; clear S2
  end; try reflexivity; try congruence; try (exfalso; congruence).
Qed.

(** ** Evaluation splits the rest *)
Section Splits.
  Variable has : string -> bool.
  Variable call : string -> atom -> parser.
  Hypothesis call_splits : forall n a, splits (call n a).
  Lemma bind_splits' (f h : parser) : splits f -> splits h -> splits (fun b r k => bind (f b r k) b h).
  Proof. intros F H b. apply (bind_splits f h b F H b). Qed.
  Lemma skip_splits a : splits (skip has call a).
  Proof.
    intros b r k c r' k' ts. unfold skip. destruct a; [|intros E; injection E as <- <- <- <-; reflexivity..].
    destruct (has "WHITESPACE"), (has "COMMENT").
    - apply (bind_splits' (many (call "WHITESPACE" NonAtomic))); apply many_splits; [apply call_splits|].
      apply bind_splits'; [apply call_splits | apply many_splits, call_splits].
    - apply many_splits, call_splits.
    - apply many_splits, call_splits.
    - intros E; injection E as <- <- <- <-; reflexivity.
  Qed.
  Lemma eval_splits a e : splits (eval has call a e).
  Proof.
    induction e as [s|f| | |n|e1 IH1 e2 IH2|e1 IH1 e2 IH2|e IH|e IH|e IH|e IH| |]; intros b r k c r' k' ts; cbn [eval].
    - destruct (strip s r) as [r1|] eqn:E; [|discriminate]. intros H; injection H as <- <- <- <-. apply strip_Some, E.
    - destruct r as [|x r]; [discriminate|]. destruct (f x); [|discriminate]. intros H; injection H as <- <- <- <-. reflexivity.
    - destruct b; [|discriminate]. intros H; injection H as <- <- <- <-. reflexivity.
    - destruct r as [|x r]; [|discriminate]. intros H; injection H as <- <- <- <-. reflexivity.
    - apply call_splits.
    - apply (bind_splits' (eval has call a e1)); assumption.
    - specialize (IH1 b r k). destruct (eval has call a e1 b r k); intros H; try discriminate; [|eapply IH2, H]. eapply IH1. exact H.
    - unfold opt. specialize (IH b r k). destruct (eval has call a e b r k); intros H; try discriminate; [eapply IH; exact H|].
      injection H as <- <- <- <-. reflexivity.
    - apply many_splits, IH.
    - destruct (eval has call a e b r k); intros H; try discriminate. injection H as <- <- <- <-. reflexivity.
    - specialize (IH b r k). destruct (eval has call a e b r k) as [c1 r1 k1 t1| | |]; intros H; try discriminate.
      injection H as <- <- <- <-. eapply IH. reflexivity.
    - destruct k as [|s k]; [discriminate|]. destruct (strip s r) as [r1|] eqn:E; [|discriminate]. intros H; injection H as <- <- <- <-. apply strip_Some, E.
    - apply skip_splits.
  Qed.
End Splits.
Lemma wrap_Ok n a x c r k ts : wrap n a x = Ok c r k ts ->
  exists ts', x = Ok c r k ts' /\ ts = match a with Atomic => ts' | _ => [T n c ts'] end.
Proof. destruct x; cbn [wrap]; intros H; try discriminate. injection H as <- <- <- <-. eauto. Qed.
Lemma run_splits g d : forall n a, splits (run d g n a).
Proof.
  induction d as [|d IH]; intros n a b r k c r' k' ts; cbn [run]; [discriminate|].
  destruct (get n g) as [[kd e]|]; [|discriminate].
  pose proof (eval_splits (has_rule g) (run d g) IH) as ES.
  destruct kd; intros H; try (apply wrap_Ok in H; destruct H as [ts' [H _]]); eapply ES, H.
Qed.

(** ** A check that guarantees results *)
Section Check.
  Variable g : grammar.
  (** may the expression succeed without consuming anything? *)
  Section Expr.
    Variable cn : string -> bool.
    Fixpoint nul (e : expr) : bool :=
      match e with
      | Str s => is_empty s
      | Sat _ => false
      | Call n => cn n
      | Then a b => nul a && nul b
      | Alt a b => nul a || nul b
      | Push a => nul a
      | _ => true
      end.
    (** from a stack of at least [m] texts: no empty repetition, no pop of an empty stack; a bound on the stack after it *)
    Variable cc : string -> atom -> nat -> option nat.
    Definition stable (n : string) (m : nat) : bool := negb (cn n) && match cc n NonAtomic m with Some x => m <=? x | None => false end.
    Fixpoint chk (a : atom) (e : expr) (m : nat) : option nat :=
      match e with
      | Str _ | Sat _ | SOI | EOI => Some m
      | Call n => cc n a m
      | Then e f => match chk a e m with Some x => chk a f x | None => None end
      | Alt e f => match chk a e m, chk a f m with Some x, Some y => Some (Nat.min x y) | _, _ => None end
      | Opt e => match chk a e m with Some x => Some (Nat.min x m) | None => None end
      | Many e => if nul e then None else match chk a e m with Some x => if m <=? x then Some m else None | None => None end
      | Not e => match chk a e m with Some _ => Some m | None => None end
      | Push e => match chk a e m with Some x => Some (S x) | None => None end
      | Pop => match m with O => None | S m => Some m end
      | Skip =>
        match a with
        | NonAtomic =>
          if (negb (has_rule g "WHITESPACE") || stable "WHITESPACE" m) && (negb (has_rule g "COMMENT") || stable "COMMENT" m)
                then Some m else None
        | _ => Some m
        end
      end.
  End Expr.
  Fixpoint nulr (d : nat) (n : string) : bool :=
    match d with
    | O => true
    | S d => match get n g with None => true | Some (_, e) => nul (nulr d) e end
    end.
  Fixpoint chkr (d : nat) (n : string) (a : atom) (m : nat) : option nat :=
    match d with
    | O => None
    | S d => match get n g with None => None | Some (kd, e) =>
        chk (nulr d) (chkr d) match kd with KAtomic => Atomic | KCompound => Compound | _ => if implicit n then Atomic else a end e m end
    end.

  Definition nul_ok (f : parser) (nullable : bool) : Prop := forall b r k r' k' ts, f b r k = Ok [] r' k' ts -> nullable = true.
  Definition returns (f : parser) (m m' : nat) : Prop := forall b r k, m <= List.length k ->
    match f b r k with Ok _ _ k' _ => m' <= List.length k' | Fail => True | _ => False end.

  Section Eval.
    Variable cn : string -> bool.
    Variable cc : string -> atom -> nat -> option nat.
    Variable call : string -> atom -> parser.
    Hypothesis call_splits : forall n a, splits (call n a).
    Hypothesis call_nul : forall n a, nul_ok (call n a) (cn n).
    Hypothesis call_ret : forall n a m m', cc n a m = Some m' -> returns (call n a) m m'.

    Lemma eval_nul a e : nul_ok (eval (has_rule g) call a e) (nul cn e).
    Proof.
      induction e as [s|f| | |n|e1 IH1 e2 IH2|e1 IH1 e2 IH2|e IH|e IH|e IH|e IH| |]; intros b r k r' k' ts; cbn [eval nul]; try (intros; reflexivity).
      - destruct (strip s r); [|discriminate]. intros H; injection H as -> _ _ _. reflexivity.
      - destruct r as [|c r]; [discriminate|]. destruct (f c); discriminate.
      - apply call_nul.
      - intros H. apply bind_Ok in H. destruct H as [c1 [r1 [k1 [t1 [c2 [t2 [E1 [E2 [E _]]]]]]]]].
        symmetry in E. apply app_eq_nil in E. destruct E as [-> ->]. apply IH1 in E1. apply IH2 in E2. rewrite E1, E2. reflexivity.
      - specialize (IH1 b r k). destruct (eval _ _ a e1 b r k) eqn:E; intros H; try discriminate.
        + injection H as -> -> -> ->. rewrite (IH1 _ _ _ eq_refl). reflexivity.
        + apply IH2 in H. rewrite H. apply orb_true_r.
      - specialize (IH b r k). destruct (eval _ _ a e b r k); intros H; try discriminate. injection H as -> -> _ _. eapply IH. reflexivity.
    Qed.

    Lemma returns_bind (f h : parser) m m1 m2 : returns f m m1 -> returns h m1 m2 -> returns (fun b r k => bind (f b r k) b h) m m2.
    Proof.
      intros F H b r k L. specialize (F b r k L). unfold bind. destruct (f b r k) as [c1 r1 k1 t1| | |]; try contradiction; [|exact I].
      specialize (H (b && is_empty c1) r1 k1 F). destruct (h _ r1 k1); try contradiction; auto.
    Qed.
    Lemma returns_le f m m1 m2 : returns f m m1 -> m2 <= m1 -> returns f m m2.
    Proof. intros F L b r k H. specialize (F b r k H). destruct (f b r k); try contradiction; [lia | exact I]. Qed.
    Lemma returns_many (f : parser) m m' : splits f -> nul_ok f false -> returns f m m' -> m <= m' -> returns (many f) m m.
    Proof.
      intros SP NU RE LE b r k L. unfold many. assert (G : List.length r < S (List.length r)) by lia. revert G.
      generalize (S (List.length r)) as n. intros n. revert b r k L. induction n as [|n IH]; intros b r k L G; [lia|]. cbn [many_n].
      pose proof (RE b r k L) as RE1. destruct (f b r k) as [[|c1 cs] r1 k1 t1| | |] eqn:E; try contradiction; [| |exact L].
      - apply NU in E. discriminate.
      - apply SP in E. subst r. rewrite app_length in G. cbn [List.length] in G. unfold bind.
        specialize (IH (b && is_empty (c1 :: cs)) r1 k1 ltac:(lia) ltac:(lia)). destruct (many_n n f _ r1 k1); auto.
    Qed.

    Lemma stable_spec n m : stable cn cc n m = true -> nul_ok (call n NonAtomic) false /\ exists m', returns (call n NonAtomic) m m' /\ m <= m'.
    Proof.
      unfold stable. intros H. apply andb_prop in H. destruct H as [N H]. apply negb_true_iff in N. split.
      - rewrite <- N. apply call_nul.
      - destruct (cc n NonAtomic m) as [x|] eqn:E; [|discriminate]. apply Nat.leb_le in H. exists x. split; [apply call_ret, E | exact H].
    Qed.
    Lemma skip_ret a m : (negb (has_rule g "WHITESPACE") || stable cn cc "WHITESPACE" m) && (negb (has_rule g "COMMENT") || stable cn cc "COMMENT" m) = true ->
      returns (skip (has_rule g) call a) m m.
    Proof.
      intros H. apply andb_prop in H. destruct H as [HW HC].
      assert (W : has_rule g "WHITESPACE" = true -> returns (many (call "WHITESPACE" NonAtomic)) m m).
      { intros E. rewrite E in HW. cbn [negb orb] in HW. destruct (stable_spec _ _ HW) as [N [m' [R L]]].
        eapply returns_many; eauto. }
      destruct a; [|intros b r k L; exact L..]. intros b r k. unfold skip.
      destruct (has_rule g "WHITESPACE") eqn:EW, (has_rule g "COMMENT") eqn:EC; cbn [negb orb] in HC.
      - destruct (stable_spec _ _ HC) as [N [m' [R L]]].
        apply (returns_bind (many (call "WHITESPACE" NonAtomic)) _ m m m); [apply W; reflexivity|].
        apply (returns_many _ m m); [| | |lia].
        + apply bind_splits'; [apply call_splits | apply many_splits, call_splits].
        + intros b' r0 k0 r' k' ts E. apply bind_Ok in E. destruct E as [c1 [r1 [k1 [t1 [c2 [t2 [E1 [E2 [E _]]]]]]]]].
          symmetry in E. apply app_eq_nil in E. destruct E as [-> ->]. eapply N, E1.
        + apply returns_bind with m; [eapply returns_le; eassumption | apply W; reflexivity].
      - apply W. reflexivity.
      - destruct (stable_spec _ _ HC) as [N [m' [R L]]]. eapply returns_many; eauto.
      - intros L; exact L.
    Qed.

    Lemma eval_ret a e : forall m m', chk cn cc a e m = Some m' -> returns (eval (has_rule g) call a e) m m'.
    Proof.
      induction e as [s|f| | |n|e1 IH1 e2 IH2|e1 IH1 e2 IH2|e IH|e IH|e IH|e IH| |]; intros m m' C; cbn [chk] in C.
      - injection C as <-. intros b r k L. cbn [eval]. destruct (strip s r); auto.
      - injection C as <-. intros b r k L. cbn [eval]. destruct r as [|c r]; [exact I|]. destruct (f c); auto.
      - injection C as <-. intros b r k L. cbn [eval]. destruct b; auto.
      - injection C as <-. intros b r k L. cbn [eval]. destruct r; auto.
      - apply call_ret, C.
      - destruct (chk cn cc a e1 m) as [x|] eqn:E; [|discriminate]. intros b r k. cbn [eval].
        apply (returns_bind (eval (has_rule g) call a e1) _ m x m'); [apply IH1, E | apply IH2, C].
      - destruct (chk cn cc a e1 m) as [x|] eqn:E1; [|discriminate]. destruct (chk cn cc a e2 m) as [y|] eqn:E2; [|discriminate]. injection C as <-.
        intros b r k L. cbn [eval]. pose proof (IH1 _ _ E1 b r k L) as R1. pose proof (IH2 _ _ E2 b r k L) as R2.
        destruct (eval _ _ a e1 b r k); try contradiction; [lia|]. destruct (eval _ _ a e2 b r k); try contradiction; [lia | exact I].
      - destruct (chk cn cc a e m) as [x|] eqn:E; [|discriminate]. injection C as <-. intros b r k L. cbn [eval]. unfold opt.
        pose proof (IH _ _ E b r k L) as R. destruct (eval _ _ a e b r k); try contradiction; lia.
      - destruct (nul cn e) eqn:N; [discriminate|]. destruct (chk cn cc a e m) as [x|] eqn:E; [|discriminate].
        destruct (m <=? x) eqn:LE; [|discriminate]. injection C as <-. apply Nat.leb_le in LE. intros b r k. cbn [eval].
        apply (returns_many (eval (has_rule g) call a e) m x); [apply eval_splits, call_splits | rewrite <- N; apply eval_nul | apply IH, E | exact LE].
      - destruct (chk cn cc a e m) as [x|] eqn:E; [|discriminate]. injection C as <-. intros b r k L. cbn [eval].
        pose proof (IH _ _ E b r k L) as R. destruct (eval _ _ a e b r k); try contradiction; auto.
      - destruct (chk cn cc a e m) as [x|] eqn:E; [|discriminate]. injection C as <-. intros b r k L. cbn [eval].
        pose proof (IH _ _ E b r k L) as R. destruct (eval _ _ a e b r k); try contradiction; cbn [List.length]; [lia | exact I].
      - destruct m as [|m]; [discriminate|]. injection C as <-. intros b r k L. cbn [eval]. destruct k as [|s k]; cbn [List.length] in L; [lia|].
        destruct (strip s r); [lia | exact I].
      - destruct a; [|injection C as <-; intros b r k L; exact L..]. match type of C with (if ?c then _ else _) = _ => destruct c eqn:E end; [|discriminate]. injection C as <-. apply skip_ret, E.
    Qed.
  End Eval.

  Lemma run_nul d : forall n a, nul_ok (run d g n a) (nulr d n).
  Proof.
    induction d as [|d IH]; intros n a b r k r' k' ts; cbn [run nulr]; [discriminate|].
    destruct (get n g) as [[kd e]|]; [|reflexivity].
    pose proof (eval_nul (nulr d) (run d g) IH) as EN.
    destruct kd; intros H; try (apply wrap_Ok in H; destruct H as [ts' [H _]]); eapply EN, H.
  Qed.
  Lemma returns_wrap f n a m m' : returns f m m' -> returns (fun b r k => wrap n a (f b r k)) m m'.
  Proof. intros R b r k L. specialize (R b r k L). destruct (f b r k); auto. Qed.
  Lemma run_ret d : forall n a m m', chkr d n a m = Some m' -> returns (run d g n a) m m'.
  Proof.
    induction d as [|d IH]; intros n a m m'; cbn [chkr]; [discriminate|].
    destruct (get n g) as [[kd e]|] eqn:G; [|discriminate]. intros C b r k L. cbn [run]. rewrite G.
    pose proof (eval_ret (nulr d) (chkr d) (run d g) (run_splits g d) (run_nul d) IH _ e m m' C) as ER.
    destruct kd.
    - apply (returns_wrap _ n a m m' ER b r k L).
    - apply (ER b r k L).
    - apply (returns_wrap _ n a m m' ER b r k L).
    - apply (returns_wrap _ n _ m m' ER b r k L).
  Qed.
End Check.

Definition checks (g : grammar) (start : string) : bool :=
  match chkr g (S (List.length g)) start NonAtomic 0 with Some _ => true | None => false end.
Lemma checks_returns g start : checks g start = true -> forall t,
  (exists c r k ts, parse g start t = Ok c r k ts) \/ parse g start t = Fail.
Proof.
  unfold checks, parse. destruct (chkr g (S (List.length g)) start NonAtomic 0) as [m|] eqn:E; [|discriminate]. intros _ t.
  pose proof (run_ret g _ start NonAtomic 0 m E true t [] (Nat.le_0_l _)) as R.
  destruct (run _ g start NonAtomic true t []); try contradiction; eauto 10.
Qed.
Lemma checks_total g start : checks g start = true -> forall t, exists o, matches g NonAtomic (Call start) true t [] o /\
  forall o', matches g NonAtomic (Call start) true t [] o' -> o' = o.
Proof.
  intros C t. destruct (checks_returns g start C t) as [[c [r [k [ts E]]]]|E].
  - exists (Some (c, r, k, ts)). assert (M : matches g NonAtomic (Call start) true t [] (Some (c, r, k, ts))).
    { apply (run_sound g (S (List.length g))). unfold parse in E. rewrite E. reflexivity. }
    split; [exact M|]. intros o' M'. symmetry. eapply matches_det; eassumption.
  - exists None. assert (M : matches g NonAtomic (Call start) true t [] None).
    { apply (run_sound g (S (List.length g))). unfold parse in E. rewrite E. reflexivity. }
    split; [exact M|]. intros o' M'. symmetry. eapply matches_det; eassumption.
Qed.

(** ** Pairs lie inside the text *)
Lemma within_gap g s ts : within s ts -> within (g ++ s) ts.
Proof. intros W. destruct W as [gap|gap n s' kids rest ts W1 W2]; [constructor|]. rewrite app_assoc. constructor; assumption. Qed.
Lemma within_app s1 t1 s2 t2 : within s1 t1 -> within s2 t2 -> within (s1 ++ s2) (t1 ++ t2).
Proof.
  intros W1 W2. induction W1 as [gap|gap n s kids rest ts W _ W1 IH]; [apply within_gap, W2|].
  rewrite <- !app_assoc. cbn [app]. constructor; assumption.
Qed.
Lemma within_one n s ts : within s ts -> within s [T n s ts].
Proof. intros W. rewrite <- (app_nil_r s) at 1. apply (within_cons [] n s ts [] []); [exact W | constructor]. Qed.
Definition inside (f : parser) : Prop := forall b r k c r' k' ts, f b r k = Ok c r' k' ts -> within c ts.
Lemma bind_inside (f h : parser) : inside f -> inside h -> inside (fun b r k => bind (f b r k) b h).
Proof.
  intros F H b r k c r' k' ts E. apply bind_Ok in E. destruct E as [c1 [r1 [k1 [t1 [c2 [t2 [E1 [E2 [-> ->]]]]]]]]].
  apply within_app; [eapply F, E1 | eapply H, E2].
Qed.
Lemma many_inside (f : parser) : inside f -> inside (many f).
Proof.
  intros F b r k. unfold many. generalize (S (List.length r)) as n. intros n. revert b r k.
  induction n as [|n IH]; intros b r k c r' k' ts; cbn [many_n]; [discriminate|].
  pose proof (F b r k) as F1. destruct (f b r k) as [[|c1 cs] r1 k1 t1| | |]; intros E; try discriminate.
  - apply bind_Ok in E. destruct E as [c1' [r1' [k1' [t1' [c2 [t2 [E1 [E2 [-> ->]]]]]]]]].
    apply within_app; [eapply F1, E1 | eapply IH, E2].
  - injection E as <- <- <- <-. constructor.
Qed.
Section Inside.
  Variable has : string -> bool.
  Variable call : string -> atom -> parser.
  Hypothesis call_inside : forall n a, inside (call n a).
  Lemma skip_inside a : inside (skip has call a).
  Proof.
    assert (I0 : inside (fun _ r k => Ok [] r k [])). { intros b r k c r' k' ts E. injection E as <- <- <- <-. constructor. }
    unfold skip. destruct a; [|exact I0..].
    destruct (has "WHITESPACE"), (has "COMMENT"); [|apply many_inside, call_inside..|exact I0].
    apply (bind_inside (many (call "WHITESPACE" NonAtomic))); apply many_inside; [apply call_inside|].
    apply bind_inside; [apply call_inside | apply many_inside, call_inside].
  Qed.
  Lemma eval_inside a e : inside (eval has call a e).
  Proof.
    induction e as [s|f| | |n|e1 IH1 e2 IH2|e1 IH1 e2 IH2|e IH|e IH|e IH|e IH| |]; intros b r k c r' k' ts; cbn [eval].
    - destruct (strip s r) as [r1|]; [|discriminate]. intros H; injection H as <- <- <- <-. constructor.
    - destruct r as [|x r]; [discriminate|]. destruct (f x); [|discriminate]. intros H; injection H as <- <- <- <-. constructor.
    - destruct b; [|discriminate]. intros H; injection H as <- <- <- <-. constructor.
    - destruct r as [|x r]; [|discriminate]. intros H; injection H as <- <- <- <-. destruct a; try (apply within_one; constructor). constructor.
    - apply call_inside.
    - apply (bind_inside (eval has call a e1)); assumption.
    - specialize (IH1 b r k). destruct (eval has call a e1 b r k); intros H; try discriminate; [|eapply IH2, H]. eapply IH1. exact H.
    - unfold opt. specialize (IH b r k). destruct (eval has call a e b r k); intros H; try discriminate; [eapply IH; exact H|].
      injection H as <- <- <- <-. constructor.
    - apply many_inside, IH.
    - destruct (eval has call a e b r k); intros H; try discriminate. injection H as <- <- <- <-. constructor.
    - specialize (IH b r k). destruct (eval has call a e b r k) as [c1 r1 k1 t1| | |]; intros H; try discriminate.
      injection H as <- <- <- <-. eapply IH. reflexivity.
    - destruct k as [|s k]; [discriminate|]. destruct (strip s r) as [r1|]; [|discriminate]. intros H; injection H as <- <- <- <-. constructor.
    - apply skip_inside.
  Qed.
End Inside.
Lemma run_inside g d : forall n a, inside (run d g n a).
Proof.
  induction d as [|d IH]; intros n a b r k c r' k' ts; cbn [run]; [discriminate|].
  destruct (get n g) as [[kd e]|]; [|discriminate].
  pose proof (eval_inside (has_rule g) (run d g) IH) as ES.
  destruct kd; intros H; try (apply wrap_Ok in H; destruct H as [ts' [H ->]]); apply ES in H; try exact H; try (apply within_one; exact H).
  all: destruct a; [apply within_one; exact H..|exact H].
Qed.

(** ** The whole input is read *)
Fixpoint ends (e : expr) : bool :=
  match e with
  | EOI => true
  | Then _ b => ends b
  | Alt a b => ends a && ends b
  | _ => false
  end.
Lemma eval_ends has call a e : ends e = true -> forall b r k c r' k' ts, eval has call a e b r k = Ok c r' k' ts -> r' = [].
Proof.
  induction e as [s|f| | |n|e1 IH1 e2 IH2|e1 IH1 e2 IH2|e IH|e IH|e IH|e IH| |]; intros EN b r k c r' k' ts; cbn [ends] in EN; try discriminate; cbn [eval].
  - destruct r as [|x r]; [|discriminate]. intros H; injection H as <- <- <- <-. reflexivity.
  - intros E. apply bind_Ok in E. destruct E as [c1 [r1 [k1 [t1 [c2 [t2 [E1 [E2 _]]]]]]]]. eapply IH2; eassumption.
  - apply andb_prop in EN. destruct EN as [EN1 EN2]. specialize (IH1 EN1 b r k).
    destruct (eval has call a e1 b r k); intros H; try discriminate; [|eapply IH2; eassumption]. eapply IH1. exact H.
Qed.
Definition whole (g : grammar) (start : string) : bool := match get start g with Some (_, e) => ends e | None => false end.
Lemma parse_whole g start t c r k ts : whole g start = true -> parse g start t = Ok c r k ts -> c = t /\ within t ts.
Proof.
  intros W E. pose proof (run_inside g _ _ _ _ _ _ _ _ _ _ E) as I. pose proof (run_splits g _ _ _ _ _ _ _ _ _ _ E) as S.
  assert (R : r = []).
  { unfold parse in E. cbn [run] in E. unfold whole in W. destruct (get start g) as [[kd e]|]; [|discriminate].
    destruct kd; try (apply wrap_Ok in E; destruct E as [ts' [E _]]); eapply eval_ends; eassumption. }
  subst r. rewrite app_nil_r in S. subst c. auto.
Qed.

(** ** The grammars of the formats *)
Lemma formats_checked : Forall (fun x => checks (snd (fst x)) (snd x) = true) formats.
Proof. repeat (apply Forall_cons; [cbn [fst snd]; vm_cast_no_check (eq_refl true)|]). apply Forall_nil. Qed.
Lemma formats_whole : Forall (fun x => whole (snd (fst x)) (snd x) = true) formats.
Proof. repeat constructor. Qed.
