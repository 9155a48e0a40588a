(** Building matches: the other half of the tools for concrete grammars.  [ok] and [ko] do not depend on the stack
    nor on the position in the input. *)
From Coq Require Import ZifyBool ZifyN ZifyNat.
From Verif Require Import Base Peg Grammars SpecPeg PegProofs PegLang.

Section Forward.
  Variable g : grammar.
  Definition ok (a : atom) (e : expr) (c r : text) (ts : list tree) : Prop :=
    forall b k, matches g a e b (c ++ r) k (Some (c, r, k, ts)).
  Definition ko (a : atom) (e : expr) (r : text) : Prop := forall b k, matches g a e b r k None.

  Lemma ok_eq a e c r ts c' ts' : ok a e c r ts -> c' = c -> ts' = ts -> ok a e c' r ts'.
  Proof. intros H -> ->. exact H. Qed.
  Lemma ok_str a s r : ok a (Str s) s r [].
  Proof. intros b k. apply m_str. Qed.
  Lemma ko_str a s r : (forall r', r <> s ++ r') -> ko a (Str s) r.
  Proof. intros H b k. apply m_str_not, H. Qed.
  Lemma ok_sat a f x r : f x = true -> ok a (Sat f) [x] r [].
  Proof. intros H b k. apply m_sat, H. Qed.
  Definition stops (f : N -> bool) (r : text) : Prop := match r with x :: _ => f x = false | [] => True end.
  Lemma ko_sat a f r : stops f r -> ko a (Sat f) r.
  Proof. intros H b k. destruct r; [apply m_sat_end | apply m_sat_not, H]. Qed.
  Lemma ok_eoi a : a <> Atomic -> ok a EOI [] [] [T "EOI" [] []].
  Proof. intros A b k. pose proof (m_eoi g a b k) as M. destruct a; try exact M. contradiction A. reflexivity. Qed.
  Lemma ok_then a x y c1 c2 r t1 t2 : ok a x c1 (c2 ++ r) t1 -> ok a y c2 r t2 -> ok a (Then x y) (c1 ++ c2) r (t1 ++ t2).
  Proof.
    intros H1 H2 b k. rewrite <- app_assoc.
    apply (m_then g a x y b (b && is_empty c1) (c1 ++ c2 ++ r) k c1 (c2 ++ r) k t1 c2 r k t2); [apply H1| |apply H2].
    destruct b, c1; cbn; intuition congruence.
  Qed.
  Lemma ko_then1 a x y r : ko a x r -> ko a (Then x y) r.
  Proof. intros H b k. apply m_then_not1, H. Qed.
  Lemma ko_then2 a x y c1 r t1 : ok a x c1 r t1 -> ko a y r -> ko a (Then x y) (c1 ++ r).
  Proof.
    intros H1 H2 b k. apply (m_then_not2 g a x y b (b && is_empty c1) (c1 ++ r) k c1 r k t1); [apply H1| |apply H2].
    destruct b, c1; cbn; intuition congruence.
  Qed.
  Lemma ok_alt1 a x y c r ts : ok a x c r ts -> ok a (Alt x y) c r ts.
  Proof. intros H b k. apply m_alt1, H. Qed.
  Lemma ok_alt2 a x y c r ts : ko a x (c ++ r) -> ok a y c r ts -> ok a (Alt x y) c r ts.
  Proof. intros H H' b k. apply m_alt2; [apply H | apply H']. Qed.
  Lemma ko_alt a x y r : ko a x r -> ko a y r -> ko a (Alt x y) r.
  Proof. intros H H' b k. apply m_alt2; [apply H | apply H']. Qed.
  Lemma ok_opt a x c r ts : ok a x c r ts -> ok a (Opt x) c r ts.
  Proof. intros H b k. apply m_opt, H. Qed.
  Lemma ok_opt_no a x r : ko a x r -> ok a (Opt x) [] r [].
  Proof. intros H b k. apply m_opt_not, H. Qed.
  Lemma ok_not a x r : ko a x r -> ok a (Not x) [] r [].
  Proof. intros H b k. apply m_not, H. Qed.
  Lemma ko_not a x c r ts : ok a x c r ts -> ko a (Not x) (c ++ r).
  Proof. intros H b k. eapply m_not_not, H. Qed.
  Lemma ok_many_nil a x r : ko a x r -> ok a (Many x) [] r [].
  Proof. intros H b k. apply m_many_stop, H. Qed.
  Lemma ok_many_cons a x c1 c2 r t1 t2 : ok a x c1 (c2 ++ r) t1 -> ok a (Many x) c2 r t2 -> ok a (Many x) (c1 ++ c2) r (t1 ++ t2).
  Proof.
    intros H1 H2 b k. rewrite <- app_assoc.
    apply (m_many_go g a x b (b && is_empty c1) (c1 ++ c2 ++ r) k c1 (c2 ++ r) k t1 c2 r k t2); [apply H1| |apply H2].
    destruct b, c1; cbn; intuition congruence.
  Qed.
  Lemma ok_skip_atomic a r : a <> NonAtomic -> ok a Skip [] r [].
  Proof. intros A b k. apply m_skip_atomic, A. Qed.
  Lemma ok_call a n kd e c r ts : get n g = Some (kd, e) -> ok (body_atom n kd a) e c r ts ->
    ok a (Call n) c r match kd with KSilent => ts | KCompound => [T n c ts] | _ => match a with Atomic => ts | _ => [T n c ts] end end.
  Proof.
    intros G H b k. pose proof (m_call g a n kd e b (c ++ r) k _ G (H b k)) as M. destruct kd, a; exact M.
  Qed.
  Lemma ko_call a n kd e r : get n g = Some (kd, e) -> ko (body_atom n kd a) e r -> ko a (Call n) r.
  Proof. intros G H b k. pose proof (m_call g a n kd e b r k _ G (H b k)) as M. destruct kd; exact M. Qed.

  (** Without skipping *)
  Lemma ok_seq_at a x y c1 c2 r t1 t2 : a <> NonAtomic -> ok a x c1 (c2 ++ r) t1 -> ok a y c2 r t2 -> ok a (Seq x y) (c1 ++ c2) r (t1 ++ t2).
  Proof. intros A H1 H2. apply ok_then; [exact H1|]. apply (ok_then a Skip y [] c2 r [] t2); [apply ok_skip_atomic, A | exact H2]. Qed.
  Lemma ko_seq1 a x y r : ko a x r -> ko a (Seq x y) r.
  Proof. apply ko_then1. Qed.
  Lemma ko_seq2_at a x y c1 r t1 : a <> NonAtomic -> ok a x c1 r t1 -> ko a y r -> ko a (Seq x y) (c1 ++ r).
  Proof. intros A H1 H2. eapply ko_then2; [exact H1|]. apply (ko_then2 a Skip y [] r []); [apply ok_skip_atomic, A | exact H2]. Qed.
  Lemma ok_star_nil a x r : ko a x r -> ok a (Star x) [] r [].
  Proof. intros H. apply ok_opt_no, ko_then1, H. Qed.
  Lemma ok_many_sat a f c r : Forall (fun x => f x = true) c -> stops f r -> ok a (Many (Sat f)) c r [].
  Proof.
    intros F E. induction F as [|x c X _ IH]; [apply ok_many_nil, ko_sat, E|].
    apply (ok_many_cons a (Sat f) [x] c r [] []); [apply ok_sat, X | exact IH].
  Qed.
  Lemma ok_many_skip_sat a f c r : a <> NonAtomic -> Forall (fun x => f x = true) c -> stops f r -> ok a (Many (Then Skip (Sat f))) c r [].
  Proof.
    intros A F E. induction F as [|x c X _ IH].
    - apply ok_many_nil. apply (ko_then2 a Skip (Sat f) [] r []); [apply ok_skip_atomic, A | apply ko_sat, E].
    - apply (ok_many_cons a (Then Skip (Sat f)) [x] c r [] []); [|exact IH].
      apply (ok_then a Skip (Sat f) [] [x] (c ++ r) [] []); [apply ok_skip_atomic, A | apply ok_sat, X].
  Qed.
  Lemma ok_star_sat a f c r : a <> NonAtomic -> Forall (fun x => f x = true) c -> stops f r -> ok a (Star (Sat f)) c r [].
  Proof.
    intros A F E. destruct F as [|x c X F]; [apply ok_star_nil, ko_sat, E|]. apply ok_opt.
    apply (ok_then a (Sat f) _ [x] c r [] []); [apply ok_sat, X | apply ok_many_skip_sat; assumption].
  Qed.
  Lemma ok_plus_sat a f c r : a <> NonAtomic -> c <> [] -> Forall (fun x => f x = true) c -> stops f r -> ok a (Plus (Sat f)) c r [].
  Proof.
    intros A NE F E. destruct F as [|x c X F]; [contradiction NE; reflexivity|].
    apply (ok_seq_at a (Sat f) _ [x] c r [] []); [exact A | apply ok_sat, X | apply ok_star_sat; assumption].
  Qed.
  Lemma ko_plus_sat a f r : stops f r -> ko a (Plus (Sat f)) r.
  Proof. intros E. apply ko_seq1, ko_sat, E. Qed.

  (** Runs of an expression that reads one character *)
  Definition one (a : atom) (x : expr) (f : N -> bool) : Prop :=
    (forall c r, f c = true -> ok a x [c] r []) /\ (forall r, stops f r -> ko a x r).
  Lemma one_sat a f : one a (Sat f) f.
  Proof. split; intros; [apply ok_sat | apply ko_sat]; assumption. Qed.
  Lemma one_chr a c : one a (Str [c]) (fun x => (x =? c)%N).
  Proof.
    split.
    - intros x r E. apply N.eqb_eq in E. subst x. apply ok_str.
    - intros r E. apply ko_str. intros r' ->. cbn [app stops] in E. rewrite N.eqb_refl in E. discriminate.
  Qed.
  Lemma one_alt a x y f h : one a x f -> one a y h -> one a (Alt x y) (fun c => f c || h c).
  Proof.
    intros [X1 X2] [Y1 Y2]. split.
    - intros c r E. destruct (f c) eqn:F; [apply ok_alt1, X1, F|]. apply ok_alt2; [apply X2; exact F | apply Y1, E].
    - intros r E. destruct r as [|c r]; [apply ko_alt; [apply X2 | apply Y2]; exact I|]. cbn [stops] in E.
      apply orb_false_elim in E. destruct E. apply ko_alt; [apply X2 | apply Y2]; assumption.
  Qed.
  Lemma one_until a x f : a <> NonAtomic -> one a x f -> one a (until x) (fun c => negb (f c)).
  Proof.
    intros A [X1 X2]. split.
    - intros c r E. apply negb_true_iff in E. apply (ok_seq_at a (Not x) ANY [] [c] r [] []); [exact A | apply ok_not, X2, E | apply ok_sat; reflexivity].
    - intros r E. destruct r as [|c r].
      + apply (ko_seq2_at a (Not x) ANY [] [] []); [exact A | apply ok_not, X2; exact I | apply ko_sat; exact I].
      + cbn [stops] in E. apply negb_false_iff in E. apply ko_seq1. apply (ko_not a x [c] r []), X1, E.
  Qed.
  Lemma one_ext a x f h : one a x f -> (forall c, f c = h c) -> one a x h.
  Proof.
    intros [X1 X2] E. split.
    - intros c r H. apply X1. rewrite E. exact H.
    - intros r H. apply X2. destruct r; [exact I|]. cbn [stops] in *. rewrite E. exact H.
  Qed.
  Lemma one_call a n kd e f : get n g = Some (kd, e) -> one (body_atom n kd a) e f ->
    match kd with KSilent => True | KCompound => False | _ => a = Atomic end -> one a (Call n) f.
  Proof.
    intros G [E1 E2] K. split.
    - intros c r F. eapply ok_eq; [apply (ok_call a n kd e [c] r [] G), E1, F | reflexivity|].
      destruct kd; subst; try reflexivity. contradiction.
    - intros r F. eapply ko_call; [exact G | apply E2, F].
  Qed.
  Lemma ok_many_one a x f c r : one a x f -> Forall (fun x => f x = true) c -> stops f r -> ok a (Many x) c r [].
  Proof.
    intros [X1 X2] F E. induction F as [|y c X _ IH]; [apply ok_many_nil, X2, E|].
    apply (ok_many_cons a x [y] c r [] []); [apply X1, X | exact IH].
  Qed.
  Lemma ok_many_skip_one a x f c r : a <> NonAtomic -> one a x f -> Forall (fun x => f x = true) c -> stops f r -> ok a (Many (Then Skip x)) c r [].
  Proof.
    intros A O. apply ok_many_one. destruct O as [X1 X2]. split.
    - intros y r' F. apply (ok_then a Skip x [] [y] r' [] []); [apply ok_skip_atomic, A | apply X1, F].
    - intros r' F. apply (ko_then2 a Skip x [] r' []); [apply ok_skip_atomic, A | apply X2, F].
  Qed.
  Lemma ok_star_one a x f c r : a <> NonAtomic -> one a x f -> Forall (fun x => f x = true) c -> stops f r -> ok a (Star x) c r [].
  Proof.
    intros A O F E. destruct F as [|y c X F]; [apply ok_star_nil, O, E|]. apply ok_opt.
    apply (ok_then a x _ [y] c r [] []); [apply O, X | eapply ok_many_skip_one; eassumption].
  Qed.
  Lemma ok_plus_one a x f c r : a <> NonAtomic -> one a x f -> c <> [] -> Forall (fun x => f x = true) c -> stops f r -> ok a (Plus x) c r [].
  Proof.
    intros A O NE F E. destruct F as [|y c X F]; [contradiction NE; reflexivity|].
    apply (ok_seq_at a x _ [y] c r [] []); [exact A | apply O, X | eapply ok_star_one; eassumption].
  Qed.
  Lemma ko_plus_one a x f r : one a x f -> stops f r -> ko a (Plus x) r.
  Proof. intros O E. apply ko_seq1, O, E. Qed.

  (** [NEWLINE] outside of atomic rules or inside *)
  Definition is_nl (c : N) : bool := (c =? 10)%N || (c =? 13)%N.
  Lemma ok_newline_lf a r : ok a NEWLINE [10]%N r [].
  Proof. apply ok_alt1, ok_str. Qed.
  Lemma ok_newline_crlf a r : ok a NEWLINE [13; 10]%N r [].
  Proof. apply ok_alt2; [|apply ok_alt1, ok_str]. apply ko_str. intros r' E. discriminate. Qed.
  Lemma ok_newline_cr a r : (forall r', r <> 10%N :: r') -> ok a NEWLINE [13]%N r [].
  Proof.
    intros H. apply ok_alt2; [apply ko_str; intros r' E; discriminate|]. apply ok_alt2; [|apply ok_str].
    apply ko_str. intros r' E. injection E as E. apply (H r'). exact E.
  Qed.
  Lemma ko_newline a r : stops is_nl r -> ko a NEWLINE r.
  Proof.
    intros E. apply ko_alt; [|apply ko_alt]; apply ko_str; intros r' ->; cbn in E; discriminate.
  Qed.
  (** a character before which there is no line break *)
  Lemma one_not_newline a : a <> NonAtomic -> one a (until NEWLINE) (fun c => negb (is_nl c)).
  Proof.
    intros A. split.
    - intros c r E. apply negb_true_iff in E. apply (ok_seq_at a _ ANY [] [c] r [] []); [exact A | apply ok_not, ko_newline, E | apply ok_sat; reflexivity].
    - intros r E. destruct r as [|c r].
      + apply (ko_seq2_at a (Not NEWLINE) ANY [] [] []); [exact A | apply ok_not, ko_newline; exact I | apply ko_sat; exact I].
      + cbn [stops] in E. apply negb_false_iff, orb_prop in E. apply ko_seq1. destruct E as [E|E]; apply N.eqb_eq in E; subst c.
        * apply (ko_not a NEWLINE [10]%N r []), ok_newline_lf.
        * destruct r as [|d r]; [apply (ko_not a NEWLINE [13]%N [] []), ok_newline_cr; intros r'; discriminate|].
          destruct (N.eq_dec d 10) as [->|N].
          -- apply (ko_not a NEWLINE [13; 10]%N r []), ok_newline_crlf.
          -- apply (ko_not a NEWLINE [13]%N (d :: r) []), ok_newline_cr. intros r' E. injection E as -> _. contradiction N. reflexivity.
  Qed.

  (** A parse of the whole text *)
  Lemma ok_soi_seq e c r ts : ok NonAtomic (Then Skip e) c r ts -> forall k, matches g NonAtomic (Seq SOI e) true (c ++ r) k (Some (c, r, k, ts)).
  Proof.
    intros H k. apply (m_then g NonAtomic SOI (Then Skip e) true true (c ++ r) k [] (c ++ r) k [] c r k ts); [constructor| |apply H].
    split; auto.
  Qed.
  Lemma parse_matches start t c r k ts : checks g start = true -> matches g NonAtomic (Call start) true t [] (Some (c, r, k, ts)) ->
    parse g start t = Ok c r k ts.
  Proof.
    intros C M. destruct (checks_returns g start C t) as [[c' [r' [k' [ts' E]]]]|E].
    - rewrite E. pose proof (run_sound g (S (List.length g)) start NonAtomic true t []) as S. unfold parse in E. rewrite E in S.
      pose proof (matches_det _ _ _ _ _ _ _ M _ (S _ eq_refl)) as X. injection X as -> -> -> ->. reflexivity.
    - pose proof (run_sound g (S (List.length g)) start NonAtomic true t []) as S. unfold parse in E. rewrite E in S.
      pose proof (matches_det _ _ _ _ _ _ _ M _ (S _ eq_refl)) as X. discriminate X.
  Qed.
End Forward.

(** ** Inversions that fit *)
Lemma yes_seq_at g a x y c r ts : a <> NonAtomic -> yes g a (Seq x y) c r ts ->
  exists c1 c2 t1 t2, c = c1 ++ c2 /\ ts = t1 ++ t2 /\ yes g a x c1 (c2 ++ r) t1 /\ yes g a y c2 r t2.
Proof.
  intros A H. cbn [Seq yes] in H. destruct H as [c1 [c2 [t1 [t2 [-> [-> [X H]]]]]]].
  destruct H as [c3 [c4 [t3 [t4 [-> [-> [[-> Z] Y]]]]]]].
  assert (c3 = []) as -> by (destruct a; [contradiction A; reflexivity | exact Z | exact Z]).
  exists c1, c4, t1, t4. auto.
Qed.
(** what an expression reading one character says *)
Definition one' g (a : atom) (x : expr) (f : N -> bool) : Prop :=
  (forall c r ts, yes g a x c r ts -> exists y, c = [y] /\ f y = true /\ ts = []) /\ (forall r, no g a x r -> stops f r).
Lemma one'_sat g a f : one' g a (Sat f) f.
Proof. split; [intros c r ts [x H]; eauto | intros [|x r] H; exact H]. Qed.
Lemma one'_chr g a c : one' g a (Str [c]) (fun x => (x =? c)%N).
Proof.
  split.
  - intros c' r ts [-> ->]. exists c. rewrite N.eqb_refl. auto.
  - intros [|x r] H; [exact I|]. cbn [stops]. apply N.eqb_neq. intros ->. apply (H r). reflexivity.
Qed.
Lemma one'_alt g a x y f h : one' g a x f -> one' g a y h -> one' g a (Alt x y) (fun c => f c || h c).
Proof.
  intros [X1 X2] [Y1 Y2]. split.
  - intros c r ts [H|[_ H]]; [apply X1 in H|apply Y1 in H]; destruct H as [z [-> [F ->]]]; exists z; rewrite F; auto. rewrite orb_true_r. auto.
  - intros r [H H']. apply X2 in H. apply Y2 in H'. destruct r; [exact I|]. cbn [stops] in *. rewrite H, H'. reflexivity.
Qed.
Lemma one'_until g a x f : a <> NonAtomic -> one' g a x f -> (forall c r, f c = true -> ok g a x [c] r []) -> one' g a (until x) (fun c => negb (f c)).
Proof.
  intros A [X1 X2] X. split.
  - intros c r ts H. apply yes_seq_at in H; [|exact A]. destruct H as [c1 [c2 [t1 [t2 [-> [-> [[-> [-> N]] [y [-> [_ ->]]]]]]]]]].
    exists y. apply X2 in N. cbn [app stops] in N. rewrite N. auto.
  - intros r H. destruct r as [|c r]; [exact I|]. cbn [stops]. apply negb_false_iff.
    destruct H as [H|[c1 [r1 [t1 [E [[-> [-> _]] H]]]]]].
    + cbn [no] in H. destruct H as [c' [r1 [t [E Y]]]]. apply X1 in Y. destruct Y as [y [-> [F _]]]. injection E as -> _. exact F.
    + cbn [app] in E. subst r1. exfalso. destruct H as [H|[c2 [r2 [t2 [E [[_ Z] H]]]]]]; [exact H|].
      assert (c2 = []) as -> by (destruct a; [contradiction A; reflexivity | exact Z | exact Z]). cbn [app] in E. subst r2. discriminate H.
Qed.
Lemma one'_ext g a x f h : one' g a x f -> (forall c, f c = h c) -> one' g a x h.
Proof.
  intros [X1 X2] E. split.
  - intros c r ts H. destruct (X1 _ _ _ H) as [y [-> [F ->]]]. exists y. rewrite <- E. auto.
  - intros r H. specialize (X2 r H). destruct r; [exact I|]. cbn [stops] in *. rewrite <- E. exact X2.
Qed.
Lemma reps_one g a x f c r ts : one' g a x f -> reps (yes g a x) (no g a x) c r ts -> Forall (fun y => f y = true) c /\ stops f r /\ ts = [].
Proof.
  intros [X1 X2] R. induction R as [r H|c1 c2 r t1 t2 H _ [F [S ->]]]; [auto|].
  destruct (X1 _ _ _ H) as [y [-> [Y ->]]]. cbn [app]. auto.
Qed.
Lemma one'_skip g a x f : a <> NonAtomic -> one' g a x f -> one' g a (Then Skip x) f.
Proof.
  intros A [X1 X2]. split.
  - intros c r ts [c1 [c2 [t1 [t2 [-> [-> [[-> Z] H]]]]]]].
    assert (c1 = []) as -> by (destruct a; [contradiction A; reflexivity | exact Z | exact Z]). apply X1 in H. exact H.
  - intros r [H|[c1 [r1 [t1 [-> [[_ Z] H]]]]]]; [contradiction|].
    assert (c1 = []) as -> by (destruct a; [contradiction A; reflexivity | exact Z | exact Z]). apply X2, H.
Qed.
Lemma yes_star_one g a x f c r ts : a <> NonAtomic -> one' g a x f -> yes g a (Star x) c r ts -> Forall (fun y => f y = true) c /\ stops f r /\ ts = [].
Proof.
  intros A O [H|[-> [-> H]]].
  - destruct H as [c1 [c2 [t1 [t2 [-> [-> [X H]]]]]]]. apply O in X. destruct X as [y [-> [F ->]]].
    apply (reps_one g a _ f) in H; [|apply one'_skip; assumption]. destruct H as [F' [S ->]]. cbn [app]. auto.
  - destruct H as [H|[c1 [r1 [t1 [-> [Y H]]]]]]; [apply O in H; auto|]. contradiction.
Qed.
Lemma yes_plus_one g a x f c r ts : a <> NonAtomic -> one' g a x f -> yes g a (Plus x) c r ts ->
  c <> [] /\ Forall (fun y => f y = true) c /\ stops f r /\ ts = [].
Proof.
  intros A O H. apply yes_seq_at in H; [|exact A]. destruct H as [c1 [c2 [t1 [t2 [-> [-> [X H]]]]]]].
  apply O in X. destruct X as [y [-> [F ->]]]. apply (yes_star_one g a x f) in H; try assumption. destruct H as [F' [S ->]].
  cbn [app]. split; [discriminate|]. auto.
Qed.
Lemma no_plus_one g a x f r : one' g a x f -> no g a (Plus x) r -> stops f r.
Proof.
  intros O [H|[c1 [r1 [t1 [-> [_ H]]]]]]; [apply O, H|].
  destruct H as [H|[? [? [? [? [? H]]]]]]; contradiction.
Qed.
Lemma no_newline g a r : no g a NEWLINE r -> stops is_nl r.
Proof.
  intros [H1 [H2 H3]]. destruct r as [|c r]; [exact I|]. cbn [stops]. unfold is_nl.
  apply orb_false_intro; apply N.eqb_neq; intros ->; [apply (H1 r) | apply (H3 r)]; reflexivity.
Qed.
Inductive newline : text -> Prop := nl_lf : newline [10]%N | nl_crlf : newline [13; 10]%N | nl_cr : newline [13]%N.
Lemma yes_newline g a c r ts : yes g a NEWLINE c r ts -> newline c /\ ts = [] /\ (c = [13]%N -> forall r', r <> 10%N :: r').
Proof.
  intros [[-> ->]|[_ [[-> ->]|[H [-> ->]]]]]; (split; [constructor | split; [reflexivity|]]); try discriminate.
  intros _ r' ->. apply (H r'). reflexivity.
Qed.
Lemma one'_not_newline g a : a <> NonAtomic -> one' g a (until NEWLINE) (fun c => negb (is_nl c)).
Proof.
  intros A. split.
  - intros c r ts H. apply yes_seq_at in H; [|exact A]. destruct H as [c1 [c2 [t1 [t2 [-> [-> [[-> [-> N]] [y [-> [_ ->]]]]]]]]]].
    exists y. apply no_newline in N. cbn [app stops] in N. rewrite N. auto.
  - intros r H. destruct r as [|c r]; [exact I|]. cbn [stops]. apply negb_false_iff.
    destruct H as [H|[c1 [r1 [t1 [E [[-> [-> _]] H]]]]]].
    + cbn [no] in H. destruct H as [c' [r1 [t [E Y]]]]. apply yes_newline in Y. destruct Y as [Y _]. destruct Y; injection E as -> _; reflexivity.
    + cbn [app] in E. subst r1. exfalso. destruct H as [H|[c2 [r2 [t2 [E [[_ Z] H]]]]]]; [exact H|].
      assert (c2 = []) as -> by (destruct a; [contradiction A; reflexivity | exact Z | exact Z]). cbn [app] in E. subst r2. discriminate H.
Qed.
