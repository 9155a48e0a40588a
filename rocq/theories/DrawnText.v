(** Written symbol rules are read (C80). *)
From Coq Require Import ZifyBool ZifyN ZifyNat.
From Verif Require Import Base Num Float FloatParse Settings Peg Grammars SpecPeg PegProofs PegLang PegForward PegSkip Trees
  SpecText TextProofs SpecFields FileForward ColonText SymbolParse SpecSymbol SpecDrawn.
Local Open Scope string_scope.
Local Open Scope list_scope.

(** ** Values *)
Lemma angle_ret s a : reads_angle s a -> parse_angle s = Ret a.
Proof.
  intros [n [E [B [[k K] S]]]]. unfold parse_angle. rewrite E. cbn [unwrap obind]. f_equal.
  destruct (Z.le_gt_cases 0 n) as [P|P].
  - symmetry. assert (0 <= a)%Z by nia. apply (Z.rem_unique n 360 k a); [exact P | lia | lia].
  - assert (a <= 0)%Z by nia. assert (Z.rem (- n) 360 = - a)%Z by (symmetry; apply (Z.rem_unique (- n) 360 (- k) (- a)); lia).
    rewrite Z.rem_opp_l in H0 by lia. lia.
Qed.
Definition ptree (c x y : text) : tree := T "symbol_rule_point" c [dtree x; dtree y].
Lemma point_ret c x y p : reads_pt x y p -> parse_point (ptree c x y) = Ret p.
Proof. intros [[_ X] [_ Y]]. unfold parse_point, ptree. cbn [kids_of next obind text_of dtree]. rewrite X. cbn [unwrap obind next]. cbn [text_of]. rewrite Y. destruct p. reflexivity. Qed.
Lemma f64_ret x v : reads_num x v -> unwrap (parse_f64 x) = Ret v.
Proof. intros [_ H]. rewrite H. reflexivity. Qed.
Lemma turn_ret s a : reads_turn s a -> parse_angle s = Ret a.
Proof. intros [_ H]. apply angle_ret, H. Qed.
Lemma circular_same v w : circular v w -> same_radius v w = true.
Proof. exact (fun H => H). Qed.
Lemma elliptic_same v w : ~ circular v w -> same_radius v w = false.
Proof. intros H. destruct (same_radius v w) eqn:E; [contradiction H; exact E | reflexivity]. Qed.

(** ** Parts of rules *)
Inductive kind := KPt | KDec | KInt.
Inductive part := PPt (d x e y : text) | PNum (d n : text).
Definition kind_expr (k : kind) : expr := match k with KPt => &"symbol_rule_point" | KDec => &"decimal" | KInt => &"integer" end.
Notation D := (&"symbol_rule_delimiter").
Fixpoint tail_expr (ks : list kind) : expr :=
  match ks with [] => Str [] | [k] => Seq D (kind_expr k) | k :: ks => Seq D (Seq (kind_expr k) (tail_expr ks)) end.
Definition part_delimiter (p : part) : text := match p with PPt d _ _ _ => d | PNum d _ => d end.
Definition part_body (p : part) : text := match p with PPt _ x e y => x ++ e ++ y | PNum _ n => n end.
Definition part_text (p : part) : text := part_delimiter p ++ part_body p.
Definition parts_text (l : list part) : text := List.concat (map part_text l).
Definition good_part (k : kind) (p : part) : Prop :=
  delimiter (part_delimiter p) /\
  match k, p with KPt, PPt d x e y => delimiter e /\ numeral x /\ numeral y | KDec, PNum d n => numeral n | KInt, PNum d n => whole n | _, _ => False end.
Definition part_tree (k : kind) (p : part) : tree :=
  match k, p with KPt, PPt d x e y => ptree (x ++ e ++ y) x y | KDec, PNum d n => dtree n | _, PNum d n => itree n | _, _ => itree [] end.
Lemma good_pt d x e y p : delimiter d -> delimiter e -> reads_pt x y p -> good_part KPt (PPt d x e y).
Proof. intros A B P. split; [exact A|]. split; [exact B|]. split; apply P. Qed.
Lemma good_dec d n v : delimiter d -> reads_num n v -> good_part KDec (PNum d n).
Proof. intros A P. split; [exact A | apply P]. Qed.
Lemma good_int d n v : delimiter d -> reads_turn n v -> good_part KInt (PNum d n).
Proof. intros A P. split; [exact A | apply P]. Qed.
Lemma good_int_dec d n v : delimiter d -> reads_turn n v -> good_part KDec (PNum d n).
Proof. intros A P. split; [exact A | apply whole_numeral, P]. Qed.
(** what follows the last part *)
Definition blank_or_nl (c : N) : Prop := is_blank c = true \/ is_nl c = true.
Definition closing (r : text) : Prop := exists c r', r = c :: r' /\ (is_nl c = true \/ is_blank c = true /\ exists d r'', r' = d :: r'' /\ blank_or_nl d).
Lemma closing_stops r : closing r -> stops number_stop r.
Proof. intros [c [r' [-> [N|[B _]]]]]; cbn [stops]; unfold number_stop, is_digit, is_nl, is_blank in *; lia. Qed.
Lemma bnl_unnumbered d : blank_or_nl d -> unnumbered d.
Proof. unfold blank_or_nl, unnumbered, number_stop, is_digit, is_nl, is_blank. lia. Qed.

Section Drawn.
  Variable g : grammar.
  Context {BR : broken g}.
  Hypothesis INT : get "integer" g = Some (KAtomic, Opt (str "-" // str "+") ~~ Plus ASCII_DIGIT).
  Hypothesis DEC : get "decimal" g = Some (KAtomic, Opt (str "-" // str "+") ~~ ((Star ASCII_DIGIT ~~ str "." ~~ Plus ASCII_DIGIT) // Plus ASCII_DIGIT)).
  Hypothesis SR : Forall (fun '(n, r) => get n g = Some r) Grammars.symbol_rule.
  Lemma rule_at k n r : nth_error Grammars.symbol_rule k = Some (n, r) -> get n g = Some r.
  Proof. intros E. apply nth_error_In in E. rewrite Forall_forall in SR. apply (SR (n, r) E). Qed.
  Lemma delim_ok d r : delimiter d -> okt g Compound D (d ++ r) r [].
  Proof.
    intros DL. eapply okt_silent; [apply (rule_at 12); reflexivity | reflexivity|]. destruct DL as [-> | ->]; [apply okt_alt1, okt_str|].
    apply okt_alt2; [apply ko_str; discriminate | apply okt_str].
  Qed.
  Lemma delim_ko c r : c <> 58%N -> c <> 32%N -> ko g Compound D (c :: r).
  Proof.
    intros A B. eapply ko_call; [apply (rule_at 12); reflexivity|]. apply ko_alt; [apply (FileForward.ko_chr g _ 58) | apply (FileForward.ko_chr g _ 32)]; cbn [stops]; lia.
  Qed.
  Lemma delim_stop d r : delimiter d -> stops number_stop (d ++ r).
  Proof. intros [-> | ->]; reflexivity. Qed.
  Lemma part_ok k p r : good_part k p -> stops number_stop r -> okt g Compound (kind_expr k) (part_body p ++ r) r [part_tree k p].
  Proof.
    intros [_ G] S. destruct k, p as [d x e y|d n]; try contradiction; cbn [part_body part_tree kind_expr].
    - destruct G as [DE [X Y]].
      assert (O : ok g Compound (&"decimal" ~~ D ~~ &"decimal") (x ++ e ++ y) r [dtree x; dtree y]).
      { assert (Z : okt g Compound (&"decimal" ~~ D ~~ &"decimal") ((x ++ e ++ y) ++ r) r ([dtree x] ++ [] ++ [dtree y])).
        { rewrite <- !app_assoc. eapply okt_seq_at; [discriminate | apply (decimal_tok g); [discriminate | exact DEC | exact X | apply delim_stop, DE]|].
          eapply okt_seq_at; [discriminate | apply delim_ok, DE | apply (decimal_tok g); [discriminate | exact DEC | exact Y | exact S]]. }
        destruct Z as [c [E Z]]. apply app_inv_tail in E. rewrite E. exact Z. }
      apply okt_ok. apply (ok_call g Compound "symbol_rule_point" KCompound _ _ r _ (rule_at 13 _ _ eq_refl) O).
    - apply (decimal_tok g); [discriminate | exact DEC | exact G | exact S].
    - apply (integer_tok g); [discriminate | exact INT | exact G | apply stops_number, S].
  Qed.
  Lemma kind_ko k c r : unnumbered c -> ko g Compound (kind_expr k) (c :: r).
  Proof.
    intros U. destruct k; cbn [kind_expr]; [|eapply decimal_ko; eassumption | eapply integer_ko; eassumption].
    eapply ko_call; [apply (rule_at 13); reflexivity|]. apply ko_seq1. eapply decimal_ko; eassumption.
  Qed.
  Lemma dk_ko k r : closing r -> ko g Compound (Seq D (kind_expr k)) r.
  Proof.
    intros [c [r' [-> [N|[B [d [r'' [-> DN]]]]]]]].
    - apply ko_seq1, delim_ko; unfold is_nl in N; lia.
    - destruct (N.eq_dec c 32) as [->|NE]; [|apply ko_seq1, delim_ko; unfold is_blank in B; lia].
      eapply ko_seq2_att; [discriminate | apply (delim_ok (s2t " ")); right; reflexivity | apply kind_ko, bnl_unnumbered, DN].
  Qed.
  Lemma tail_cons k ks : ks <> [] -> tail_expr (k :: ks) = Seq D (Seq (kind_expr k) (tail_expr ks)).
  Proof. destruct ks; [congruence | reflexivity]. Qed.
  Lemma parts_stop ps r : Forall (fun p => delimiter (part_delimiter p)) ps -> stops number_stop r -> stops number_stop (parts_text ps ++ r).
  Proof. intros F S. destruct F as [|p ps DP F]; [exact S|]. unfold parts_text. cbn [map List.concat]. unfold part_text. rewrite <- !app_assoc. apply delim_stop, DP. Qed.
  Lemma good_delims ks ps : Forall2 good_part ks ps -> Forall (fun p => delimiter (part_delimiter p)) ps.
  Proof. induction 1 as [|k p ks ps [H _] _ IH]; constructor; assumption. Qed.
  Fixpoint part_trees (ks : list kind) (ps : list part) : list tree :=
    match ks, ps with k :: ks, p :: ps => part_tree k p :: part_trees ks ps | _, _ => [] end.
  Lemma tail_ok ks ps r : Forall2 good_part ks ps -> ks <> [] -> stops number_stop r -> okt g Compound (tail_expr ks) (parts_text ps ++ r) r (part_trees ks ps).
  Proof.
    intros F NE S. induction F as [|k p ks ps G F IH]; [congruence|].
    assert (E : parts_text (p :: ps) ++ r = part_delimiter p ++ part_body p ++ parts_text ps ++ r).
    { unfold parts_text. cbn [map List.concat]. unfold part_text. rewrite <- !app_assoc. reflexivity. }
    rewrite E. assert (S' : stops number_stop (parts_text ps ++ r)) by (apply parts_stop; [eapply good_delims, F | exact S]).
    destruct ks as [|k' ks].
    - inversion F; subst. cbn [tail_expr part_trees]. apply (okt_seq_at g Compound _ _ _ (part_body p ++ r) r [] [part_tree k p]); [discriminate | apply delim_ok, G | apply part_ok; [exact G | exact S]].
    - rewrite tail_cons by discriminate. apply (okt_seq_at g Compound _ _ _ (part_body p ++ parts_text ps ++ r) r []); [discriminate | apply delim_ok, G|].
      apply (okt_seq_at g Compound _ _ _ (parts_text ps ++ r) r [part_tree k p]); [discriminate | apply part_ok; [exact G | exact S'] | apply IH; discriminate].
  Qed.
  Lemma tail_ko ks ps k ks' r : Forall2 good_part ks ps -> closing r -> ko g Compound (tail_expr (ks ++ k :: ks')) (parts_text ps ++ r).
  Proof.
    intros F C. induction F as [|k0 p ks ps G F IH].
    - cbn [app]. change (parts_text [] ++ r) with r. destruct ks' as [|k' ks']; [apply dk_ko, C|]. rewrite tail_cons by discriminate.
      pose proof (dk_ko k r C) as K. destruct C as [c [r' [-> [N|[B [d [r'' [-> DN]]]]]]]].
      + apply ko_seq1, delim_ko; unfold is_nl in N; lia.
      + destruct (N.eq_dec c 32) as [->|NE]; [|apply ko_seq1, delim_ko; unfold is_blank in B; lia].
        eapply ko_seq2_att; [discriminate | apply (delim_ok (s2t " ")); right; reflexivity | apply ko_seq1, kind_ko, bnl_unnumbered, DN].
    - assert (E : parts_text (p :: ps) ++ r = part_delimiter p ++ part_body p ++ parts_text ps ++ r).
      { unfold parts_text. cbn [map List.concat]. unfold part_text. rewrite <- !app_assoc. reflexivity. }
      rewrite E. cbn [app]. rewrite tail_cons by (destruct ks; discriminate).
      eapply ko_seq2_att; [discriminate | apply delim_ok, G|]. eapply ko_seq2_att; [discriminate | apply part_ok; [exact G|] | exact IH].
      apply parts_stop; [eapply good_delims, F | apply closing_stops, C].
  Qed.
  (** ** Rules *)
  Lemma rule_ok k n kw ks ps r : nth_error Grammars.symbol_rule k = Some (n, compound (str kw ~~ tail_expr ks)) -> Forall2 good_part ks ps -> ks <> [] -> closing r ->
    exists c, okt g NonAtomic (Call n) (s2t kw ++ parts_text ps ++ r) r [T n c (part_trees ks ps)].
  Proof.
    intros E F NE C. destruct (okt_compound g n _ (rule_at k n _ E) NonAtomic (s2t kw ++ parts_text ps ++ r) r (part_trees ks ps)) as [c [_ O]]; [|eauto].
    apply (okt_seq_at g Compound _ _ _ (parts_text ps ++ r) r []); [discriminate | apply okt_str | apply tail_ok; [exact F | exact NE | apply closing_stops, C]].
  Qed.
  Lemma rule_short k n kw ks ps k' ks' r : nth_error Grammars.symbol_rule k = Some (n, compound (str kw ~~ tail_expr (ks ++ k' :: ks'))) -> Forall2 good_part ks ps -> closing r ->
    ko g NonAtomic (Call n) (s2t kw ++ parts_text ps ++ r).
  Proof.
    intros E F C. eapply ko_call; [apply (rule_at k n _ E)|]. change (body_atom n KCompound NonAtomic) with Compound.
    eapply ko_seq2_att; [discriminate | apply okt_str | apply tail_ko; assumption].
  Qed.
  Lemma rule_other k n kw e t : nth_error Grammars.symbol_rule k = Some (n, compound (str kw ~~ e)) -> (forall r, t <> s2t kw ++ r) -> ko g NonAtomic (Call n) t.
  Proof. intros E H. eapply ko_call; [apply (rule_at k n _ E)|]. apply ko_seq1, ko_str, H. Qed.
  (** polygons *)
  Lemma points_many ps r : Forall (good_part KPt) ps -> closing r -> okt g Compound (Many (Then Skip (D ~~ &"symbol_rule_point"))) (parts_text ps ++ r) r (map (part_tree KPt) ps).
  Proof.
    intros F C. assert (SK : forall t, okt g Compound Skip t t []) by (intros t; exists []; split; [reflexivity | apply ok_skip_atomic; discriminate]).
    induction F as [|p ps G F IH].
    - apply okt_many_nil. eapply ko_then2t; [apply SK | apply (dk_ko KPt), C].
    - cbn [map]. apply (okt_many_cons g Compound _ _ (parts_text ps ++ r) r [part_tree KPt p]); [|exact IH].
      apply (okt_then g Compound Skip _ _ _ _ [] [part_tree KPt p] (SK _)).
      unfold parts_text. cbn [map List.concat]. unfold part_text at 1. rewrite <- !app_assoc.
      apply (okt_seq_at g Compound _ _ _ (part_body p ++ parts_text ps ++ r) _ [] [part_tree KPt p]); [discriminate | apply delim_ok, G|].
      apply (part_ok KPt); [exact G|]. apply parts_stop; [|apply closing_stops, C]. eapply Forall_impl; [|exact F]. intros q Q. apply Q.
  Qed.
  Lemma polygon_ok ps r : Forall (good_part KPt) ps -> ps <> [] -> closing r -> exists c, okt g NonAtomic &"polygon" (s2t "POLYGON" ++ parts_text ps ++ r) r [T "polygon" c (map (part_tree KPt) ps)].
  Proof.
    intros F NE C. destruct (okt_compound g "polygon" _ (rule_at 9 _ _ eq_refl) NonAtomic (s2t "POLYGON" ++ parts_text ps ++ r) r (map (part_tree KPt) ps)) as [c [_ O]]; [|eauto].
    destruct F as [|p ps G F]; [congruence|].
    apply (okt_seq_at g Compound _ _ _ (parts_text (p :: ps) ++ r) r []); [discriminate | apply okt_str|].
    unfold parts_text. cbn [map List.concat]. unfold part_text at 1. rewrite <- !app_assoc.
    assert (S' : stops number_stop (parts_text ps ++ r)). { apply parts_stop; [|apply closing_stops, C]. eapply Forall_impl; [|exact F]. intros q Q. apply Q. }
    apply (okt_seq_at g Compound (D ~~ &"symbol_rule_point") _ _ (parts_text ps ++ r) r [part_tree KPt p]); [discriminate| |].
    - apply (okt_seq_at g Compound _ _ _ (part_body p ++ parts_text ps ++ r) _ [] [part_tree KPt p]); [discriminate | apply delim_ok, G|]. apply (part_ok KPt); [exact G | exact S'].
    - destruct F as [|q qs G' F].
      + apply okt_opt_no, ko_then1, (dk_ko KPt), C.
      + apply okt_opt. unfold parts_text. cbn [map List.concat]. unfold part_text at 1. rewrite <- !app_assoc.
        apply (okt_then g Compound _ _ _ (parts_text qs ++ r) r [part_tree KPt q]); [|apply points_many; assumption].
        apply (okt_seq_at g Compound _ _ _ (part_body q ++ parts_text qs ++ r) _ [] [part_tree KPt q]); [discriminate | apply delim_ok, G'|].
        apply (part_ok KPt); [exact G'|]. apply parts_stop; [|apply closing_stops, C]. eapply Forall_impl; [|exact F]. intros x X. apply X.
  Qed.
  (** ** Written rules *)
  Definition rule_alts : expr := &"moveto" // &"line" // &"fillarc_ellipse" // &"fillarc" // &"arc_ellipse" // &"arc" // &"polygon" // &"pixel" // &"ellipse" // &"ellipse_circle" // &"fillrect".
  Lemma other_rule k n kw e y t r ts : nth_error Grammars.symbol_rule k = Some (n, compound (str kw ~~ e)) -> (forall r, t <> s2t kw ++ r) ->
    okt g NonAtomic y t r ts -> okt g NonAtomic (Call n // y) t r ts.
  Proof. intros E H O. apply okt_alt2; [eapply rule_other; eassumption | exact O]. Qed.
  Lemma short_rule k n kw ks ps k' ks' y r ts : nth_error Grammars.symbol_rule k = Some (n, compound (str kw ~~ tail_expr (ks ++ k' :: ks'))) -> Forall2 good_part ks ps -> closing r ->
    okt g NonAtomic y (s2t kw ++ parts_text ps ++ r) r ts -> okt g NonAtomic (Call n // y) (s2t kw ++ parts_text ps ++ r) r ts.
  Proof. intros E H C O. apply okt_alt2; [eapply rule_short; eassumption | exact O]. Qed.
  Lemma map_snd_cons {A B} (l : list (A * B)) x t : map snd l = x :: t -> exists d l', l = (d, x) :: l' /\ map snd l' = t.
  Proof. destruct l as [|[d y] l]; [discriminate|]. cbn. intros E. injection E as -> <-. eauto. Qed.
  Lemma map_snd_nil {A B} (l : list (A * B)) : map snd l = [] -> l = [].
  Proof. destruct l; [reflexivity | discriminate]. Qed.
  Lemma points_parts nums l ps : reads_pts l ps -> map snd nums = l -> Forall (fun '(d, _) => delimiter d) nums ->
    exists pl, List.concat (map (fun '(d, n) => d ++ n) nums) = parts_text pl /\ Forall (good_part KPt) pl /\ pl <> [] /\ omap parse_point (map (part_tree KPt) pl) = Ret ps.
  Proof.
    intros H. revert nums. induction H as [x y p P|x y p l ps P H IH]; intros nums E F.
    - apply map_snd_cons in E. destruct E as [d [nums1 [-> E]]]. apply map_snd_cons in E. destruct E as [d' [nums2 [-> E]]]. apply map_snd_nil in E. subst.
      inversion F as [|? ? D1 F1]; subst. inversion F1 as [|? ? D2 F2]; subst. exists [PPt d x d' y]. repeat split; [..|discriminate|].
      + unfold parts_text, part_text. cbn [map List.concat part_delimiter part_body]. rewrite !app_nil_r, <- !app_assoc. reflexivity.
      + constructor; [eapply good_pt; eassumption | constructor].
      + cbn [map omap part_tree]. rewrite (point_ret _ _ _ _ P). reflexivity.
    - apply map_snd_cons in E. destruct E as [d [nums1 [-> E]]]. apply map_snd_cons in E. destruct E as [d' [nums2 [-> E]]].
      inversion F as [|? ? D1 F1]; subst. inversion F1 as [|? ? D2 F2]; subst. destruct (IH nums2 eq_refl F2) as [pl [T1 [G [NE O]]]].
      exists (PPt d x d' y :: pl). repeat split; [..|discriminate|].
      + unfold parts_text, part_text. cbn [map List.concat part_delimiter part_body]. rewrite T1, <- !app_assoc. reflexivity.
      + constructor; [eapply good_pt; eassumption | exact G].
      + cbn [map omap part_tree]. rewrite (point_ret _ _ _ _ P). cbn [obind]. rewrite O. reflexivity.
  Qed.
  Ltac split_numbers E F :=
    repeat (apply map_snd_cons in E; let d := fresh "d" in let l := fresh "l" in destruct E as [d [l [-> E]]]; let D0 := fresh "DL" in inversion F as [|? ? D0 ?]; subst; clear F;
      match goal with H : Forall _ l |- _ => rename H into F end);
    apply map_snd_nil in E; subst.
  Ltac goods := repeat (apply Forall2_cons; [first [eapply good_pt; eassumption | eapply good_dec; eassumption | eapply good_int; eassumption | eapply good_int_dec; eassumption]|]); apply Forall2_nil.
  Ltac parses := unfold parse_symbol_rule, is_rule, rule_of;
    repeat match goal with |- context [eqb ?a ?b] => let v := eval vm_compute in (eqb a b) in change (eqb a b) with v; cbv iota end; cbn [part_trees part_tree kids_of next obind];
    repeat (first [erewrite point_ret by eassumption | cbn [text_of dtree itree]; erewrite f64_ret by eassumption | cbn [text_of dtree itree]; erewrite turn_ret by eassumption]; cbn [next obind]).
  Ltac texts_eq := unfold parts_text, part_text; cbn [map List.concat part_delimiter part_body]; rewrite ?app_nil_r, <- ?app_assoc; reflexivity.
  Ltac other k := eapply (other_rule k); [reflexivity | discriminate|].
  Lemma drawn_ok d r R : reads_drawn d r -> closing R -> exists tr, okt g NonAtomic rule_alts (drawn_text d ++ R) R [tr] /\ parse_symbol_rule tr = Ret r.
  Proof.
    destruct d as [kw nums]. intros [F H] C. unfold drawn_text. cbn [dr_word dr_numbers] in *. remember (map snd nums) as l eqn:E. symmetry in E.
    assert (GO : forall kw pl tr, List.concat (map (fun '(d, n) => d ++ n) nums) = parts_text pl ->
      okt g NonAtomic rule_alts (s2t kw ++ parts_text pl ++ R) R [tr] -> parse_symbol_rule tr = Ret r ->
      exists tr, okt g NonAtomic rule_alts ((s2t kw ++ List.concat (map (fun '(d, n) => d ++ n) nums)) ++ R) R [tr] /\ parse_symbol_rule tr = Ret r).
    { intros kw0 pl tr -> O P. exists tr. rewrite <- app_assoc. split; assumption. }
    destruct H as [x y p P|x y p P|x y p P|x y p s v a b m n P V A B|x y p s v t w a b m n P V W A B CI|x y p s v t w a b m n P V W A B CI
      |x y p s v a b m n P V A B|x y p s v t w a b m n P V W A B CI|x y p s v t w a b m n P V W A B CI|x y p s v P V|x y p s v t w P V W|l ps P|x y p x' y' p' P P'].
    - split_numbers E F. destruct (rule_ok 1 "moveto" "MOVETO" [KPt] [PPt d x d0 y] R eq_refl) as [c O]; [goods | discriminate | exact C|].
      eapply (GO _ [PPt d x d0 y]); [texts_eq | apply okt_alt1, O | parses; reflexivity].
    - split_numbers E F. destruct (rule_ok 2 "line" "LINETO" [KPt] [PPt d x d0 y] R eq_refl) as [c O]; [goods | discriminate | exact C|].
      eapply (GO _ [PPt d x d0 y]); [texts_eq | other 1; apply okt_alt1, O | parses; reflexivity].
    - split_numbers E F. destruct (rule_ok 10 "pixel" "SETPIXEL" [KPt] [PPt d x d0 y] R eq_refl) as [c O]; [goods | discriminate | exact C|].
      eapply (GO _ [PPt d x d0 y]); [texts_eq | other 1; other 2; other 4; other 3; other 6; other 5; other 9; apply okt_alt1, O | parses; reflexivity].
    - split_numbers E F. destruct (rule_ok 5 "arc" "ARC" [KPt; KDec; KInt; KInt] [PPt d x d0 y; PNum d1 s; PNum d2 a; PNum d3 b] R eq_refl) as [c O]; [goods | discriminate | exact C|].
      eapply (GO _ [PPt d x d0 y; PNum d1 s; PNum d2 a; PNum d3 b]); [texts_eq | |].
      { other 1; other 2; other 4; other 3. eapply (short_rule 6 "arc_ellipse" "ARC" [KPt; KDec; KDec; KInt] _ KInt []); [reflexivity | goods | exact C | apply okt_alt1, O]. }
      parses; reflexivity.
    - split_numbers E F. destruct (rule_ok 6 "arc_ellipse" "ARC" [KPt; KDec; KDec; KInt; KInt] [PPt d x d0 y; PNum d1 s; PNum d2 t; PNum d3 a; PNum d4 b] R eq_refl) as [c O]; [goods | discriminate | exact C|].
      eapply (GO _ [PPt d x d0 y; PNum d1 s; PNum d2 t; PNum d3 a; PNum d4 b]); [texts_eq | other 1; other 2; other 4; other 3; apply okt_alt1, O | parses; rewrite (circular_same _ _ CI); reflexivity].
    - split_numbers E F. destruct (rule_ok 6 "arc_ellipse" "ARC" [KPt; KDec; KDec; KInt; KInt] [PPt d x d0 y; PNum d1 s; PNum d2 t; PNum d3 a; PNum d4 b] R eq_refl) as [c O]; [goods | discriminate | exact C|].
      eapply (GO _ [PPt d x d0 y; PNum d1 s; PNum d2 t; PNum d3 a; PNum d4 b]); [texts_eq | other 1; other 2; other 4; other 3; apply okt_alt1, O | parses; rewrite (elliptic_same _ _ CI); reflexivity].
    - split_numbers E F. destruct (rule_ok 3 "fillarc" "FILLARC" [KPt; KDec; KInt; KInt] [PPt d x d0 y; PNum d1 s; PNum d2 a; PNum d3 b] R eq_refl) as [c O]; [goods | discriminate | exact C|].
      eapply (GO _ [PPt d x d0 y; PNum d1 s; PNum d2 a; PNum d3 b]); [texts_eq | |].
      { other 1; other 2. eapply (short_rule 4 "fillarc_ellipse" "FILLARC" [KPt; KDec; KDec; KInt] _ KInt []); [reflexivity | goods | exact C | apply okt_alt1, O]. }
      parses; reflexivity.
    - split_numbers E F. destruct (rule_ok 4 "fillarc_ellipse" "FILLARC" [KPt; KDec; KDec; KInt; KInt] [PPt d x d0 y; PNum d1 s; PNum d2 t; PNum d3 a; PNum d4 b] R eq_refl) as [c O]; [goods | discriminate | exact C|].
      eapply (GO _ [PPt d x d0 y; PNum d1 s; PNum d2 t; PNum d3 a; PNum d4 b]); [texts_eq | other 1; other 2; apply okt_alt1, O | parses; rewrite (circular_same _ _ CI); reflexivity].
    - split_numbers E F. destruct (rule_ok 4 "fillarc_ellipse" "FILLARC" [KPt; KDec; KDec; KInt; KInt] [PPt d x d0 y; PNum d1 s; PNum d2 t; PNum d3 a; PNum d4 b] R eq_refl) as [c O]; [goods | discriminate | exact C|].
      eapply (GO _ [PPt d x d0 y; PNum d1 s; PNum d2 t; PNum d3 a; PNum d4 b]); [texts_eq | other 1; other 2; apply okt_alt1, O | parses; rewrite (elliptic_same _ _ CI); reflexivity].
    - split_numbers E F. destruct (rule_ok 8 "ellipse_circle" "ELLIPSE" [KPt; KDec] [PPt d x d0 y; PNum d1 s] R eq_refl) as [c O]; [goods | discriminate | exact C|].
      eapply (GO _ [PPt d x d0 y; PNum d1 s]); [texts_eq | |].
      { other 1; other 2; other 4; other 3; other 6; other 5; other 9; other 10.
      eapply (short_rule 7 "ellipse" "ELLIPSE" [KPt; KDec] _ KDec []); [reflexivity | goods | exact C | apply okt_alt1, O]. }
      parses; reflexivity.
    - split_numbers E F. destruct (rule_ok 7 "ellipse" "ELLIPSE" [KPt; KDec; KDec] [PPt d x d0 y; PNum d1 s; PNum d2 t] R eq_refl) as [c O]; [goods | discriminate | exact C|].
      eapply (GO _ [PPt d x d0 y; PNum d1 s; PNum d2 t]); [texts_eq | |].
      { other 1; other 2; other 4; other 3; other 6; other 5; other 9; other 10. apply okt_alt1, O. }
      parses; reflexivity.
    - destruct (points_parts nums l ps P E F) as [pl [TE [G [NE OM]]]]. destruct (polygon_ok pl R G NE C) as [c O].
      eapply (GO _ pl); [exact TE | other 1; other 2; other 4; other 3; other 6; other 5; apply okt_alt1, O|].
      parses. rewrite OM. reflexivity.
    - split_numbers E F. destruct (rule_ok 11 "fillrect" "FILLRECT" [KPt; KPt] [PPt d x d0 y; PPt d1 x' d2 y'] R eq_refl) as [c O]; [goods | discriminate | exact C|].
      eapply (GO _ [PPt d x d0 y; PPt d1 x' d2 y']); [texts_eq | |].
      { other 1; other 2; other 4; other 3; other 6; other 5; other 9; other 10; other 7; other 8. exact O. }
      parses; destruct p, p'; reflexivity.
  Qed.
End Drawn.
Section DrawnLines.
  Variable g : grammar.
  Context {L : lined g}.
  Hypothesis INT : get "integer" g = Some (KAtomic, Opt (str "-" // str "+") ~~ Plus ASCII_DIGIT).
  Hypothesis DEC : get "decimal" g = Some (KAtomic, Opt (str "-" // str "+") ~~ ((Star ASCII_DIGIT ~~ str "." ~~ Plus ASCII_DIGIT) // Plus ASCII_DIGIT)).
  Hypothesis SR : Forall (fun '(n, r) => get n g = Some r) Grammars.symbol_rule.
  Lemma rest_closing R N t : line_rest g R N t -> closing R.
  Proof.
    intros [b [nl [k [b' [-> [-> [B [E _]]]]]]]].
    assert (X : forall b : text, spaced g b -> exists c r, b ++ nl ++ k ++ b' ++ t = c :: r /\ blank_or_nl c).
    { intros [|c b0] B0; [destruct E as [-> | ->]; eexists _, _; (split; [reflexivity | right; reflexivity])|].
      inversion B0; subst. eexists _, _. split; [reflexivity | left; apply sp_blank; assumption]. }
    destruct b as [|c b]; [destruct E as [-> | ->]; eexists _, _; (split; [reflexivity | left; reflexivity])|].
    inversion B; subst. eexists c, _. split; [reflexivity|]. right. split; [apply sp_blank; assumption|]. apply X. assumption.
  Qed.
  Lemma drawn_reads nx d r : reads_drawn d r -> reads_at g nx (before g nx) &"symbolrule" (drawn_text d) (fun ts => exists tr, ts = [tr] /\ parse_symbol_rule tr = Ret r).
  Proof.
    intros H. eapply reads_silent; [apply (rule_at g SR 0); reflexivity | reflexivity|]. apply reads_line_opt'. intros R N L0.
    destruct (drawn_ok g INT DEC SR d r R H (rest_closing R N nx L0)) as [tr [O P]]. exists R, [tr]. split; [exact O|]. split; [eapply (rest_skip g), L0 | eauto].
  Qed.
  Lemma drawn_opens d r l : reads_drawn d r -> opens g (drawn_text d ++ l).
  Proof.
    intros [_ H]. unfold drawn_text. destruct d as [kw nums]. cbn [dr_word dr_numbers] in *. rewrite <- app_assoc.
    destruct H; apply (opening_plain g); solve [reflexivity | discriminate].
  Qed.
End DrawnLines.
