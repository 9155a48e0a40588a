(** The lines of a drawing, and a whole drawing, as written and read. *)
From Coq Require Import ZifyBool ZifyN ZifyNat.
From Verif Require Import Base Unicode Num Float FloatParse Dms SpecDms DmsProofs DmsWide Locations SctData Lines SpecLines LinesProofs SctItems SctWrite Peg Grammars SpecPeg PegProofs PegLang PegForward PegSkip Trees SpecText TextProofs SctParse SpecSctWrite SctForward SctNames.
Local Open Scope string_scope.
Local Open Scope list_scope.

(** ** One line *)
Definition colour_text (c : option text) : text := match c with Some c => s2t " " ++ c | None => [] end.
Definition colour_good (c : option text) : Prop := match c with Some c => colour_word c | None => True end.
Lemma coloured_text c : colour_good c -> coloured (colour_text c).
Proof. destruct c as [c|]; intros W; [right; exists c; split; [reflexivity | exact W] | left; reflexivity]. Qed.
Lemma dense_firmer w r : word dense w -> stops (fun c => (c =? 59)%N || (c =? 47)%N) w -> firmer (w ++ r).
Proof.
  intros [N F] S. destruct F as [|c w C F]; [congruence|]. cbn [app stops] in *. split; [apply firm_char; [apply dense_not_space, C | lia | lia]|].
  unfold dense in C. cbn [stops]. destruct (is_nl c); [rewrite andb_false_r in C; discriminate | reflexivity].
Qed.
Lemma spelt_firmer l t q : spelt l t q -> forall r, firmer (t ++ r).
Proof.
  intros S r. pose proof (sp_words _ _ _ S) as W. destruct l.
  - destruct W as [w1 [w2 [W1 [_ ->]]]]. apply coord_text_part in W1. rewrite <- app_assoc. apply dense_firmer; [apply W1|].
    destruct W1 as [_ [h [d [x [H [_ ->]]]]]]. cbn [stops]. cbn in H. repeat destruct H as [<-|H]; try reflexivity; contradiction.
  - destruct W as [D ->]. rewrite <- app_assoc. apply dense_firmer; [eapply dense_word; [apply designator_dense | exact D]|].
    destruct D as [N F]. destruct F as [|c w C F]; [congruence|]. cbn [stops]. unfold designator_char, is_upper, is_digit in C. lia.
Qed.
Lemma place_ok l t q r : spelt l t q -> stops number_stop r -> stops designator_char r ->
  exists tr, parse_location tr = Ret q /\ okt NonAtomic (&"sct_coordinate" // &"airway_fix") (t ++ r) r [tr].
Proof.
  intros S R1 R2. destruct (sp_read _ _ _ S NonAtomic r R1 R2) as [tr [R [P O]]]. exists tr. split; [exact P|]. rewrite R in O. destruct l.
  - apply okt_alt1, O.
  - apply okt_alt2; [|exact O]. destruct (sp_words _ _ _ S) as [D ->]. rewrite <- app_assoc. apply coord_not_fix; [exact D | reflexivity | reflexivity].
Qed.
Lemma line_tok l1 l2 t1 t2 q1 q2 c u : spelt l1 t1 q1 -> spelt l2 t2 q2 -> colour_good c ->
  exists tr, rule_of tr = "coloured_line" /\ parse_line tr = Ret (q1, q2, c) /\
    okt NonAtomic &"coloured_line" (t1 ++ s2t " " ++ t2 ++ colour_text c ++ 10%N :: u) (10%N :: u) [tr].
Proof.
  intros S1 S2 C. destruct (coloured_stops _ u (coloured_text c C)) as [_ [C1 C2]].
  destruct (place_ok l1 t1 q1 (s2t " " ++ t2 ++ colour_text c ++ 10%N :: u) S1 eq_refl eq_refl) as [tr1 [P1 O1]].
  destruct (place_ok l2 t2 q2 (colour_text c ++ 10%N :: u) S2 C1 C2) as [tr2 [P2 O2]].
  assert (OC : okt NonAtomic ((&"sct_coordinate" // &"airway_fix") ~~ Opt &"colour_name") (t2 ++ colour_text c ++ 10%N :: u) (10%N :: u)
    ([tr2] ++ match c with Some c => [T "colour_name" c []] | None => [] end)).
  { destruct c as [c|]; cbn [colour_text] in *.
    - eapply (okt_seq NonAtomic _ _ _ (s2t " ") (c ++ 10%N :: u)); [rewrite <- app_assoc in O2 |- *; exact O2 | apply spaced_one | | | reflexivity].
      + apply dense_firmer; [eapply dense_word; [apply colour_dense | exact C]|]. destruct C as [N F]. destruct F as [|x w X F]; [congruence|].
        cbn [stops]. cbn [existsb s2t] in X. change (N_of_ascii "-") with 45%N in X. change (N_of_ascii "_") with 95%N in X.
        unfold is_alnum, is_alpha, is_upper, is_lower, is_digit in X. lia.
      + apply okt_opt. eapply tok_plus; [discriminate | reflexivity | apply colour_one | exact C | reflexivity].
    - eapply (okt_seq0 _ _ _ (10%N :: u)); [exact O2 | apply firm_lf|]. apply okt_opt_no. eapply ko_plus; [reflexivity | apply colour_one | reflexivity]. }
  pose proof (okt_normal "coloured_line" _ eq_refl eq_refl (t1 ++ s2t " " ++ t2 ++ colour_text c ++ 10%N :: u) (10%N :: u)) as K. edestruct K as [x [_ O]].
  - eapply (okt_seq NonAtomic _ _ _ (s2t " ")); [exact O1 | apply spaced_one | apply (spelt_firmer _ _ _ S2) | exact OC | reflexivity].
  - eexists. split; [|split; [|exact O]]; [reflexivity|]. unfold parse_line. cbn [kids_of next obind app]. rewrite P1. cbn [obind]. rewrite P2. cbn [obind].
    destruct c; reflexivity.
Qed.

(** ** A name is not a line *)
Lemma prefix_within x y s b z : Forall (fun c => dense c = true) x -> spaces b -> x ++ y = s ++ b ++ z -> exists y', s = x ++ y' /\ y = y' ++ b ++ z.
Proof.
  intros X [BN B]. revert s. induction X as [|c x C X IH]; intros s E; [exists s; auto|].
  destruct s as [|c' s]; cbn [app] in E.
  - destruct B as [|d b D B]; [congruence|]. cbn [app] in E. injection E as -> _. apply dense_not_space in C. congruence.
  - injection E as -> E. destruct (IH _ E) as [y' [-> ->]]. exists y'. auto.
Qed.
Lemma span_space s : exists b t, s = b ++ t /\ spaced b /\ stops space t.
Proof.
  induction s as [|c s [b [t [-> [B S]]]]]; [exists [], []; repeat split; constructor|].
  destruct (space c) eqn:C; [exists (c :: b), t; repeat split; auto; constructor; auto | exists [], (c :: b ++ t); repeat split; auto; constructor].
Qed.
Lemma designator_dense_all d : designator d -> Forall (fun c => dense c = true) d.
Proof. intros [_ F]. eapply Forall_impl; [|exact F]. apply designator_dense. Qed.
Lemma name_not_line name b l1 t1 q1 rest : drawing_name name -> spaces b -> spelt l1 t1 q1 -> (exists z, rest = 32%N :: z) ->
  match l1 with LFix a => ~ stammers (name ++ s2t " " ++ a) | LCoord _ => ~ stammers name end ->
  ko G NonAtomic &"coloured_line" (name ++ b ++ t1 ++ rest).
Proof.
  intros [N [[L F] [SO [E [_ LC]]]]] B S1 [z ->] ST. apply ko_by; [reflexivity|]. intros c r ts EQ NO.
  destruct (node_inv G eq_refl _ _ _ _ _ NO _ _ eq_refl) as [ts' [Y _]]. clear NO. change (body_atom "coloured_line" KNormal NonAtomic) with NonAtomic in Y.
  destruct Y as [c1 [c2 [u1 [u2 [-> [-> [Y1 Y2]]]]]]].
  destruct Y1 as [Y1|[_ Y1]].
  - destruct (coord_yes _ _ _ _ Y1) as [p [b' [q [[_ [h [d [x [H [D ->]]]]]] [_ [_ ->]]]]]].
    destruct (prefix_within (h :: d ++ s2t ".") (x ++ (b' ++ q) ++ c2 ++ r) name b (t1 ++ 32%N :: z)) as [y' [-> _]].
    + constructor; [cbn in H; repeat destruct H as [<-|H]; try reflexivity; contradiction|]. apply Forall_app. split; [apply digits_dense, D | repeat constructor].
    + exact B.
    + rewrite EQ. cbn [app]. rewrite <- !app_assoc. reflexivity.
    + apply LC. exists h, d, y'. split; [exact H|]. split; [exact D|]. cbn [app]. rewrite <- app_assoc. reflexivity.
  - destruct (fix_yes _ _ _ _ Y1) as [d [bb [D [BB ->]]]].
    destruct (prefix_within d (bb ++ d ++ c2 ++ r) name b (t1 ++ 32%N :: z)) as [y' [-> E2]]; [apply designator_dense_all, D | exact B | rewrite EQ, <- !app_assoc; reflexivity|].
    assert (SD : forall w, stops space (d ++ w)) by (intros w; eapply word_stops; [exact D | apply designator_not_space]).
    destruct (span_space y') as [s [v [-> [S SV]]]]. destruct v as [|x v].
    + rewrite app_nil_r in *.
      assert (s = []) as ->.
      { destruct s as [|x s] using rev_ind; [reflexivity|]. exfalso. apply Forall_app in S. destruct S as [_ S]. inversion S; subst.
        specialize (E x (d ++ s)). rewrite app_assoc in E. specialize (E eq_refl). congruence. }
      rewrite app_nil_r in *. cbn [app] in E2.
      destruct (split_word space bb (d ++ c2 ++ r) b (t1 ++ 32%N :: z) (proj2 BB) (proj2 B) (SD _) (spelt_stops _ _ _ S1 _) E2) as [-> E3].
      pose proof (sp_words _ _ _ S1) as W. destruct l1 as [p|f].
      * destruct W as [w1 [w2 [W1 [_ ->]]]]. apply coord_text_part in W1. destruct W1 as [_ [h [dg [x [H [[_ DG] ->]]]]]].
        destruct d as [|d0 d]; [destruct D; congruence|]. cbn [app] in E3. injection E3 as -> E3.
        assert (K : exists v, Forall (fun c => is_digit c = true) v /\ exists w, c2 ++ r = v ++ 46%N :: w).
        { destruct D as [_ DD]. inversion DD as [|? ? _ D']; subst. clear - D' DG E3. revert dg DG E3. induction D' as [|y d Y D' IH]; intros dg DG E3.
          - cbn [app] in E3. exists dg. split; [exact DG|]. rewrite E3. rewrite <- !app_assoc. cbn [s2t app]. eexists. reflexivity.
          - destruct DG as [|g dg GG DG]; cbn [app] in E3; [injection E3 as -> _; discriminate Y|]. injection E3 as -> E3. apply (IH dg DG E3). }
        destruct K as [v [V [w K]]]. clear E3.
        assert (FI : firm (c2 ++ r)). { rewrite K. destruct V as [|y v Y V]; cbn [app]; apply firm_char; unfold is_digit, space in *; try reflexivity; lia. }
        destruct Y2 as [c3 [c4 [u3 [u4 [-> [-> [[_ SK] Y2]]]]]]]. destruct SK as [st [k [k' SK]]].
        pose proof (matches_det _ _ _ _ _ _ _ SK _ (skip_ok [] _ spaced_nil ltac:(rewrite <- app_assoc in FI; exact FI) st k)) as X. injection X as -> _ _.
        destruct Y2 as [c5 [c6 [u5 [u6 [-> [-> [Y3 _]]]]]]]. cbn [app] in K. destruct Y3 as [Y3|[_ Y3]].
        -- destruct (coord_yes _ _ _ _ Y3) as [p' [b' [q [[_ [h' [d' [x' [H' [_ ->]]]]]] [_ [_ ->]]]]]].
           assert (ND : number_stop h' = false) by (cbn in H'; repeat destruct H' as [<-|H']; try reflexivity; contradiction).
           destruct V as [|y v Y V]; cbn [app] in K; injection K as -> _; unfold number_stop in ND; [discriminate | rewrite Y in ND; discriminate].
        -- destruct (fix_yes _ _ _ _ Y3) as [d2 [b2 [[DN2 D2] [B2 ->]]]].
           destruct (split_word designator_char d2 (b2 ++ d2 ++ c6 ++ r) v (46%N :: w) D2) as [_ K2].
           ++ eapply Forall_impl; [|exact V]. intros y Z. unfold designator_char. cbv beta in Z. rewrite Z. apply orb_true_r.
           ++ destruct B2 as [NB B2]. destruct B2 as [|y b2 Z B2]; [congruence|]. cbn [app stops]. clear - Z. unfold space, designator_char, is_upper, is_digit in *. lia.
           ++ reflexivity.
           ++ rewrite <- K, <- !app_assoc. reflexivity.
           ++ destruct B2 as [NB B2]. destruct B2 as [|y b2 Z B2]; [congruence|]. injection K2 as -> _. discriminate Z.
      * destruct W as [_ ->]. rewrite <- !app_assoc in E3. 
        destruct (prefix_within d (c2 ++ r) f (s2t " ") (f ++ 32%N :: z)) as [y [-> _]]; [apply designator_dense_all, D | split; [discriminate | repeat constructor] | exact E3|].
        apply ST. exists d, (s2t " "), y. split; [exact D|]. split; [split; [discriminate | repeat constructor]|]. reflexivity.
    + rewrite <- !app_assoc in E2. 
      destruct (split_word space bb (d ++ c2 ++ r) s ((x :: v) ++ b ++ t1 ++ 32%N :: z) (proj2 BB) S (SD _) SV E2) as [-> E3].
      destruct (prefix_within d (c2 ++ r) (x :: v) b (t1 ++ 32%N :: z)) as [y [EY _]]; [apply designator_dense_all, D | exact B | exact E3|].
      rewrite EY in *. destruct l1 as [p|f]; apply ST.
      * exists d, s, y. auto.
      * exists d, s, (y ++ s2t " " ++ f). split; [exact D|]. split; [exact BB|]. rewrite <- !app_assoc. reflexivity.
Qed.

(** ** Texts of items *)
Definition tail (z : text) : Prop := forall k, break k -> break (z ++ k).
Lemma tail_nil : tail [].
Proof. intros k K. exact K. Qed.
Lemma break_blanks b k : blanks b -> break k -> break (10%N :: b ++ k).
Proof. intros B K. apply break_more; assumption. Qed.
Lemma tail_cons b z : blanks b -> tail z -> tail (10%N :: b ++ z).
Proof. intros B Z k K. cbn [app]. rewrite <- app_assoc. apply break_more; [exact B | apply Z, K]. Qed.
Lemma break_hd k : break k -> exists u, k = 10%N :: u.
Proof. intros []; eauto. Qed.
(** [F] is what must hold of the text of the next item; [y] is what is read by [f] *)
Definition reads {A} (f : tree -> outcome (option A)) (tr : tree) (y : A) : Prop := is_rule tr "colour_definition" = false /\ f tr = Ret (Some y).
Record item {A} (e : expr) (F : text -> Prop) (f : tree -> outcome (option A)) (x : text) (y : A) : Prop := {
  it_firm : forall r, firmer (x ++ r);
  it_next : forall r, F (x ++ r);
  it_read : exists core z, x = core ++ z /\ tail z /\
    forall k h, break k -> firmer h -> F h -> exists tr, reads f tr y /\ okt NonAtomic e (core ++ k ++ h) (k ++ h) [tr] }.
(** items, each after the line break [s] *)
Definition after (s : text) (xs : list text) : text := List.concat (map (fun x => s ++ x) xs).
Lemma items_after {A} e (F : text -> Prop) (f : tree -> outcome (option A)) s h : break s -> firmer h -> F h -> ko G NonAtomic e h ->
  forall xs ys, Forall2 (item e F f) xs ys -> forall k, break k -> forall z, tail z ->
  exists k' trs, break k' /\ items e (z ++ after s xs ++ k ++ h) (k' ++ h) trs /\ Forall2 (reads f) trs ys.
Proof.
  intros S FH F0 KO xs ys H k K. induction H as [|x y xs ys I H IH]; intros z Z.
  - exists (z ++ k), []. split; [apply Z, K|]. split; [|constructor]. cbn [after map List.concat app]. rewrite app_assoc. apply items_nil; [apply break_firm, Z, K|].
    apply nl_ko; [apply Z, K | exact FH | exact KO].
  - destruct I as [I1 I2 [core [z' [-> [Z' I3]]]]]. destruct (IH z' Z') as [k' [trs [K' [R V]]]].
    assert (E : exists k0 h0, break k0 /\ firmer h0 /\ F h0 /\ z' ++ after s xs ++ k ++ h = k0 ++ h0).
    { destruct H as [|x2 y2 xs ys [J1 J2 _] H].
      - exists (z' ++ k), h. split; [apply Z', K|]. split; [exact FH|]. split; [exact F0|]. cbn [after map List.concat app]. apply app_assoc.
      - unfold after. cbn [map List.concat]. fold (after s xs). exists (z' ++ s), (x2 ++ after s xs ++ k ++ h). split; [apply Z', S|]. split; [apply J1|]. split; [apply J2|].
        rewrite <- !app_assoc. reflexivity. }
    destruct E as [k0 [h0 [B0 [FF0 [F00 E]]]]]. destruct (I3 _ _ B0 FF0 F00) as [tr [RT O]]. rewrite <- E in O.
    exists k', (tr :: trs). split; [exact K'|]. split; [|constructor; assumption].
    unfold after. cbn [map List.concat]. fold (after s xs).
    replace (z ++ ((s ++ core ++ z') ++ after s xs) ++ k ++ h) with ((z ++ s) ++ core ++ z' ++ after s xs ++ k ++ h) by (rewrite <- !app_assoc; reflexivity).
    apply (items_cons e (z ++ s) (core ++ z' ++ after s xs ++ k ++ h) (z' ++ after s xs ++ k ++ h) (k' ++ h) [tr] trs); [apply Z, S | | exact O | exact R].
    rewrite app_assoc. apply I1.
Qed.
Lemma entries_read {A} (f : tree -> outcome (option A)) trs ys : Forall2 (reads f) trs ys -> forall colours, entries f trs colours = Ret (ys, colours).
Proof.
  induction 1 as [|tr y trs ys [R E] _ IH]; intros colours; [reflexivity|]. cbn [entries]. rewrite R, E. cbn [obind]. rewrite IH. reflexivity.
Qed.

(** ** The lines of a drawing *)
Definition entry := (location * location * option text)%type.
Definition written (x : entry) (p : text * entry) : Prop :=
  exists t1 t2, spelt (fst (fst x)) t1 (fst (fst (snd p))) /\ spelt (snd (fst x)) t2 (snd (fst (snd p))) /\ colour_good (snd x) /\
    snd (snd p) = snd x /\ fst p = t1 ++ s2t " " ++ t2 ++ colour_text (snd x).
Lemma good_written x : good_entry x -> exists p, written x p.
Proof.
  destruct x as [[l1 l2] c]. intros [P1 [P2 C]]. cbn [fst snd] in *. destruct (place_spelt _ P1) as [t1 [q1 S1]]. destruct (place_spelt _ P2) as [t2 [q2 S2]].
  exists (t1 ++ s2t " " ++ t2 ++ colour_text c, (q1, q2, c)), t1, t2. cbn [fst snd]. auto.
Qed.
Lemma Forall_exists2 {A B} (P : A -> Prop) (R : A -> B -> Prop) : (forall x, P x -> exists y, R x y) -> forall l, Forall P l -> exists l', Forall2 R l l'.
Proof. intros H l F. induction F as [|x l X F [l' IH]]; [exists []; constructor|]. destruct (H x X) as [y Y]. exists (y :: l'). constructor; assumption. Qed.
Lemma written_near x p : written x p -> near_entry x (snd p).
Proof. intros [t1 [t2 [S1 [S2 [_ [C _]]]]]]. split; [apply (sp_near _ _ _ S1)|]. split; [apply (sp_near _ _ _ S2) | exact C]. Qed.
Lemma written_fmt x p : written x p -> line_fmt (snd x) (fst x) = Some (fst p).
Proof. intros [t1 [t2 [S1 [S2 [_ [_ E]]]]]]. unfold line_fmt. rewrite (sp_fmt _ _ _ S1), (sp_fmt _ _ _ S2), E. destruct (snd x); reflexivity. Qed.
Lemma written_tok x p u : written x p -> exists tr, parse_line tr = Ret (snd p) /\ okt NonAtomic &"coloured_line" (fst p ++ 10%N :: u) (10%N :: u) [tr].
Proof.
  destruct x as [[l1 l2] c], p as [t [[q1 q2] c']]. intros [t1 [t2 [S1 [S2 [C [E ->]]]]]]. cbn [fst snd] in *. subst c'.
  destruct (line_tok _ _ _ _ _ _ c u S1 S2 C) as [tr [_ [P O]]]. exists tr. split; [exact P|]. rewrite <- !app_assoc. exact O.
Qed.
Lemma written_firmer x p r : written x p -> firmer (fst p ++ r).
Proof. intros [t1 [t2 [S1 [_ [_ [_ ->]]]]]]. rewrite <- app_assoc. apply (spelt_firmer _ _ _ S1). Qed.
Lemma windows_segments l : windows l = segments l.
Proof. induction l as [|p [|q l] IH]; reflexivity. Qed.

Definition IND : text := pad_right 40 [] ++ s2t " ".
Lemma ind_blanks : blanks IND.
Proof. unfold IND, pad_right. repeat constructor. Qed.
(** the text of a group *)
Definition group_text (xs : list text) : text := match xs with [] => [] | x :: l => x ++ after (LF ++ IND) l end.
Lemma all_some_Forall2 {A B} (f : A -> option B) l l' : Forall2 (fun a b => f a = Some b) l l' -> all_some f l = Some l'.
Proof. induction 1 as [|a b l l' E _ IH]; [reflexivity|]. cbn [all_some]. rewrite E, IH. reflexivity. Qed.
Lemma Forall2_impl {A B} (P Q : A -> B -> Prop) l l' : (forall a b, P a b -> Q a b) -> Forall2 P l l' -> Forall2 Q l l'.
Proof. intros H. induction 1; constructor; auto. Qed.
Lemma Forall2_map_l {A B C} (R : B -> C -> Prop) (f : A -> B) l l' : Forall2 R (map f l) l' <-> Forall2 (fun a c => R (f a) c) l l'.
Proof.
  split.
  - revert l'. induction l as [|a l IH]; intros l' H; inversion H; subst; constructor; auto.
  - induction 1; constructor; auto.
Qed.
Lemma Forall2_map_r {A B C} (R : A -> C -> Prop) (f : B -> C) l l' : Forall2 R l (map f l') <-> Forall2 (fun a b => R a (f b)) l l'.
Proof.
  split.
  - revert l. induction l' as [|a l' IH]; intros l H; inversion H; subst; constructor; auto.
  - induction 1; constructor; auto.
Qed.
Lemma group_written g ps : Forall2 written (drawn_entries [g]) ps -> coloured_lines_fmt g = Some (group_text (map fst ps)).
Proof.
  unfold drawn_entries. cbn [flat_map]. rewrite app_nil_r. intros H. unfold coloured_lines_fmt.
  assert (E : all_some (line_fmt (lg_colour g)) (flat_map windows (lg_lines g)) = Some (map fst ps)).
  { apply all_some_Forall2. apply (proj2 (Forall2_map_r _ _ _ _)). apply (proj1 (Forall2_map_l _ _ _ _)) in H.
    replace (flat_map windows (lg_lines g)) with (drawn_segments (lg_lines g)) by (unfold drawn_segments; apply flat_map_ext; intros; symmetry; apply windows_segments).
    eapply Forall2_impl; [|exact H]. intros s p W. apply (written_fmt (s, lg_colour g) p W). }
  rewrite E. destruct (map fst ps) as [|x l]; [reflexivity|]. unfold join, group_text, after. rewrite map_map.
  rewrite (map_ext (fun y => LF ++ pad_right 40 [] ++ s2t " " ++ y) (fun y => (LF ++ IND) ++ y)); [reflexivity|]. intros y.
  unfold IND. rewrite <- !app_assoc. reflexivity.
Qed.
Lemma join_after s x l : join s (x :: l) = x ++ after s l.
Proof. reflexivity. Qed.
(** the lines after the first one of a drawing *)
Inductive trail : list text -> text -> Prop :=
| trail_nil : trail [] []
| trail_cons k x xs t : break k -> trail xs t -> trail (x :: xs) (k ++ x ++ t).
Lemma trail_app xs t ys u : trail xs t -> trail ys u -> trail (xs ++ ys) (t ++ u).
Proof. intros H K. induction H as [|k x xs t B H IH]; [exact K|]. cbn [app]. rewrite <- !app_assoc. apply trail_cons; assumption. Qed.
Lemma trail_after xs : trail xs (after (LF ++ IND) xs).
Proof.
  induction xs as [|x xs IH]; [constructor|]. unfold after. cbn [map List.concat]. fold (after (LF ++ IND) xs). rewrite <- app_assoc.
  apply trail_cons; [apply (break_one IND), ind_blanks | exact IH].
Qed.
Lemma trail_groups gs : exists t z, List.concat (map (fun g => LF ++ IND ++ group_text g) gs) = t ++ z /\ trail (List.concat gs) t /\ tail z.
Proof.
  induction gs as [|g gs [t [z [E [T Z]]]]]; [exists [], []; repeat split; [constructor | apply tail_nil]|].
  cbn [map List.concat]. rewrite E. destruct g as [|x g].
  - cbn [group_text]. rewrite app_nil_r. cbn [app]. destruct T as [|k x xs t K T].
    + exists [], (10%N :: IND ++ z). split; [cbn [app LF]; reflexivity|]. split; [constructor | apply tail_cons; [apply ind_blanks | exact Z]].
    + exists ((10%N :: IND ++ k) ++ x ++ t), z. split; [cbn [app LF]; rewrite <- !app_assoc; reflexivity|]. split; [|exact Z].
      apply trail_cons; [apply break_more; [apply ind_blanks | exact K] | exact T].
  - exists ((LF ++ IND) ++ x ++ after (LF ++ IND) g ++ t), z. split; [cbn [group_text]; rewrite <- !app_assoc; reflexivity|]. split; [|exact Z].
    cbn [app]. apply (trail_cons (LF ++ IND) x (g ++ List.concat gs)); [apply (break_one IND), ind_blanks|]. apply trail_app; [apply trail_after | exact T].
Qed.
Lemma trail_items xs ps t k h : Forall2 written xs ps -> trail (map fst ps) t -> break k -> firmer h -> ko G NonAtomic &"coloured_line" h ->
  exists trs, items &"coloured_line" (t ++ k ++ h) (k ++ h) trs /\ Forall2 (fun tr y => parse_line tr = Ret y) trs (map snd ps).
Proof.
  intros W T K FH KO. revert t T. induction W as [|x p xs ps X W IH]; intros t T; inversion T as [|k0 x0 xs0 t0 B T0]; subst.
  - exists []. split; [|constructor]. apply items_nil; [apply break_firm, K | apply nl_ko; assumption].
  - destruct (IH _ T0) as [trs [I P]].
    assert (E : exists u, t0 ++ k ++ h = 10%N :: u).
    { destruct T0 as [|k1 ? ? ? B1 _]; [destruct (break_hd k K) as [u ->] | destruct (break_hd k1 B1) as [u ->]]; eexists; reflexivity. }
    destruct E as [u E]. destruct (written_tok _ _ u X) as [tr [PR O]]. rewrite <- E in O. exists (tr :: trs). split; [|constructor; assumption].
    replace ((k0 ++ fst p ++ t0) ++ k ++ h) with (k0 ++ fst p ++ t0 ++ k ++ h) by (rewrite <- !app_assoc; reflexivity).
    apply (items_cons _ k0 (fst p ++ t0 ++ k ++ h) (t0 ++ k ++ h) (k ++ h) [tr] trs); [exact B | apply (written_firmer _ _ _ X) | exact O | exact I].
Qed.
Lemma line_groups_fold trs ys : Forall2 (fun tr y => parse_line tr = Ret y) trs ys -> forall acc,
  ofold (fun acc pair => do x <- parse_line pair; Ret (push_entry acc x)) trs acc = Ret (fold_left push_entry ys acc).
Proof. induction 1 as [|tr y trs ys E _ IH]; intros acc; [reflexivity|]. cbn [ofold fold_left]. rewrite E. cbn [obind]. apply IH. Qed.

(** ** A whole drawing *)
Lemma starts_within x s b z : Forall (fun c => dense c = true) x -> spaces b -> ~ starts x s -> forall y, x ++ y <> s ++ b ++ z.
Proof. intros X B N y E. destruct (prefix_within x y s b z X B E) as [y' [-> _]]. apply N. exists y'. reflexivity. Qed.
Lemma solid_firmer s b z : s <> [] -> in_line s -> solid s -> spaces b -> firmer (s ++ b ++ z).
Proof.
  intros N L [S1 [S2 S3]] B. assert (E : exists c s', s = c :: s') by (destruct s; [congruence | eauto]). destruct E as [c [s' E]]. split; [split|].
  - rewrite E. cbn [app stops]. apply (S1 c s' E).
  - intros [r [X|X]]; [eapply (starts_within (s2t ";") s b z) | eapply (starts_within (s2t "//") s b z)]; try eassumption; try (repeat constructor); symmetry; exact X.
  - rewrite E. cbn [app stops]. rewrite E in L. inversion L; subst. unfold is_nl. lia.
Qed.
Lemma entries_app g gs : drawn_entries (g :: gs) = drawn_entries [g] ++ drawn_entries gs.
Proof. unfold drawn_entries. cbn [flat_map]. rewrite app_nil_r. reflexivity. Qed.
Lemma groups_written gs : Forall good_entry (drawn_entries gs) -> exists pss, Forall2 (fun g ps => Forall2 written (drawn_entries [g]) ps) gs pss.
Proof.
  induction gs as [|g gs IH]; intros H; [exists []; constructor|]. rewrite entries_app in H. apply Forall_app in H. destruct H as [H1 H2].
  destruct (IH H2) as [pss P]. destruct (Forall_exists2 _ _ good_written _ H1) as [ps P1]. exists (ps :: pss). constructor; assumption.
Qed.
Lemma written_concat gs pss : Forall2 (fun g ps => Forall2 written (drawn_entries [g]) ps) gs pss -> Forall2 written (drawn_entries gs) (List.concat pss).
Proof. induction 1 as [|g ps gs pss H _ IH]; [constructor|]. rewrite entries_app. cbn [List.concat]. apply Forall2_app; assumption. Qed.
Definition name_gap (name : text) : text := repeat 32%N (40 - List.length name) ++ s2t " ".
Lemma name_gap_spaces name : spaces (name_gap name).
Proof. split; [unfold name_gap; destruct (repeat 32%N _); discriminate | apply spaced_app; [apply spaced_repeat | apply spaced_one]]. Qed.

Definition not_line (h : text) : Prop := ko G NonAtomic &"coloured_line" h.
Lemma drawing_item d : good_drawing d -> exists t y, drawing_fmt d = Some t /\ near_drawing d y /\
  item (&"colour_definition" // &"coloured_lines") not_line (some parse_drawing) t y.
Proof.
  destruct d as [name groups]. intros [DN [GE [g [gs [x [l [E0 [E1 FL]]]]]]]]. cbn [dr_name dr_groups] in *. subst groups.
  destruct (groups_written _ GE) as [pss W]. inversion W as [|? ps0 ? pss' W0 W']; subst. pose proof (written_concat _ _ W) as WA.
  rewrite E1 in W0. inversion W0 as [|? p0 ? ps1 X W1]; subst.
  destruct (trail_groups (map (map fst) pss')) as [t1 [z [EZ [T1 Z]]]].
  set (b := name_gap name). pose proof (name_gap_spaces name) as B. fold b in B.
  set (t0 := after (LF ++ IND) (map fst ps1) ++ t1).
  assert (FM : drawing_fmt (mkDrawing name (g :: gs)) = Some ((name ++ b ++ fst p0 ++ t0) ++ z)).
  { unfold drawing_fmt. cbn [dr_groups dr_name].
    rewrite (all_some_Forall2 coloured_lines_fmt (g :: gs) (map (fun ps => group_text (map fst ps)) ((p0 :: ps1) :: pss'))).
    - cbn [map tl]. f_equal. unfold pad_right at 1. cbn [group_text].
      assert (EM : map (fun g0 => LF ++ pad_right 40 [] ++ s2t " " ++ g0) (map (fun ps => group_text (map fst ps)) pss') =
        map (fun g0 => LF ++ IND ++ group_text g0) (map (map fst) pss')).
      { rewrite !map_map. apply map_ext. intros ps. unfold IND. rewrite <- !app_assoc. reflexivity. }
      rewrite EM, EZ. unfold t0, b, name_gap. cbn [map]. rewrite <- !app_assoc. reflexivity.
    - apply (proj2 (Forall2_map_r _ _ _ _)). eapply Forall2_impl; [|exact W]. intros g0 ps H. apply group_written, H. }
  destruct x as [[l1 l2] c]. destruct p0 as [tx [[q1 q2] c']]. pose proof X as [s1 [s2 [S1 [S2 [CG [EC ET]]]]]]. cbn [fst snd] in *. subst c'.
  pose proof DN as [NN [NF [NS [NE [ND NL]]]]].
  assert (NAME : forall r, exists ts, okt NonAtomic &"non_coordinate_or_double_fix_name" (name ++ b ++ tx ++ 10%N :: r) (b ++ tx ++ 10%N :: r) [T "non_coordinate_or_double_fix_name" name ts]).
  { intros r. exists []. rewrite ET. rewrite <- !app_assoc. eapply (name_tok name b l1 l2 s1 s2 q1 q2 (colour_text c) r); try eassumption; [apply coloured_text, CG|].
    cbn [first_line] in FL. destruct l1, l2; tauto. }
  assert (NEXT : forall r, not_line (((name ++ b ++ tx ++ t0) ++ z) ++ r)).
  { intros r. unfold not_line. replace (((name ++ b ++ tx ++ t0) ++ z) ++ r) with (name ++ b ++ s1 ++ (32%N :: s2 ++ colour_text c ++ t0 ++ z ++ r)) by (rewrite ET, <- !app_assoc; reflexivity).
    eapply name_not_line; [exact DN | exact B | exact S1 | eexists; reflexivity|]. cbn [first_line] in FL. destruct l1, l2; tauto. }
  assert (T0 : trail (map fst (ps1 ++ List.concat pss')) t0).
  { rewrite map_app, concat_map. apply trail_app; [apply trail_after | exact T1]. }
  assert (WR : exists xs, Forall2 written xs (ps1 ++ List.concat pss')).
  { rewrite entries_app, E1 in WA. cbn [app List.concat] in WA. inversion WA; subst. eauto. }
  destruct WR as [xs WR].
  set (y := mkDrawing name (merge_groups (map snd ((tx, (q1, q2, c)) :: ps1 ++ List.concat pss')))).
  exists ((name ++ b ++ tx ++ t0) ++ z), y. split; [exact FM|]. split.
  { split; [reflexivity|]. cbn [dr_groups y]. exists (map snd ((tx, (q1, q2, c)) :: ps1 ++ List.concat pss')).
    destruct (merge_groups_ok (map snd ((tx, (q1, q2, c)) :: ps1 ++ List.concat pss'))) as [out [P [D _ _ _]]]. exists out. split; [|auto].
    apply (proj2 (Forall2_map_r _ _ _ _)). eapply Forall2_impl; [|exact WA]. apply written_near. }
  constructor.
  - intros r. rewrite <- !app_assoc. apply solid_firmer; [exact NN | apply NF | exact NS | exact B].
  - exact NEXT.
  - exists (name ++ b ++ tx ++ t0), z. split; [reflexivity|]. split; [exact Z|]. intros k h K FH NH.
    destruct (trail_items _ _ _ k h WR T0 K FH NH) as [trs [I P]].
    assert (E : exists u, t0 ++ k ++ h = 10%N :: u).
    { destruct T0 as [|k1 ? ? ? B1 _]; [destruct (break_hd k K) as [u ->] | destruct (break_hd k1 B1) as [u ->]]; eexists; reflexivity. }
    destruct E as [u E]. destruct (written_tok _ _ u X) as [tr0 [PR O]]. cbn [fst snd] in PR, O. destruct (NAME u) as [ts ON]. rewrite <- E in O, ON.
    pose proof (okt_normal "coloured_lines" _ eq_refl eq_refl ((name ++ b ++ tx ++ t0) ++ k ++ h) (k ++ h)) as KK. edestruct KK as [cc [_ OO]].
    + replace ((name ++ b ++ tx ++ t0) ++ k ++ h) with (name ++ b ++ tx ++ t0 ++ k ++ h) by (rewrite <- !app_assoc; reflexivity).
      eapply (okt_seq NonAtomic _ _ _ b); [exact ON | apply B | apply (written_firmer _ (tx, (q1, q2, c)) _ X) | | reflexivity].
      eapply okt_seq0; [exact O | eapply items_firm, I | apply items_star, I].
    + eexists. split; [|apply okt_alt2; [|exact OO]].
      * split; [reflexivity|]. unfold some, parse_drawing. cbn [kids_of next obind app text_of]. unfold parse_line_groups.
        rewrite (line_groups_fold (tr0 :: trs) (map snd ((tx, (q1, q2, c)) :: ps1 ++ List.concat pss'))); [reflexivity|]. constructor; assumption.
      * rewrite <- !app_assoc. eapply ko_call; [reflexivity|]. apply ko_seq1. apply ko_str. intros r EQ. symmetry in EQ. revert EQ.
        apply (starts_within (s2t "#define")); [repeat constructor | exact B | exact ND].
Qed.
