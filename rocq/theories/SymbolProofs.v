(** Proofs about symbol rules. *)
From Coq Require Import ZifyBool ZifyN ZifyNat.
From Verif Require Import Base Num Float FloatParse Settings Peg Grammars SpecPeg PegProofs PegLang PegForward Trees PegTree SpecPairs PairsProofs SpecText TextProofs Numerals Verdict SymbolParse SpecSymbol.
Local Open Scope string_scope.
Local Open Scope list_scope.
Ltac vb x := eapply (verdict_bind _ _ x).
Ltac vend := apply verdict_ret; [exact I|].

Definition is_dec (d : tree) : Prop := rule_of d = "decimal" /\ numeral (text_of d).
Definition is_int (d : tree) : Prop := rule_of d = "integer".
Definition is_pt (q : tree) : Prop := rule_of q = "symbol_rule_point" /\ exists a b, kids_of q = [a; b] /\ is_dec a /\ is_dec b.
Lemma born_decimal_at g (Q : tacit g = true) a t : get "decimal" g = Some (KAtomic, decimal_body) -> a <> Atomic -> born g a "decimal" t -> is_dec t.
Proof.
  intros G A B. split; [exact (born_rule _ _ _ _ B)|]. destruct (born_yes g Q _ _ _ B _ _ G ltac:(discriminate) A) as [r Y].
  change (body_atom "decimal" KAtomic a) with Atomic in Y. apply numeral_yes in Y. apply Y.
Qed.
Lemma dec_f64 d : is_dec d -> exists x, parse_f64 (text_of d) = Some x.
Proof. intros [_ N]. apply numeral_f64. exact N. Qed.
Lemma point_ok q : is_pt q -> exists c, parse_point q = Ret c /\ reads_xy q c.
Proof.
  intros [_ [a [b [E [[A NA] [B NB]]]]]]. destruct (numeral_f64 _ NA) as [x X]. destruct (numeral_f64 _ NB) as [y Y]. exists (x, y).
  unfold parse_point. rewrite E. cbn [next obind]. rewrite X. cbn [unwrap obind next]. rewrite Y. split; [reflexivity|].
  exists (text_of a), (text_of b). unfold texts. rewrite E. pick. auto.
Qed.
Lemma angle_ok s : verdict (exists n, parse_i64 s = Some n) (parse_angle s) (reads_angle s).
Proof.
  unfold parse_angle. eapply verdict_iff.
  - vb (unwrap (parse_i64 s)); [apply verdict_unwrap|]. intros n _ N. vend. exists n. split; [exact N|].
    pose proof (Z.rem_bound_abs n 360 ltac:(lia)). pose proof (Z.quot_rem' n 360). pose proof (Z.rem_sign_mul n 360 ltac:(lia)).
    split; [lia|]. split; [exists (Z.quot n 360); lia | lia].
  - tauto.
Qed.
Lemma points_ok l : Forall is_pt l -> exists cs, omap parse_point l = Ret cs /\ Forall2 reads_xy l cs.
Proof.
  induction 1 as [|q l Q _ [cs [IH F]]]; [exists []; split; [reflexivity | constructor]|]. destruct (point_ok q Q) as [c [E H]]. exists (c :: cs). cbn [omap]. rewrite E. cbn [obind].
  rewrite IH. split; [reflexivity | constructor; assumption].
Qed.
Lemma circular_spec x y : if same_radius x y then circular x y else ~ circular x y.
Proof. unfold circular, same_radius, epsilon, fsub. destruct (SFltb _ _); [reflexivity | discriminate]. Qed.

(** the pairs of each rule *)
Inductive rule_form (q : tree) : Prop :=
| form_point p : In (rule_of q) ["moveto"; "line"; "pixel"] -> kids_of q = [p] -> is_pt p -> rule_form q
| form_arc p d i j : In (rule_of q) ["arc"; "fillarc"] -> kids_of q = [p; d; i; j] -> is_pt p -> is_dec d -> is_int i -> is_int j -> rule_form q
| form_arc2 p d e i j : In (rule_of q) ["arc_ellipse"; "fillarc_ellipse"] -> kids_of q = [p; d; e; i; j] -> is_pt p -> is_dec d -> is_dec e -> is_int i -> is_int j -> rule_form q
| form_circle p d : rule_of q = "ellipse_circle" -> kids_of q = [p; d] -> is_pt p -> is_dec d -> rule_form q
| form_ellipse p d e : rule_of q = "ellipse" -> kids_of q = [p; d; e] -> is_pt p -> is_dec d -> is_dec e -> rule_form q
| form_rect p r : rule_of q = "fillrect" -> kids_of q = [p; r] -> is_pt p -> is_pt r -> rule_form q
| form_polygon : rule_of q = "polygon" -> Forall is_pt (kids_of q) -> rule_form q.
Ltac facts := repeat match goal with
  | H : is_pt ?p |- _ => let c := fresh "c" in let E := fresh "E" in let X := fresh "X" in destruct (point_ok p H) as [c [E X]]; apply proj1 in H
  | H : is_dec ?d |- _ => let x := fresh "x" in let E := fresh "D" in destruct (dec_f64 d H) as [x E]; apply proj1 in H
  end; unfold is_int in *.
Ltac known E := unfold parse_symbol_rule, is_rule; rewrite E; cbn [eqb EqDec_string String.eqb Ascii.eqb Bool.eqb].
Ltac steps := repeat match goal with
  | H : kids_of _ = _ |- _ => rewrite H
  | H : parse_point _ = _ |- _ => rewrite H
  | H : parse_f64 _ = _ |- _ => rewrite H
  | _ => progress cbn [next obind unwrap]
  end.
Ltac spec_lists := unfold at_points, radii, angles, texts; match goal with H : kids_of _ = _ |- _ => rewrite H end; pick; repeat first [assumption | constructor].
Lemma rule_ok q : rule_form q -> verdict (rule_fits q) (parse_symbol_rule q) (reads_rule q).
Proof.
  intros [p R E P|p d i j R E P D I J|p d e i j R E P D D' I J|p d R E P D|p d e R E P D D'|p r R E P P'|R F].
  - facts. assert (W : rule_fits q) by (unfold rule_fits, texts; rewrite E; pick; constructor).
    cbn [In] in R. repeat match type of R with _ \/ _ => destruct R as [R|R] end; try contradiction; symmetry in R; known R; steps; (apply verdict_ret; [exact W|]); (split; [exact R | spec_lists]).
  - facts. assert (W : rule_fits q <-> (exists n, parse_i64 (text_of i) = Some n) /\ (exists n, parse_i64 (text_of j) = Some n) /\ True).
    { unfold rule_fits, texts. rewrite E. pick. rewrite !Forall_cons_iff. intuition. }
    cbn [In] in R. repeat match type of R with _ \/ _ => destruct R as [R|R] end; try contradiction; symmetry in R; known R; steps; (eapply verdict_iff; [|symmetry; exact W]);
      (vb (parse_angle (text_of i)); [apply angle_ok|]); intros a _ A; cbn [next obind]; (vb (parse_angle (text_of j)); [apply angle_ok|]); intros b _ B; vend.
    + split; [spec_lists|]. split; [spec_lists|]. left. split; [exact R | spec_lists].
    + split; [spec_lists|]. left. split; [exact R|]. split; spec_lists.
  - facts. assert (W : rule_fits q <-> (exists n, parse_i64 (text_of i) = Some n) /\ (exists n, parse_i64 (text_of j) = Some n) /\ True).
    { unfold rule_fits, texts. rewrite E. pick. rewrite !Forall_cons_iff. intuition. }
    cbn [In] in R. repeat match type of R with _ \/ _ => destruct R as [R|R] end; try contradiction; symmetry in R; known R; steps; (eapply verdict_iff; [|symmetry; exact W]);
      (vb (parse_angle (text_of i)); [apply angle_ok|]); intros a _ A; cbn [next obind]; (vb (parse_angle (text_of j)); [apply angle_ok|]); intros b _ B; vend;
      pose proof (circular_spec x0 x) as C; destruct (same_radius x0 x).
    + split; [spec_lists|]. split; [spec_lists|]. right. split; [exact R|]. exists x. split; [spec_lists | exact C].
    + split; [exact R|]. split; [spec_lists|]. split; [spec_lists|]. split; [spec_lists | exact C].
    + split; [spec_lists|]. right. left. split; [exact R|]. split; [exists x; split; [spec_lists | exact C] | spec_lists].
    + split; [spec_lists|]. split; [spec_lists|]. left. split; [exact R|]. split; [spec_lists | exact C].
  - facts. known R. steps. apply verdict_ret; [unfold rule_fits, texts; rewrite E; pick; constructor|]. split; [spec_lists|]. right. right. split; [exact R|]. split; [spec_lists | auto].
  - facts. known R. steps. apply verdict_ret; [unfold rule_fits, texts; rewrite E; pick; constructor|]. split; [spec_lists|]. split; [spec_lists|]. right. split; [exact R | auto].
  - facts. known R. steps. destruct c0 as [x1 y1], c as [x2 y2]. apply verdict_ret; [unfold rule_fits, texts; rewrite E; pick; constructor|]. right. split; [exact R|].
    exists x1, y1, x2, y2. split; [spec_lists | reflexivity].
  - destruct (points_ok _ F) as [cs [E X]]. known R. rewrite E. cbn [obind].
    assert (A : of_rule "symbol_rule_point" (kids_of q) = kids_of q /\ of_rule "integer" (kids_of q) = []).
    { clear - F. induction F as [|p l [P _] _ [IH1 IH2]]; [split; reflexivity|]. rewrite of_rule_hit by exact P. rewrite of_rule_miss by (rewrite P; discriminate). rewrite IH1. auto. }
    apply verdict_ret; [unfold rule_fits, texts; rewrite (proj2 A); constructor|]. left. split; [exact R|]. unfold at_points. rewrite (proj1 A). exact X.
Qed.

(** the pairs of a grammar have these forms *)

Ltac dec_at G := apply (born_decimal_at G ltac:(vm_compute; reflexivity) Compound _ ltac:(reflexivity) ltac:(discriminate)).
Ltac on_list := match goal with R : rule_of _ = _ |- _ => rewrite R; cbn [In]; tauto end.
Ltac part G pt := first [ eapply pt; [|eassumption]; discriminate | dec_at G; eassumption | unfold is_int; eapply born_rule; eassumption ].
Ltac form_at G pt := first
  [ eapply form_point; [on_list | eassumption | part G pt]
  | eapply form_arc; [on_list | eassumption | part G pt ..]
  | eapply form_arc2; [on_list | eassumption | part G pt ..]
  | eapply form_circle; [eassumption | eassumption | part G pt ..]
  | eapply form_ellipse; [eassumption | eassumption | part G pt ..]
  | eapply form_rect; [eassumption | eassumption | part G pt ..]
  | apply form_polygon; [assumption|];
    match goal with K : shape _ _ _ _ _ |- _ =>
      apply shape_plus in K; [|reflexivity]; let l := fresh "l" in let E := fresh "E" in let F := fresh "F" in destruct K as [l [_ [E F]]];
      rewrite E; apply Forall_flat; (eapply Forall_impl; [|exact F]); let v := fresh "v" in let V := fresh "V" in intros v V; shp V; subst v;
      right; eexists; split; [reflexivity | part G pt] end ].
Lemma symbology_point a p : a <> Atomic -> born symbology_grammar a "symbol_rule_point" p -> is_pt p.
Proof.
  intros A B. split; [exact (born_rule _ _ _ _ B)|]. kids B as K. eexists _, _. split; [exact E|]. split; dec_at symbology_grammar; assumption.
Qed.
Lemma symbology_rule u : shape symbology_grammar 6 NonAtomic (&"symbolrule") u -> exists q, u = [q] /\ rule_form q.
Proof.
  intros U. sil U. alts U; subst u; (eexists; split; [reflexivity|]); pose proof (born_rule _ _ _ _ U) as R; kids U as K; form_at symbology_grammar symbology_point.
Qed.
Lemma topsky_point a p : a <> Atomic -> born topsky_grammar a "symbol_rule_point" p -> is_pt p.
Proof.
  intros A B. split; [exact (born_rule _ _ _ _ B)|]. kids B as K. eexists _, _. split; [exact E|]. split; dec_at topsky_grammar; assumption.
Qed.
Lemma topsky_rule u : shape topsky_grammar 6 NonAtomic (&"symbolrule") u -> exists q, u = [q] /\ rule_form q.
Proof.
  intros U. sil U. alts U; subst u; (eexists; split; [reflexivity|]); pose proof (born_rule _ _ _ _ U) as R; kids U as K; form_at topsky_grammar topsky_point.
Qed.
