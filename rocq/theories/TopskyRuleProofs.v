(** Proofs about the rules of TopSky maps. *)
From Coq Require Import ZifyBool ZifyN ZifyNat.
From Verif Require Import Base Num Float FloatParse Dms Decode Colours Settings Locations Maps Lines Peg Grammars SpecPeg PegProofs PegLang PegForward Trees PegTree SpecPairs PairsProofs SpecText TextProofs Numerals Verdict SpecKeyed KeyedProofs SpecSct SpecEse SymbolParse SpecSymbol SymbolProofs TopskyParse SpecTopsky TopskyProofs TopskyMapProofs.
Local Open Scope string_scope.
Local Open Scope list_scope.

Section rules.
  Variable upper : text -> text.
  Notation good := (rule_good upper).
  Ltac plain R := unfold parse_map_rule, is_rule, first_text, first_f32; rewrite R; eqs.
  Lemma folder_rule q : born G NonAtomic "folder" q -> good q.
  Proof.
    intros U. pose proof U as V. kids V as K. rules. simple_rule U R (Some (RFolder (text_of t))).
    - plain R. unfold first_text. rewrite E. reflexivity.
    - unfold rule_rel, skipped. rewrite R. split; [reflexivity|]. split; [exact R|]. unfold field, texts. rewrite E. pick. reflexivity.
  Qed.
  Lemma colour_rule q : born G NonAtomic "colour" q -> good q.
  Proof.
    intros U. pose proof U as V. kids V as K. rules. simple_rule U R (Some (RColour (text_of t))).
    - plain R. unfold first_text. rewrite E. reflexivity.
    - unfold rule_rel, skipped. rewrite R. split; [reflexivity|]. split; [exact R|]. unfold texts. rewrite E. rewrite of_rule_hit by assumption. eexists. reflexivity.
  Qed.
  Lemma asrdata_rule q : born G NonAtomic "asrdata" q -> good q.
  Proof.
    intros U. pose proof U as V. kids V as K. apply wn_of in K. destruct K as [t [E W]]. destruct (names_ok t W) as [o [O1 O2]]. simple_rule U R (Some (RAsrData o)).
    - plain R. rewrite E. cbn [next obind]. rewrite O1. reflexivity.
    - unfold rule_rel, skipped. rewrite R. split; [reflexivity|]. split; [exact R|]. rewrite E. repeat constructor; assumption.
  Qed.
  Lemma active_rule q : born G NonAtomic "active" q -> good q.
  Proof.
    intros U. pose proof U as V. kids V as K. apply active_ok in K. destruct K as [t [E W]]. destruct (W q E) as [a [A1 A2]]. simple_rule U R (Some (RActive a)).
    - plain R. rewrite A1. reflexivity.
    - unfold rule_rel, skipped. rewrite R. split; [reflexivity|]. split; [exact R|]. rewrite E. repeat constructor; assumption.
  Qed.
  Lemma andactive_rule q : born G NonAtomic "andactive" q -> good q.
  Proof.
    intros U. pose proof U as V. kids V as K. apply active_ok in K. destruct K as [t [E W]]. destruct (W q E) as [a [A1 A2]]. simple_rule U R (Some (RAndActive a)).
    - plain R. rewrite A1. reflexivity.
    - unfold rule_rel, skipped. rewrite R. split; [reflexivity|]. split; [exact R|]. rewrite E. repeat constructor; assumption.
  Qed.
  Lemma layer_rule q : born G NonAtomic "layer" q -> good q.
  Proof.
    intros U. pose proof U as V. kids V as K. destruct (integer_f32 _ K) as [x X]. rules. simple_rule U R (Some (RLayer x)).
    - plain R. unfold first_text. rewrite E. cbn [next obind]. rewrite X. reflexivity.
    - unfold rule_rel, skipped. rewrite R. split; [reflexivity|]. split; [exact R|]. exists (text_of t). split; [|exact X]. unfold field, texts. rewrite E. pick. reflexivity.
  Qed.
  Lemma zoom_rule q : born G NonAtomic "zoom" q -> good q.
  Proof.
    intros U. pose proof U as V. kids V as K. destruct (decimal_f32 _ K) as [x X]. rules. simple_rule U R (Some (RZoom x)).
    - plain R. unfold first_text. rewrite E. cbn [next obind]. rewrite X. reflexivity.
    - unfold rule_rel, skipped. rewrite R. split; [reflexivity|]. split; [exact R|]. exists (text_of t). split; [|exact X]. unfold field, texts. rewrite E. pick. reflexivity.
  Qed.
  Lemma coordpoly_rule q : born G NonAtomic "coordpoly" q -> good q.
  Proof.
    intros U. pose proof U as V. kids V as K. rules. simple_rule U R (Some (RCoordPoly (text_of t))).
    - plain R. unfold first_text. rewrite E. reflexivity.
    - unfold rule_rel, skipped. rewrite R. split; [reflexivity|]. split; [exact R|]. unfold field, texts. rewrite E. pick. reflexivity.
  Qed.
  Lemma flag_rule q r : In (rule_of q, r) [("screen_specific", RScreenSpecific); ("global", RGlobal); ("hidden", RHidden); ("coordline", RCoordLine)] -> good q.
  Proof.
    cbn [In]. intros [I|[I|[I|[I|[]]]]]; injection I as R <-; symmetry in R;
      (eapply (easy_rule _ _ (Some _)); [rewrite R; cbn; intuition discriminate | plain R; reflexivity | unfold rule_rel, skipped; rewrite R; split; [reflexivity | exact R]]).
  Qed.
  Lemma style_rule q : born G NonAtomic "style" q -> good q.
  Proof.
    intros U. pose proof U as V. kids V as K. rules. simple_rule U R (Some (RLineStyle (mkLineStyle (match ts0 with w :: _ => match parse_i32 (text_of w) with Some w => w | None => 1%Z end | [] => 1%Z end) (upper (text_of t))))).
    - plain R. unfold parse_line_style. rewrite E. reflexivity.
    - unfold rule_rel, skipped. rewrite R. split; [reflexivity|]. split; [exact R|]. unfold reads_style, field, texts. rewrite E. cbn [ls_style ls_width]. destruct K as [-> |K].
      + pick. split; [eexists; split; reflexivity | reflexivity].
      + shp K. subst ts0. rules. pick. split; [eexists; split; reflexivity|]. cbn [map]. destruct (parse_i32 (text_of t0)); auto.
  Qed.
  Lemma fontsize_rule q : born G NonAtomic "fontsize" q -> good q.
  Proof.
    intros U. pose proof U as V. kids V as K. alts K.
    - destruct (decimal_f32 _ K) as [x X]. destruct (born_yes G eq_refl _ _ _ K0 _ _ eq_refl ltac:(discriminate) ltac:(discriminate)) as [r Y].
      assert (T1 : In (text_of t) [s2t "="; s2t "+"; s2t "-"; s2t "*"]) by (cbn [In]; destruct Y as [[Y _]|[_ [[Y _]|[_ [[Y _]|[_ [Y _]]]]]]]; auto).
      clear Y. subst. rules. pose proof (born_rule _ _ _ _ U) as R.
      assert (F : field "font_symbol" q (text_of t)) by (unfold field, texts; rewrite E; cbn [app]; pick; reflexivity).
      assert (N : number "decimal" q x) by (exists (text_of t0); split; [unfold field, texts; rewrite E; cbn [app]; pick; reflexivity | exact X]).
      cbn [In] in T1. destruct T1 as [T1|[T1|[T1|[T1|[]]]]]; symmetry in T1;
        (eapply (easy_rule _ _ (Some (RFontSize _)));
         [ rewrite R; cbn; intuition discriminate
         | plain R; unfold parse_font_size, is_rule; rewrite E; cbn [app next obind]; rewrite (born_rule _ _ _ _ K0); eqs; cbn [next obind]; rewrite X; cbn [unwrap obind]; rewrite T1; reflexivity
         | unfold rule_rel, skipped; rewrite R; split; [reflexivity|]; split; [exact R|]; rewrite T1 in F; split; [exact F | exact N] ]).
    - simple_rule U R (Some (RFontSize FDefault)).
      + plain R. unfold parse_font_size, is_rule. rewrite E. cbn [next obind]. rewrite (born_rule _ _ _ _ K). eqs. reflexivity.
      + unfold rule_rel, skipped. rewrite R. split; [reflexivity|]. split; [exact R|]. cbn [reads_font]. rewrite E. rules. pick. reflexivity.
  Qed.
  Lemma coord_rule q : born G NonAtomic "coord" q -> good q.
  Proof.
    intros U. pose proof U as V. kids V as K. apply co_of in K. destruct K as [t [E W]]. begin U R. rewrite E. cbn [next obind]. eapply verdict_iff.
    - vb (parse_location t); [exact (place_ok t W)|]. intros l _ L. vend. unfold rule_rel, skipped. rewrite R. split; [reflexivity|]. split; [exact R|]. rewrite E. repeat constructor. exact L.
    - unfold map_rule_fits. rewrite R, E, Forall_cons_iff. cbn [In]. intuition (auto; discriminate).
  Qed.
  Definition not_align (p : tree) : Prop := rule_of p <> "textalign_config".
  Lemma place_align q : is_place q -> not_align q.
  Proof. intros W. unfold not_align. destruct (place_name q W) as [-> | ->]; discriminate. Qed.
  Lemma unaligned_miss p l : rule_of p = "textalign_config" -> filter (fun p => negb (String.eqb (rule_of p) "textalign_config")) (p :: l) = filter (fun p => negb (String.eqb (rule_of p) "textalign_config")) l.
  Proof. intros R. cbn [filter]. rewrite R. reflexivity. Qed.
  Lemma unaligned_hit l : Forall not_align l -> filter (fun p => negb (String.eqb (rule_of p) "textalign_config")) l = l.
  Proof. induction 1 as [|p l N _ IH]; [reflexivity|]. cbn [filter]. apply String.eqb_neq in N. rewrite N, IH. reflexivity. Qed.
  Lemma not_place q : rule_of q <> "coordinate" -> place_fits q.
  Proof. intros N R. contradiction. Qed.
  Lemma aligned ts : ts = [] \/ shape G 6 NonAtomic (Then (str "/") (Then Skip (&"textalign_config"))) ts -> ts = [] \/ exists a, ts = [a] /\ rule_of a = "textalign_config".
  Proof. intros [-> |K]; [auto|]. shp K. subst ts. right. eexists. split; [reflexivity | exact (born_rule _ _ _ _ K)]. Qed.
  Lemma text_rule q : born G NonAtomic "text" q -> good q.
  Proof.
    intros U. pose proof U as V. kids V as K. apply co_of in K1. destruct K1 as [pl [-> W]]. apply aligned in K0. rules. cbn [app] in E.
    assert (NC : rule_of t <> "coordinate") by (rewrite H; discriminate).
    assert (UN : unaligned q = [pl; t]).
    { unfold unaligned. rewrite E. assert (N : Forall not_align [pl; t]) by (repeat constructor; [apply place_align; exact W | unfold not_align; rewrite H; discriminate]).
      destruct K0 as [-> |[a [-> A]]]; cbn [app]; [|rewrite unaligned_miss by exact A]; apply unaligned_hit; exact N. }
    assert (FI : map_rule_fits q <-> place_fits pl /\ True).
    { unfold map_rule_fits. pose proof (born_rule _ _ _ _ U) as R. rewrite R, E. cbn [In]. rewrite Forall_app, !Forall_cons_iff. split; [tauto|]. intros [P _]. split; [|discriminate]. intros _. split.
      - destruct K0 as [-> |[a [-> A]]]; constructor; [apply not_place; rewrite A; discriminate | constructor].
      - auto using not_place. }
    begin U R. unfold parse_map_text. eapply verdict_iff; [|symmetry; exact FI]. replace (do (first, text_) <- next (kids_of q); do (place, text_) <- (if is_rule first "textalign_config" then next text_ else Ret (first, text_)); do location <- parse_location place; do (p, _) <- next text_; Ret (mkMapText location (text_of p) None)) with (do location <- parse_location pl; Ret (mkMapText location (text_of t) None)).
    - vb (do location <- parse_location pl; Ret (mkMapText location (text_of t) None)).
      + eapply verdict_iff; [eapply (verdict_bind _ True (parse_location pl)); [exact (place_ok pl W)|]; intros l _ L; apply (verdict_ret _ _ (fun x => exists l, x = mkMapText l (text_of t) None /\ reads_loc pl l)); [exact I | eauto] | tauto].
      + intros x _ [l [-> L]]. vend. unfold rule_rel, skipped. rewrite R. split; [reflexivity|]. split; [exact R|]. split; [reflexivity|]. exists pl, t. auto.
    - rewrite E. unfold is_rule. destruct K0 as [-> |[a [-> A]]]; cbn [app next obind].
      + pose proof (place_align pl W) as N. unfold not_align in N. apply (proj2 (eqb_false _ _)) in N. rewrite N. reflexivity.
      + rewrite A. eqs. reflexivity.
  Qed.
  Lemma point_pair q : born G NonAtomic "point" q -> exists c, parse_point q = Ret c /\ reads_xy q c.
  Proof.
    intros B. kids B as K. destruct (born_decimal_at G eq_refl NonAtomic _ eq_refl ltac:(discriminate) K0) as [R0 N0]. destruct (born_decimal_at G eq_refl NonAtomic _ eq_refl ltac:(discriminate) K) as [R1 N1].
    destruct (numeral_f64 _ N0) as [x X], (numeral_f64 _ N1) as [y Y]. exists (x, y). unfold parse_point. rewrite E. cbn [next obind]. rewrite X. cbn [unwrap obind next]. rewrite Y. split; [reflexivity|].
    exists (text_of t), (text_of t0). unfold texts. rewrite E. pick. auto.
  Qed.
  Definition parse_caption (l : list tree) : outcome (option (text * point)) := match l with
    | [] => Ret None
    | label_pair :: _ =>
      do (p, label_pairs) <- next (kids_of label_pair); let content := text_of p in
      do (p, _) <- next label_pairs; do pos <- parse_point p; Ret (Some (content, pos))
    end.
  Lemma caption_ok ts : ts = [] \/ shape G 6 NonAtomic (Then (str ":") (Then Skip (&"mapsymbollabel"))) ts -> (exists o, parse_caption ts = Ret o /\ reads_caption ts o) /\ Forall not_align ts /\ Forall place_fits ts.
  Proof.
    intros [-> |K]; [split; [exists None; split; reflexivity | split; constructor]|]. shp K. subst ts. split.
    - kids K as L. destruct (point_pair _ L) as [c [C1 C2]]. rules. unfold parse_caption. rewrite E. cbn [next obind]. rewrite C1. cbn [obind]. eexists. split; [reflexivity|].
      exists t, t1. split; [reflexivity|]. unfold field, texts. rewrite E. pick. auto.
    - apply born_rule in K. split; (constructor; [|constructor]); [unfold not_align; rewrite K; discriminate | apply not_place; rewrite K; discriminate].
  Qed.
  Lemma mapsymbol_rule q : born G NonAtomic "mapsymbol" q -> good q.
  Proof.
    intros U. pose proof U as V. kids V as K. 
    apply co_of in K2. destruct K2 as [pl [-> W]]. apply aligned in K0. apply caption_ok in K. destruct K as [[o [O1 O2]] [NA PF]]. rules. cbn [app] in E.
    assert (NC : rule_of t <> "coordinate") by (rewrite H; discriminate). assert (NT : rule_of t <> "textalign_config") by (rewrite H; discriminate).
    assert (UN : unaligned q = t :: pl :: ts4).
    { unfold unaligned. rewrite E. assert (N : Forall not_align (t :: pl :: ts4)) by (constructor; [exact NT|]; constructor; [apply place_align; exact W | exact NA]).
      destruct K0 as [-> |[a [-> A]]]; cbn [app]; [|rewrite unaligned_miss by exact A]; apply unaligned_hit; exact N. }
    assert (FI : map_rule_fits q <-> place_fits pl /\ True).
    { unfold map_rule_fits. pose proof (born_rule _ _ _ _ U) as R. rewrite R, E. cbn [In]. rewrite Forall_app, !Forall_cons_iff. split; [tauto|]. intros [P _]. split; [|discriminate]. intros _. split.
      - destruct K0 as [-> |[a [-> A]]]; constructor; [apply not_place; rewrite A; discriminate | constructor].
      - auto using not_place. }
    begin U R. eapply verdict_iff; [|symmetry; exact FI].
    assert (PE : parse_map_symbol q = do location <- parse_location pl; Ret (mkMapSymbol (text_of t) location o None)).
    { unfold parse_map_symbol. rewrite E. unfold is_rule. destruct K0 as [-> |[a [-> A]]]; cbn [app next obind].
      - apply (proj2 (eqb_false _ _)) in NT. rewrite NT. cbn [obind next]. destruct (parse_location pl); cbn [obind]; try reflexivity. change ((do label <- parse_caption ts4; Ret (mkMapSymbol (text_of t) a label None)) = Ret (mkMapSymbol (text_of t) a o None)). rewrite O1. reflexivity.
      - rewrite A. eqs. cbn [obind next]. destruct (parse_location pl); cbn [obind]; try reflexivity. change ((do label <- parse_caption ts4; Ret (mkMapSymbol (text_of t) a0 label None)) = Ret (mkMapSymbol (text_of t) a0 o None)). rewrite O1. reflexivity. }
    rewrite PE. vb (do location <- parse_location pl; Ret (mkMapSymbol (text_of t) location o None)).
    + eapply verdict_iff; [eapply (verdict_bind _ True (parse_location pl)); [exact (place_ok pl W)|]; intros l _ L; apply (verdict_ret _ _ (fun x => exists l, x = mkMapSymbol (text_of t) l o None /\ reads_loc pl l)); [exact I | eauto] | tauto].
    + intros x _ [l [-> L]]. vend. unfold rule_rel, skipped. rewrite R. split; [reflexivity|]. split; [exact R|]. split; [reflexivity|]. exists t, pl, ts4. auto.
  Qed.
  Lemma segment_ok q : born G NonAtomic "maplinecoordinates" q \/ born G NonAtomic "maplinewpts" q -> verdict (Forall place_fits (kids_of q)) (parse_segment q) (reads_segment q).
  Proof.
    intros B. assert (X : exists a b, kids_of q = [a; b] /\ is_place a /\ is_place b).
    { destruct B as [B|B]; kids B as K; eexists _, _; (split; [exact E|]); split; [left|left|right|right]; assumption. }
    destruct X as [a [b [E [A B']]]]. unfold parse_segment. rewrite E. cbn [next obind]. eapply verdict_iff.
    - vb (parse_location a); [exact (place_ok a A)|]. intros x _ X. cbn [next obind]. vb (parse_location b); [exact (place_ok b B')|]. intros y _ Y. vend. exists a, b. auto.
    - rewrite !Forall_cons_iff. intuition constructor.
  Qed.
  Lemma mapline_rule q : born G NonAtomic "mapline" q -> good q.
  Proof.
    intros U. pose proof U as V. kids V as K. apply shape_plus in K; [|reflexivity]. destruct K as [l [_ [E F]]].
    assert (A : Forall (fun q => born G NonAtomic "maplinecoordinates" q \/ born G NonAtomic "maplinewpts" q) (kids_of q)).
    { rewrite E. apply Forall_flat. eapply Forall_impl; [|exact F]. intros u W. right. shp W. alts W; subst u; eexists; (split; [reflexivity|]); auto. }
    begin U R. unfold parse_map_lines. eapply verdict_iff.
    - eapply (verdict_bind (Forall (fun l => Forall place_fits (kids_of l)) (kids_of q)) True (do segs <- omap parse_segment (kids_of q); Ret (merge_lines segs))).
      + eapply verdict_iff; [eapply (verdict_bind _ True)|].
        * apply verdict_omap with (P := fun l => Forall place_fits (kids_of l)) (R := reads_segment). eapply Forall_impl; [|exact A]. exact segment_ok.
        * intros segs _ X. apply (verdict_ret _ _ (fun x => exists segs, Forall2 reads_segment (kids_of q) segs /\ x = merge_lines segs)); [exact I | eauto].
        * tauto.
      + intros x _ [segs [X ->]]. vend. unfold rule_rel, skipped. rewrite R. split; [reflexivity|]. split; [exact R|]. eauto.
    - unfold map_rule_fits. rewrite R. cbn [In]. intuition (auto; discriminate).
  Qed.
  Lemma map_setting_ok u : shape G 6 NonAtomic (&"map_setting") u -> exists q, u = [q] /\ good q.
  Proof.
    intros U. sil U. 
alts U; subst u; eexists; (split; [reflexivity|]);
      try (apply skipped_rule; pose proof (born_rule _ _ _ _ U) as R; [unfold skipped; rewrite R; reflexivity | rewrite R; intros n I <-; cbn in I; intuition discriminate]).
    - exact (folder_rule _ U).
    - exact (colour_rule _ U).
    - exact (asrdata_rule _ U).
    - exact (active_rule _ U).
    - exact (andactive_rule _ U).
    - exact (layer_rule _ U).
    - exact (mapsymbol_rule _ U).
    - exact (fontsize_rule _ U).
    - exact (zoom_rule _ U).
    - exact (style_rule _ U).
    - exact (mapline_rule _ U).
    - exact (text_rule _ U).
    - apply (flag_rule _ RGlobal). rewrite (born_rule _ _ _ _ U). cbn; tauto.
    - apply (flag_rule _ RScreenSpecific). rewrite (born_rule _ _ _ _ U). cbn; tauto.
    - apply (flag_rule _ RCoordLine). rewrite (born_rule _ _ _ _ U). cbn; tauto.
    - exact (coordpoly_rule _ U).
    - exact (coord_rule _ U).
    - apply (flag_rule _ RHidden). rewrite (born_rule _ _ _ _ U). cbn; tauto.
  Qed.
  Lemma map_ok p : born G NonAtomic "map" p -> verdict (map_fits p) (parse_map upper p) (reads_map upper p).
  Proof.
    intros B. kids B as K. apply shape_plus in K; [|reflexivity]. destruct K as [l [_ [-> F]]].
    assert (A : Forall good (List.concat l)).
    { apply Forall_flat. eapply Forall_impl; [|exact F]. intros u U. right. exact (map_setting_ok u U). }
    unfold parse_map, parse_map_rules. rewrite E. cbn [next obind].
    assert (V : verdict (Forall map_rule_fits (List.concat l)) (omap (parse_map_rule upper) (List.concat l)) (Forall2 (rule_rel upper) (List.concat l))).
    { apply verdict_omap with (P := map_rule_fits) (R := rule_rel upper). exact A. }
    assert (MF : map_fits p <-> Forall map_rule_fits (List.concat l)) by (unfold map_fits; rewrite E; reflexivity).
    destruct V as [[W [os [O X]]]|[W O]]; rewrite O; cbn [obind]; [|right; split; [rewrite MF; exact W | reflexivity]].
    apply verdict_ret; [apply MF; exact W|]. eexists _, _. split; [exact E|]. split; [reflexivity|]. cbn [md_rules]. clear - X. induction X as [|q o qs os' H _ IH]; [constructor|]. cbn [filter filter_map]. unfold rule_rel in H.
    destruct o as [r|]; [destruct H as [H H']|]; rewrite H; cbn [negb]; [constructor; assumption | exact IH].
  Qed.
End rules.
