(** Proofs about .ese files. *)
From Coq Require Import ZifyBool ZifyN ZifyNat.
From Verif Require Import Base Num Float FloatParse Dms Sectors Constraints Peg Grammars SpecPeg PegProofs PegLang PegForward Trees PegTree SpecPairs PairsProofs SpecText TextProofs Numerals Verdict SpecKeyed KeyedProofs SpecSct EseParse SpecEse.
Local Open Scope string_scope.
Local Open Scope list_scope.
Notation G := ese_grammar.
Ltac vb x := eapply (verdict_bind _ _ x).
Ltac vend := apply verdict_ret; [exact I|].
Ltac known p := destruct p as [?n ?s ?k]; cbn [rule_of kids_of text_of] in *; subst.
Ltac fld := unfold field, texts; cbn [kids_of app]; pick; reflexivity.

(** ** coordinates *)
Lemma decimal_text n p a : a <> Atomic -> born G a n p -> get n G = Some (KAtomic, Call "decimal") -> exists x, parse_f64 (text_of p) = Some x.
Proof.
  intros A B E. destruct (born_yes G eq_refl _ _ _ B _ _ E ltac:(discriminate) A) as [r Y].
  destruct Y as [b [k [k' M]]]. apply call_inv in M. destruct M as [kd [e [o [X [M Z]]]]]. injection X as <- <-.
  destruct o as [[[[c r'] k''] ts]|]; [|discriminate Z]. cbn [record_kind record] in Z. injection Z as -> _ _ _.
  apply (matches_says_t G eq_refl) in M. destruct M as [_ Y]. apply numeral_f64. exact (proj1 (numeral_yes G _ _ _ Y)).
Qed.
Lemma hemi_text p a : a <> Atomic -> born G a "hemi" p -> exists h, hemi_from (text_of p) = Ret h /\ In (text_of p, h) hemispheres.
Proof.
  intros A B. destruct (born_yes G eq_refl _ _ _ B _ _ eq_refl ltac:(discriminate) A) as [r Y]. unfold hemispheres.
  destruct Y as [[-> _]|[_ [[-> _]|[_ [[-> _]|[_ [[-> _]|[_ [[-> _]|[_ [[-> _]|[_ [[-> _]|[_ [-> _]]]]]]]]]]]]]]];
    eexists; (split; [reflexivity|]); cbn [In]; tauto.
Qed.
Lemma dms_ok p : born G NonAtomic "coord_part" p -> verdict (fits_dms p) (ese_coord_part p) (reads_dms p).
Proof.
  intros B. pose proof (born_rule _ _ _ _ B) as R. kids B as K. clear B. alts K.
  - pose proof (born_rule _ _ _ _ K) as R'. kids K as L. clear K.
    destruct (hemi_text _ Compound ltac:(discriminate) L0) as [h [H1 H2]].
    destruct (decimal_text "sec" _ Compound ltac:(discriminate) L eq_refl) as [x X].
    bare L0. bare L1. bare L2. bare L. known t. known p. eapply verdict_iff.
    + unfold ese_coord_part. cbn [kids_of text_of]. walk. rewrite H1. walk.
      eapply (verdict_bind _ _ (unwrap (parse_u16 s0))); [apply verdict_unwrap|]. intros d _ D.
      eapply (verdict_bind _ True (unwrap (parse_u8 s1))); [apply verdict_unwrap|]. intros m _ M.
      rewrite X. walk. apply verdict_ret; [exact I|].
      eexists. split; [cbn [kids_of]; pick; reflexivity|].
      exists s, s0, s1, s2, h, d, m, x. repeat (split; [first [fld | assumption]|]). reflexivity.
    + unfold fits_dms. cbn [kids_of]. pick. split.
      * intros [[d D] [[m M] _]]. eexists. split; [reflexivity|]. unfold texts. cbn [kids_of]. pick. cbn [In]. split; intros u [<-|[]]; eauto.
      * intros [q [E [D M]]]. injection E as <-. unfold texts in D, M. revert D M. cbn [kids_of]. pick. cbn [In]. intros D M. split; [apply D; auto | split; [apply M; auto | exact I]].
  - bare K. known p. right. split; [|reflexivity]. intros [q [E _]]. revert E. cbn [kids_of]. pick. discriminate.
Qed.
Lemma point_ok p : born G NonAtomic "coordinate" p -> verdict (fits_point p) (ese_coordinate p) (reads_point p).
Proof.
  intros B. pose proof (born_rule _ _ _ _ B) as R. kids B as K. clear B.
  pose proof (dms_ok _ K0) as V1. pose proof (dms_ok _ K) as V2. apply born_rule in K0, K. known p. eapply verdict_iff.
  - unfold ese_coordinate. cbn [kids_of]. walk. vb (ese_coord_part t); [exact V1|]. intros y _ Y. vb (ese_coord_part t0); [exact V2|]. intros x _ X. vend.
    exists t, t0, y, x. split; [cbn [kids_of]; pick; reflexivity|]. split; [exact Y|]. split; [exact X | reflexivity].
  - unfold fits_point. cbn [kids_of]. pick. rewrite !Forall_cons_iff. intuition.
Qed.
Lemma points_ok l : Forall (born G NonAtomic "coordinate") l -> verdict (Forall fits_point l) (omap ese_coordinate l) (Forall2 reads_point l).
Proof.
  induction 1 as [|p l B _ IH]; [apply verdict_ret; constructor|]. cbn [omap]. eapply verdict_iff.
  - eapply verdict_bind; [exact (point_ok p B)|]. intros c _ C. eapply (verdict_bind _ True); [exact IH|]. intros cs _ CS. vend. constructor; assumption.
  - rewrite Forall_cons_iff. tauto.
Qed.
Lemma of_rule_all n l : Forall (born G NonAtomic n) l -> of_rule n l = l.
Proof. induction 1 as [|p l B _ IH]; [reflexivity|]. rewrite of_rule_hit by exact (born_rule _ _ _ _ B). rewrite IH. reflexivity. Qed.
Lemma of_rule_none n m l : Forall (born G NonAtomic n) l -> n <> m -> of_rule m l = [].
Proof. induction 1 as [|p l B _ IH]; intros N; [reflexivity|]. rewrite of_rule_miss by (rewrite (born_rule _ _ _ _ B); exact N). auto. Qed.

(** ** positions *)
Lemma squawk_ok q : born G NonAtomic "squawk_range" q ->
  verdict (Forall (fun s => exists n, parse_u16 s = Some n) (texts "integer" q)) (squawk_range (Some q))
    (fun o => exists a b s t, o = Some (a, b) /\ texts "integer" q = [s; t] /\ parse_u16 s = Some a /\ parse_u16 t = Some b).
Proof.
  intros B. pose proof (born_rule _ _ _ _ B) as R. kids B as K. clear B. bare K0. bare K. known q. eapply verdict_iff.
  - unfold squawk_range. cbn [is_rule rule_of String.eqb Ascii.eqb Bool.eqb]. unfold is_rule. cbn [rule_of String.eqb Ascii.eqb Bool.eqb kids_of next obind text_of].
    vb (unwrap (parse_u16 s)); [apply verdict_unwrap|]. intros a _ A. vb (unwrap (parse_u16 s0)); [apply verdict_unwrap|]. intros b _ B. vend.
    exists a, b, s, s0. split; [reflexivity|]. split; [fld | split; assumption].
  - unfold texts. cbn [kids_of]. pick. rewrite !Forall_cons_iff. intuition.
Qed.
Lemma opt_points ts e : ts = [] \/ shape G 6 NonAtomic e ts -> (forall u, shape G 6 NonAtomic e u -> exists t, u = [t] /\ born G NonAtomic "coordinate" t) ->
  Forall (born G NonAtomic "coordinate") ts.
Proof. intros [->|U] H; [constructor|]. destruct (H _ U) as [t [-> B]]. constructor; [exact B | constructor]. Qed.
Lemma position_ok p : born G NonAtomic "position" p ->
  verdict (Forall (fun q => Forall (fun s => exists n, parse_u16 s = Some n) (texts "integer" q)) (squawks p) /\ Forall fits_point (points_read p))
    (parse_position p) (fun r => fst r = po_ident (snd r) /\ reads_position p (snd r)).
Proof.
  intros B. pose proof (born_rule _ _ _ _ B) as R. kids B as K. clear B.
  apply opt_points in K10; [|intros u U; shp U; eauto]. apply opt_points in K11; [|intros u U; shp U; eauto].
  apply opt_points in K12; [|intros u U; shp U; eauto]. apply opt_points in K; [|intros u U; shp U; eauto].
  assert (F : exists pts, ts19 ++ ts21 ++ ts23 ++ ts24 = pts /\ Forall (born G NonAtomic "coordinate") pts).
  { eexists. split; [reflexivity|]. repeat (apply Forall_app; split); assumption. }
  destruct F as [pts [X F]]. rewrite X in E. clear X K10 K11 K12 K.
  bare K0. bare K1. bare K2. bare K3. bare K4. bare K5. bare K6. bare K7. bare K8. known p.
  pose proof (points_ok pts F) as V.
  assert (H : exists sq, (sq = [] \/ exists q, sq = [q] /\ born G NonAtomic "squawk_range" q) /\ ts17 = sq).
  { destruct K9 as [->|U]; [exists []; auto|]. shp U. subst. eexists. split; [right; eexists; split; [reflexivity | exact U] | reflexivity]. }
  destruct H as [sq [H ->]]. clear K9.
  match goal with |- verdict _ (parse_position ?P) _ => set (P0 := P) end.
  assert (SQ : squawks P0 = sq).
  { unfold squawks, P0. cbn [kids_of]. pick. rewrite of_rule_app, (of_rule_none _ _ _ F), app_nil_r by discriminate.
    destruct H as [->|[q [-> B]]]; [reflexivity|]. rewrite of_rule_hit by exact (born_rule _ _ _ _ B). reflexivity. }
  assert (PT : points_of P0 = pts).
  { unfold points_of, P0. cbn [kids_of]. pick. rewrite of_rule_app, (of_rule_all _ _ F).
    destruct H as [->|[q [-> B]]]; [reflexivity|]. rewrite of_rule_miss; [reflexivity | rewrite (born_rule _ _ _ _ B); discriminate]. }
  assert (NT : forall n, n <> "squawk_range" -> n <> "coordinate" -> of_rule n (sq ++ pts) = []).
  { intros n N1 N2. rewrite of_rule_app, (of_rule_none _ _ _ F) by congruence. destruct H as [->|[q [-> B]]]; [reflexivity|].
    rewrite of_rule_miss; [reflexivity | rewrite (born_rule _ _ _ _ B); congruence]. }
  assert (CT : texts "colon_delimited_text" P0 = [s; s0; s2; s3; s4; s5; s6; s7]).
  { unfold texts, P0. cbn [kids_of]. pick. rewrite NT by discriminate. reflexivity. }
  assert (FR : field "frequency" P0 s1).
  { unfold field, texts, P0. cbn [kids_of]. pick. rewrite NT by discriminate. reflexivity. }
  assert (E : parse_position P0 = do squawk <- squawk_range (hd_error (sq ++ pts)); do visibility_points <- omap ese_coordinate (tl (sq ++ pts));
     Ret (s2, mkPosition s s0 s1 s2 s4 s3 s5 squawk visibility_points)) by reflexivity.
  rewrite E. clear E. clearbody P0. unfold points_read. rewrite SQ, PT. destruct H as [->|[q [-> B]]]; cbn [app hd_error tl].
  - assert (Q : squawk_range (hd_error pts) = Ret None).
    { destruct F as [|q pts B _]; [reflexivity|]. cbn [hd_error squawk_range]. unfold is_rule. rewrite (born_rule _ _ _ _ B). reflexivity. }
    rewrite Q. cbn [obind]. clear V. assert (F' : Forall (born G NonAtomic "coordinate") (tl pts)) by (destruct F; [constructor | assumption]). eapply verdict_iff.
    + eapply (verdict_bind _ True); [exact (points_ok _ F')|]. intros l _ L. vend. split; [reflexivity|]. cbn [snd].
      split; [exists s6, s7; exact CT|]. split; [exact FR|]. split; [exact SQ|]. unfold points_read. rewrite SQ, PT. exact L.
    + split; [intros [X _]; split; [constructor | exact X] | tauto].
  - eapply verdict_iff.
    + eapply verdict_bind; [exact (squawk_ok q B)|]. intros o _ [a [b [u [v [-> [X [Y Z]]]]]]]. eapply (verdict_bind _ True); [exact V|]. intros l _ L. vend.
      split; [reflexivity|]. cbn [snd]. split; [exists s6, s7; exact CT|]. split; [exact FR|]. split; [exists q, u, v; auto|]. unfold points_read. rewrite SQ, PT. exact L.
    + rewrite Forall_cons_iff. intuition.
Qed.

(** ** sector lines, circles, minimum altitudes *)
Lemma only_points l : Forall (fun q => rule_of q = "display" \/ born G NonAtomic "coordinate" q) l ->
  filter (fun p => negb (is_rule p "display")) l = of_rule "coordinate" l /\ Forall (born G NonAtomic "coordinate") (of_rule "coordinate" l) /\
  forall n, n <> "display" -> n <> "coordinate" -> of_rule n l = [].
Proof.
  induction 1 as [|q l H _ [IH1 [IH2 IH3]]]; [repeat split; constructor|]. cbn [filter]. unfold is_rule at 1. destruct H as [E|B].
  - rewrite E. change (eqb "display" "display") with true. cbn [negb]. rewrite of_rule_miss by (rewrite E; discriminate). repeat split; try assumption.
    intros n N1 N2. rewrite of_rule_miss by congruence. auto.
  - pose proof (born_rule _ _ _ _ B) as E. rewrite E. change (eqb "coordinate" "display") with false. cbn [negb]. rewrite of_rule_hit by exact E. repeat split.
    + f_equal. exact IH1.
    + constructor; assumption.
    + intros n N1 N2. rewrite of_rule_miss by congruence. auto.
Qed.
Lemma sectorline_ok p : born G NonAtomic "sectorline" p ->
  verdict (Forall fits_point (points_of p)) (parse_sectorline p) (fun r => ids p = [fst r] /\ Forall2 reads_point (points_of p) (snd r)).
Proof.
  intros B. pose proof (born_rule _ _ _ _ B) as R. kids B as K. clear B.
  assert (F : Forall (fun q => rule_of q = "display" \/ born G NonAtomic "coordinate" q) ts0).
  { apply shape_star in K; [|reflexivity]. destruct K as [l [-> F]]. apply Forall_flat. eapply Forall_impl; [|exact F]. intros u U. right. shp U.
    alts U.
    - subst. eexists. split; [reflexivity|]. left. exact (born_rule _ _ _ _ U).
    - sil U. shp U. eexists. split; [eassumption|]. right. exact U. }
  destruct (only_points _ F) as [F1 [F2 F3]]. bare K0. known p.
  assert (PT : points_of (T "sectorline" s0 (T "colon_delimited_text" s [] :: ts0)) = of_rule "coordinate" ts0) by (unfold points_of; cbn [kids_of]; pick; reflexivity).
  rewrite PT. unfold parse_sectorline. cbn [kids_of next obind text_of]. rewrite F1. eapply verdict_iff.
  - eapply (verdict_bind _ True); [exact (points_ok _ F2)|]. intros l _ L. vend. cbn [fst snd]. split; [|exact L].
    unfold ids, texts. cbn [kids_of]. pick. rewrite F3 by discriminate. reflexivity.
  - tauto.
Qed.
Lemma circle_ok p : born G NonAtomic "circle_sectorline" p -> exists r, parse_circle p = Ret r.
Proof.
  intros B. kids B as K. clear B. pose proof (born_decimal G eq_refl eq_refl _ K2) as N. destruct (parse_numeral 24 128 _ N) as [x X]. unfold parse_circle. rewrite E.
  cbn [next obind]. unfold parse_f32. rewrite X. eexists. reflexivity.
Qed.
Lemma msaw_ok p : born G NonAtomic "msaw" p -> verdict (Forall fits_point (points_of p) /\ all_u32 (texts "integer" p)) (parse_msaw p) (fun _ => True).
Proof.
  intros B. pose proof (born_rule _ _ _ _ B) as R. kids B as K. clear B.
  assert (F : Forall (born G NonAtomic "coordinate") ts2).
  { apply shape_plus in K; [|reflexivity]. destruct K as [l [_ [-> F]]]. apply Forall_flat. eapply Forall_impl; [|exact F]. intros u U. right. shp U.
    sil U. shp U. eauto. }
  bare K0. bare K1. known p. unfold points_of, texts, all_u32. cbn [kids_of]. pick. rewrite (of_rule_all _ _ F). rewrite (of_rule_none _ _ _ F) by discriminate.
  unfold parse_msaw. cbn [kids_of next obind text_of map]. eapply verdict_iff.
  - vb (unwrap (parse_u32 s0)); [apply verdict_unwrap|]. intros n _ N. eapply (verdict_bind _ True); [exact (points_ok _ F)|]. intros l _ L. vend. exact I.
  - rewrite Forall_cons_iff. intuition.
Qed.

(** ** coordination points *)
Definition wild (ts : list tree) : Prop := exists t o, ts = [t] /\ wildcard_string t = Ret o /\ reads_opt t o /\ rule_of t <> "integer".
Definition level (ts : list tree) : Prop := exists t, ts = [t] /\ verdict (all_u32 (texts "integer" (T "" [] [t]))) (wildcard_u32 t) (reads_level t).
Definition plain (ts : list tree) : Prop := exists t, ts = [t] /\ rule_of t <> "integer".
Lemma wild_of ts n : shape G 6 NonAtomic (&n) ts -> In n ["prev"; "dep_rwy"; "cop_def"; "after"; "arr_rwy"] -> wild ts.
Proof.
  intros U H. cbn [In] in H. unfold wild. repeat match goal with H : _ \/ _ |- _ => destruct H as [<-|H] end; try contradiction; sil U; alts U; subst; exists t;
    pose proof (born_rule _ _ _ _ U) as R; unfold wildcard_string, is_rule, reads_opt; rewrite R; eexists; (split; [reflexivity|]); (split; [reflexivity|]); (split; [|discriminate]);
    try reflexivity; split; first [discriminate | reflexivity].
Qed.
Lemma level_of ts n : shape G 6 NonAtomic (&n) ts -> In n ["alt_clb"; "alt_des"] -> level ts.
Proof.
  intros U H. cbn [In] in H. repeat match goal with H : _ \/ _ |- _ => destruct H as [<-|H] end; try contradiction; sil U; alts U; subst; exists t; (split; [reflexivity|]);
    pose proof (born_rule _ _ _ _ U) as R; unfold texts, all_u32; cbn [kids_of]; pick; unfold wildcard_u32, is_rule; rewrite R.
  1,3: apply verdict_ret; [constructor | exact R].
  all: change (verdict (Forall (fun s => exists n, parse_u32 s = Some n) [text_of t]) (do n <- unwrap (parse_u32 (text_of t)); Ret (Some n)) (reads_level t)); eapply verdict_iff;
    [eapply (verdict_bind _ True); [apply verdict_unwrap|]; intros n _ N; vend; split; [exact R | exact N] | rewrite Forall_cons_iff; intuition].
Qed.
Lemma plain_of ts n : shape G 6 NonAtomic (&n) ts -> In n ["sctx"; "sctn"; "cop_description"] -> plain ts.
Proof.
  intros U H. cbn [In] in H. repeat match goal with H : _ \/ _ |- _ => destruct H as [<-|H] end; try contradiction; sil U; subst; eexists; (split; [reflexivity|]); rewrite (born_rule _ _ _ _ U); discriminate.
Qed.
Lemma cop_body p a b c d e f g h i j : kids_of p = a ++ b ++ c ++ d ++ e ++ f ++ g ++ h ++ i ++ j ->
  wild a -> wild b -> wild c -> wild d -> wild e -> plain f -> plain g -> level h -> level i -> plain j ->
  verdict (all_u32 (texts "integer" p)) (parse_cop p) (reads_cop p).
Proof.
  intros E [a' [oa [-> [A1 [A2 A3]]]]] [b' [ob [-> [B1 [B2 B3]]]]] [c' [oc [-> [C1 [C2 C3]]]]] [d' [od [-> [D1 [D2 D3]]]]] [e' [oe [-> [E1 [E2 E3]]]]]
    [f' [-> F]] [g' [-> G']] [h' [-> H]] [i' [-> I']] [j' [-> J]]. cbn [app] in E. unfold parse_cop. rewrite E. cbn [next obind]. rewrite A1, B1, C1, D1, E1. cbn [obind].
  eapply verdict_iff.
  - vb (wildcard_u32 h'); [exact H|]. intros x _ X. vb (wildcard_u32 i'); [exact I'|]. intros y _ Y. vend.
    exists a', b', c', d', e', f', g', h', i', j'. repeat (split; [first [assumption | reflexivity]|]). reflexivity.
  - unfold texts, all_u32. rewrite E. cbn [kids_of]. rewrite (of_rule_miss _ a'), (of_rule_miss _ b'), (of_rule_miss _ c'), (of_rule_miss _ d'), (of_rule_miss _ e'), (of_rule_miss _ f'), (of_rule_miss _ g') by assumption. change [h'; i'; j'] with ([h'] ++ [i'] ++ [j']). rewrite !of_rule_app, (of_rule_miss _ j') by assumption.
    rewrite !map_app, !Forall_app. cbn [of_rule map]. intuition.
Qed.
Lemma cop_ok p : born G NonAtomic "cop" p -> verdict (all_u32 (texts "integer" p)) (parse_cop p) (reads_cop p).
Proof.
  intros B; kids B as K. eapply (cop_body p _ _ _ _ _ _ _ _ _ _ E); first [eapply wild_of; [eassumption | cbn; tauto] | eapply level_of; [eassumption | cbn; tauto] | eapply plain_of; [eassumption | cbn; tauto]].
Qed.
Lemma fir_cop_ok p : born G NonAtomic "fir_cop" p -> verdict (all_u32 (texts "integer" p)) (parse_cop p) (reads_cop p).
Proof.
  intros B; kids B as K. eapply (cop_body p _ _ _ _ _ _ _ _ _ _ E); first [eapply wild_of; [eassumption | cbn; tauto] | eapply level_of; [eassumption | cbn; tauto] | eapply plain_of; [eassumption | cbn; tauto]].
Qed.

(** ** procedures *)
Lemma route_kids q : born G NonAtomic "route" q -> map text_of (kids_of q) = texts "designator" q.
Proof.
  intros B. kids B as K. apply shape_star in K; [|reflexivity]. destruct K as [l [E F]]. unfold texts. rewrite E.
  assert (F' : Forall (born G NonAtomic "designator") (List.concat l)).
  { apply Forall_flat. eapply Forall_impl; [|exact F]. intros u U. right. shp U. eauto. }
  rewrite (of_rule_all _ _ F'). reflexivity.
Qed.
Lemma proc_body p n t ts t0 t1 : n = "sid" \/ n = "star" -> rule_of p = n -> kids_of p = t :: ts ++ [t0; t1] -> born G NonAtomic "designator" t ->
  shape G 6 NonAtomic (&"runway_designator" // &"none") ts -> born G NonAtomic "colon_delimited_text" t0 -> born G NonAtomic "route" t1 ->
  exists x, parse_sid_star p = Ret x /\ reads_sid_star p x.
Proof.
  intros N R E K0 U K2 K. pose proof (route_kids _ K) as W. apply born_rule in K as RK. bare K0. bare K2.
  assert (H : exists r o, ts = [r] /\ (if is_rule r "runway_designator" then Ret (Some (text_of r)) else if is_rule r "none" then Ret None else Panic) = Ret o /\
    match o with Some v => rule_of r = "runway_designator" /\ text_of r = v | None => rule_of r = "none" end).
  { alts U; subst; match type of U with born _ _ _ ?x => exists x end; pose proof (born_rule _ _ _ _ U) as X; unfold is_rule; rewrite X; eexists; (split; [reflexivity|]); (split; [reflexivity|]); [split|]; reflexivity. }
  destruct H as [r [o [-> [O1 O2]]]]. cbn [app] in E.
  assert (P : reads_proc p (mkProc s0 s o (map text_of (kids_of t1)))).
  { unfold reads_proc, field, texts. rewrite E. cbn [pr_name pr_airport pr_runway pr_route]. destruct o as [v|].
    - destruct O2 as [O2 O3]. pick. repeat (split; [first [reflexivity | rewrite O3; reflexivity]|]). exists t1. split; [reflexivity | exact W].
    - pick. repeat (split; [reflexivity|]). exists t1. split; [reflexivity | exact W]. }
  unfold parse_sid_star. rewrite E. cbn [next obind text_of]. rewrite O1. cbn [obind]. unfold is_rule. rewrite R.
  destruct N as [-> | ->]; cbn [String.eqb]; eexists; (split; [reflexivity|]); split; first [exact R | exact P].
Qed.
Lemma sid_ok p : born G NonAtomic "sid" p -> exists x, parse_sid_star p = Ret x /\ reads_sid_star p x.
Proof. intros B. pose proof (born_rule _ _ _ _ B) as R. kids B as K. eapply (proc_body p "sid"); eauto. Qed.
Lemma star_ok p : born G NonAtomic "star" p -> exists x, parse_sid_star p = Ret x /\ reads_sid_star p x.
Proof. intros B. pose proof (born_rule _ _ _ _ B) as R. kids B as K. eapply (proc_body p "star"); eauto. Qed.

(** ** sectors *)
Definition sub_rel (q : tree) (s : subsetting) : Prop :=
  match s with
  | SOwner l => rule_of q = "owner" /\ l = texts "colon_delimited_text" q
  | SAltOwner _ _ => rule_of q = "altowner"
  | SBorder l => rule_of q = "border" /\ l = texts "colon_delimited_text" q
  | SActive a b => rule_of q = "active" /\ texts "designator" q = [a; b]
  | SDep l => rule_of q = "depapt" /\ l = texts "designator" q
  | SArr l => rule_of q = "arrapt" /\ l = texts "designator" q
  | SGuest => rule_of q = "guest"
  end.
Lemma list_texts n q ts : n = "colon_delimited_text" \/ n = "designator" -> kids_of q = ts -> shape G 6 NonAtomic (Plus (str ":" ~~ &n)) ts -> map text_of (kids_of q) = texts n q.
Proof.
  intros N E K. assert (F' : Forall (born G NonAtomic n) ts).
  { destruct N as [-> | ->]; (apply shape_plus in K; [|reflexivity]); destruct K as [l [_ [-> F]]]; apply Forall_flat; (eapply Forall_impl; [|exact F]); intros u U; right; shp U; eauto. }
  unfold texts. rewrite E, (of_rule_all _ _ F'). reflexivity.
Qed.
Lemma sub_ok u : shape G 6 NonAtomic (&"sector_subsettings") u ->
  exists q, u = [q] /\ exists s, parse_subsetting q = Ret s /\ sub_rel q s.
Proof.
  intros U. sil U. alts U; subst; match type of U with born _ _ _ ?x => exists x; (split; [reflexivity|]) end; pose proof (born_rule _ _ _ _ U) as R; unfold parse_subsetting, is_rule; rewrite R;
    cbn [eqb EqDec_string String.eqb Ascii.eqb Bool.eqb]; kids U as K.
  - eexists. split; [reflexivity|]. split; [exact R|]. exact (list_texts _ _ _ (or_introl eq_refl) eq_refl K).
  - rewrite E. eexists. split; [reflexivity | exact R].
  - eexists. split; [reflexivity|]. split; [exact R|]. exact (list_texts _ _ _ (or_introl eq_refl) eq_refl K).
  - eexists. split; [reflexivity | exact R].
  - rewrite E. eexists. split; [reflexivity|]. split; [exact R|]. apply born_rule in K0, K. unfold texts. rewrite E. pick. reflexivity.
  - eexists. split; [reflexivity|]. split; [exact R|]. exact (list_texts _ _ _ (or_intror eq_refl) eq_refl K).
  - eexists. split; [reflexivity|]. split; [exact R|]. exact (list_texts _ _ _ (or_intror eq_refl) eq_refl K).
Qed.
Lemma omap_ret {A B} (f : A -> outcome B) (R : A -> B -> Prop) l : Forall (fun x => exists y, f x = Ret y /\ R x y) l -> exists ys, omap f l = Ret ys /\ Forall2 R l ys.
Proof.
  induction 1 as [|x l [y [E H]] _ [ys [IH F]]]; [exists []; split; [reflexivity | constructor]|]. exists (y :: ys). cbn [omap]. rewrite E. cbn [obind]. rewrite IH. split; [reflexivity | constructor; assumption].
Qed.
Lemma first_sub n m (f : subsetting -> option (list text)) l ss : Forall2 sub_rel l ss ->
  (forall q s, sub_rel q s -> match f s with Some x => rule_of q = n /\ x = texts m q | None => rule_of q <> n end) ->
  or_empty (find_map f ss) = match of_rule n l with q :: _ => texts m q | [] => [] end.
Proof.
  intros F H. induction F as [|q s l ss Q _ IH]; [reflexivity|]. cbn [find_map]. specialize (H q s Q). destruct (f s) as [x|].
  - destruct H as [H ->]. rewrite of_rule_hit by exact H. reflexivity.
  - rewrite of_rule_miss by exact H. exact IH.
Qed.
Lemma active_subs l ss : Forall2 sub_rel l ss ->
  Forall2 (fun q r => texts "designator" q = [fst r; snd r]) (of_rule "active" l) (filter_map (fun s => match s with SActive a b => Some (a, b) | _ => None end) ss).
Proof.
  induction 1 as [|q s l ss Q _ IH]; [constructor|]. cbn [filter_map]. destruct s; cbn [sub_rel] in Q.
  4: destruct Q as [Q Q']; rewrite of_rule_hit by exact Q; constructor; [exact Q' | exact IH].
  all: rewrite of_rule_miss; [exact IH | first [rewrite Q | rewrite (proj1 Q)]; discriminate].
Qed.
Definition sector_rel (p : tree) (b : list text) (s : ese_sector) : Prop :=
  b = first_list "border" "colon_delimited_text" p /\ ids p = [es_id s] /\ reads_levels p (es_bottom s) (es_top s) /\
  es_owner s = first_list "owner" "colon_delimited_text" p /\ es_dep s = first_list "depapt" "designator" p /\ es_arr s = first_list "arrapt" "designator" p /\
  Forall2 (fun q r => texts "designator" q = [fst r; snd r]) (of_rule "active" (kids_of p)) (es_runways s).
Lemma sector_ok p : born G NonAtomic "sector" p -> verdict (all_u32 (texts "integer" p)) (parse_sector p) (fun r => sector_rel p (fst r) (snd r)).
Proof.
  intros B. kids B as K.
  assert (F : Forall (fun q => exists s, parse_subsetting q = Ret s /\ sub_rel q s) ts4).
  { apply shape_star in K; [|reflexivity]. destruct K as [l [-> F]]. apply Forall_flat. eapply Forall_impl; [|exact F]. intros u U. right. shp U. exact (sub_ok _ U). }
  destruct (omap_ret _ _ _ F) as [ss [O S1]]. clear F K.
  assert (N : forall n, n = "colon_delimited_text" \/ n = "integer" -> of_rule n ts4 = []).
  { intros n N. clear - N S1. induction S1 as [|q s l ss Q _ IH]; [reflexivity|]. rewrite of_rule_miss; [exact IH|].
    destruct N as [-> | ->]; destruct s; cbn [sub_rel] in Q; first [rewrite Q | rewrite (proj1 Q)]; discriminate. }
  bare K0. bare K1. bare K2. unfold parse_sector. rewrite E. cbn [next obind text_of]. eapply verdict_iff.
  - vb (unwrap (parse_u32 s0)); [apply verdict_unwrap|]. intros bot _ BOT. vb (unwrap (parse_u32 s1)); [apply verdict_unwrap|]. intros tp _ TP. rewrite O. cbn [obind]. vend.
    unfold sector_rel. cbn [fst snd es_id es_bottom es_top es_owner es_dep es_arr es_runways].
    assert (A : forall n, n <> "colon_delimited_text" -> n <> "integer" -> of_rule n (kids_of p) = of_rule n ts4).
    { intros n N1 N2. rewrite E. rewrite !of_rule_miss by (cbn [rule_of]; congruence). reflexivity. }
    unfold first_list. rewrite !A by discriminate. repeat apply conj.
    + apply (first_sub "border" "colon_delimited_text" _ _ _ S1). intros q s2 Q. destruct s2; cbn [sub_rel] in Q; first [exact Q | rewrite Q; discriminate | rewrite (proj1 Q); discriminate].
    + unfold ids, texts. rewrite E. pick. rewrite N by auto. reflexivity.
    + exists s0, s1. unfold texts. rewrite E. pick. rewrite N by auto. auto.
    + apply (first_sub "owner" "colon_delimited_text" _ _ _ S1). intros q s2 Q. destruct s2; cbn [sub_rel] in Q; first [exact Q | rewrite Q; discriminate | rewrite (proj1 Q); discriminate].
    + apply (first_sub "depapt" "designator" _ _ _ S1). intros q s2 Q. destruct s2; cbn [sub_rel] in Q; first [exact Q | rewrite Q; discriminate | rewrite (proj1 Q); discriminate].
    + apply (first_sub "arrapt" "designator" _ _ _ S1). intros q s2 Q. destruct s2; cbn [sub_rel] in Q; first [exact Q | rewrite Q; discriminate | rewrite (proj1 Q); discriminate].
    + exact (active_subs _ _ S1).
  - unfold all_u32, texts. rewrite E. pick. rewrite N by auto. cbn [map]. rewrite !Forall_cons_iff. intuition.
Qed.

(** ** entries of the airspace section *)
Definition air_rel (q : tree) (r : sector_rule) : Prop :=
  match r with
  | XSector b s => rule_of q = "sector" /\ sector_rel q b s
  | XLine id l => rule_of q = "sectorline" /\ ids q = [id] /\ Forall2 reads_point (points_of q) l
  | XCop c => rule_of q = "cop" /\ reads_cop q c
  | XFirCop c => rule_of q = "fir_cop" /\ reads_cop q c
  | XCircle _ _ => rule_of q = "circle_sectorline"
  | XDisplay => rule_of q = "display_sectorline"
  | XMsaw _ _ => rule_of q = "msaw"
  end.
Ltac fit R := unfold fits_entry; rewrite R; intuition (try discriminate; auto).
Lemma air_ok u : shape G 6 NonAtomic (&"sectorline" // &"circle_sectorline" // &"display_sectorline" // &"sector" // &"cop" // &"fir_cop" // &"msaw") u ->
  exists q, u = [q] /\ verdict (fits_entry q) (parse_airspace q) (air_rel q).
Proof.
  intros U. alts U; subst; match type of U with born _ _ _ ?x => exists x; (split; [reflexivity|]) end; pose proof (born_rule _ _ _ _ U) as R; unfold parse_airspace, is_rule; rewrite R;
    cbn [eqb EqDec_string String.eqb Ascii.eqb Bool.eqb].
  - eapply verdict_iff; [eapply (verdict_bind _ True); [exact (sectorline_ok _ U)|]; intros [id l] _ [X Y]; vend; cbn [air_rel]; auto | fit R].
  - destruct (circle_ok _ U) as [[id c] ->]. cbn [obind]. apply verdict_ret; [fit R | exact R].
  - apply verdict_ret; [fit R | exact R].
  - eapply verdict_iff; [eapply (verdict_bind _ True); [exact (sector_ok _ U)|]; intros [b x] _ X; vend; cbn [air_rel]; auto | fit R].
  - eapply verdict_iff; [eapply (verdict_bind _ True); [exact (cop_ok _ U)|]; intros x _ X; vend; cbn [air_rel]; auto | fit R].
  - eapply verdict_iff; [eapply (verdict_bind _ True); [exact (fir_cop_ok _ U)|]; intros x _ X; vend; cbn [air_rel]; auto | fit R].
  - eapply verdict_iff; [eapply (verdict_bind _ True); [exact (msaw_ok _ U)|]; intros [id m] _ X; vend; exact R | fit R].
Qed.

(** ** the maps *)
Lemma Forall2_mono {A B} (P Q : A -> B -> Prop) l m : (forall x y, P x y -> Q x y) -> Forall2 P l m -> Forall2 Q l m.
Proof. intros H. induction 1; constructor; auto. Qed.
Lemma get_map {A B} (f : text -> A -> B) id (m : list (text * A)) : get id (map (fun '(k, v) => (k, f k v)) m) = option_map (f id) (get id m).
Proof.
  induction m as [|[k v] m IH]; [reflexivity|]. cbn [map get]. destruct (eq_dec id k) as [->|N]; [reflexivity | exact IH].
Qed.
Lemma put_holds {A} (key : tree -> text -> Prop) (R : tree -> A -> Prop) ps l :
  Forall2 (fun p r => (forall id, key p id <-> id = fst r) /\ R p (snd r)) ps l -> holds key ps R (put_all l []).
Proof.
  intros F. replace l with (given (map Some l)) by (unfold given; rewrite flat_map_concat_map, map_map; clear; induction l as [|x l IH]; [reflexivity | cbn in *; f_equal; exact IH]).
  apply given_holds. induction F as [|p [k v] ps l H _ IH]; constructor; [exact H | exact IH].
Qed.
Lemma has_id_only p i : ids p = [i] -> forall id, has_id p id <-> id = i.
Proof. intros E id. unfold has_id. rewrite E. split; [intros X; injection X as ->; reflexivity | intros ->; reflexivity]. Qed.

(** ** the airspace section *)
Definition sects (rs : list sector_rule) : list (text * (list text * ese_sector)) := flat_map (fun r => match r with XSector b s => [(es_id s, (b, s))] | _ => [] end) rs.
Definition lines (rs : list sector_rule) : list (text * sector_line) := flat_map (fun r => match r with XLine id l => [(id, l)] | _ => [] end) rs.
Definition cops (rs : list sector_rule) : list constraint := flat_map (fun r => match r with XCop c | XFirCop c => [c] | _ => [] end) rs.
Lemma collect_all rs : forall c, let c' := fold_left collect_sectors rs c in
  co_sectors c' = put_all (map (fun '(k, v) => (k, snd v)) (sects rs)) (co_sectors c) /\ co_borders c' = put_all (map (fun '(k, v) => (k, fst v)) (sects rs)) (co_borders c) /\
  co_lines c' = put_all (lines rs) (co_lines c) /\ co_constraints c' = co_constraints c ++ cops rs.
Proof.
  induction rs as [|r rs IH]; intros c; cbn [fold_left]; [cbn; rewrite app_nil_r; auto|]. cbv zeta in *. destruct c as [a b l o s], r; cbn [collect_sectors].
  all: match goal with |- co_sectors (fold_left _ _ ?c) = _ /\ _ => destruct (IH c) as [-> [-> [-> ->]]] end.
  all: repeat split; cbn [co_constraints cops flat_map app]; rewrite <- ?app_assoc; reflexivity.
Qed.
Lemma sects_ok ps rs : Forall2 air_rel ps rs -> Forall2 (fun p r => ids p = [fst r] /\ fst r = es_id (snd (snd r)) /\ sector_rel p (fst (snd r)) (snd (snd r))) (of_rule "sector" ps) (sects rs).
Proof.
  induction 1 as [|p r ps rs H _ IH]; [constructor|]. cbn [sects flat_map]. destruct r; cbn [air_rel] in H.
  1: destruct H as [H X]; rewrite of_rule_hit by exact H; constructor; [split; [apply X | split; [reflexivity | exact X]] | exact IH].
  all: rewrite of_rule_miss; [exact IH | first [rewrite H | rewrite (proj1 H)]; discriminate].
Qed.
Lemma lines_ok ps rs : Forall2 air_rel ps rs -> Forall2 (fun p r => ids p = [fst r] /\ Forall2 reads_point (points_of p) (snd r)) (of_rule "sectorline" ps) (lines rs).
Proof.
  induction 1 as [|p r ps rs H _ IH]; [constructor|]. cbn [lines flat_map]. destruct r; cbn [air_rel] in H.
  2: destruct H as [H X]; rewrite of_rule_hit by exact H; constructor; [exact X | exact IH].
  all: rewrite of_rule_miss; [exact IH | first [rewrite H | rewrite (proj1 H)]; discriminate].
Qed.
Lemma cops_ok ps rs : Forall2 air_rel ps rs -> Forall2 reads_cop (filter is_cop ps) (cops rs).
Proof.
  induction 1 as [|p r ps rs H _ IH]; [constructor|]. cbn [cops flat_map filter]. unfold is_cop at 1. destruct r; cbn [air_rel] in H; first [rewrite H | rewrite (proj1 H)]; cbn [String.eqb Ascii.eqb Bool.eqb orb];
    try exact IH; constructor; [exact (proj2 H) | exact IH | exact (proj2 H) | exact IH].
Qed.
Lemma border_ok sec m l : holds has_id (of_rule "sectorline" (kids_of sec)) (fun p => Forall2 reads_point (points_of p)) m ->
  exists os, Forall2 (line_of sec) l os /\ filter_map (fun id => get id m) l = somes os.
Proof.
  intros H. induction l as [|id l [os [F E]]]; [exists []; split; [constructor | reflexivity]|]. exists (get id m :: os). split.
  - constructor; [|exact F]. specialize (H id). unfold line_of, last_with. destruct (get id m); exact H.
  - cbn [filter_map]. rewrite E. cbn [somes flat_map]. destruct (get id m); reflexivity.
Qed.
Lemma airspace_ok sec rs x cs : Forall2 air_rel (kids_of sec) rs -> combine_sectors (fold_left collect_sectors rs (mkCollected [] [] [] [] [])) = (x, cs) ->
  holds has_id (of_rule "sector" (kids_of sec)) (reads_sector sec) x /\ Forall2 reads_cop (filter is_cop (kids_of sec)) cs.
Proof.
  intros F C. unfold combine_sectors in C. destruct (collect_all rs (mkCollected [] [] [] [] [])) as [E1 [E2 [E3 E4]]]. rewrite E1, E2, E3, E4 in C. cbn [co_sectors co_borders co_lines co_constraints app] in C.
  injection C as <- <-. split; [|exact (cops_ok _ _ F)].
  assert (L : holds has_id (of_rule "sectorline" (kids_of sec)) (fun p => Forall2 reads_point (points_of p)) (put_all (lines rs) [])).
  { apply put_holds. eapply Forall2_mono; [|exact (lines_ok _ _ F)]. intros p r [X Y]. split; [exact (has_id_only _ _ X) | exact Y]. }
  assert (S1 : holds has_id (of_rule "sector" (kids_of sec)) (fun p v => ids p = [es_id (snd v)] /\ sector_rel p (fst v) (snd v)) (put_all (sects rs) [])).
  { apply put_holds. eapply Forall2_mono; [|exact (sects_ok _ _ F)]. intros p r [X [Y Z]]. split; [exact (has_id_only _ _ X)|]. split; [congruence | exact Z]. }
  intros id. specialize (S1 id). rewrite get_map with (f := fun id s => with_border s (match get id (put_all (map (fun '(k, v) => (k, fst v)) (sects rs)) []) with Some border => filter_map (fun id => get id (put_all (lines rs) [])) border | None => [] end)).
  rewrite !get_put_all in *. rewrite <- !map_rev. rewrite (get_map (fun _ v => snd v)), (get_map (fun _ v => fst v)). cbn [get] in *.
  destruct (get id (rev (sects rs))) as [[b s]|]; cbn [option_map fst snd] in *; [|exact S1]. destruct S1 as [p [P1 [P2 P3]]]. exists p. split; [exact P1|].
  destruct P3 as [Q1 [Q2 [Q3 [Q4 [Q5 [Q6 Q7]]]]]]. unfold with_border, reads_sector. cbn [es_id es_bottom es_top es_border es_owner es_dep es_arr es_runways].
  repeat (split; [first [assumption|idtac]|]); try assumption.
  destruct (border_ok sec _ b L) as [os [O1 O2]]. exists os. rewrite <- Q1. split; [exact O1 | exact O2].
Qed.

(** ** sections *)
Definition sec_rel (sec : tree) (r : ese_name * ese_section) : Prop :=
  match r with
  | (NPosition, SecPositions m) => rule_of sec = "position_section" /\ holds names_position (kids_of sec) reads_position m
  | (NAirspace, SecSectors (m, cs)) => rule_of sec = "airspace_section" /\ holds has_id (of_rule "sector" (kids_of sec)) (reads_sector sec) m /\ Forall2 reads_cop (filter is_cop (kids_of sec)) cs
  | (NSidsStars, SecProcs l) => rule_of sec = "sidsstars_section" /\ Forall2 reads_sid_star (kids_of sec) l
  | (NOther, SecOther) => rule_of sec <> "position_section" /\ rule_of sec <> "airspace_section" /\ rule_of sec <> "sidsstars_section"
  | _ => False
  end.
Definition fits_section (sec : tree) : Prop := forall p, In p (kids_of sec) -> fits_entry p.
Lemma fits_all sec : Forall fits_entry (kids_of sec) <-> fits_section sec.
Proof. unfold fits_section. rewrite Forall_forall. reflexivity. Qed.
Lemma position_key p x : reads_position p x -> forall id, names_position p id <-> id = po_ident x.
Proof.
  intros [[u [v E]] _] id. unfold names_position. rewrite E. cbn [nth_error]. split; [intros X; injection X as ->; reflexivity | intros ->; reflexivity].
Qed.
Lemma position_section_ok sec : born G NonAtomic "position_section" sec -> verdict (fits_section sec) (ese_section_of sec) (sec_rel sec).
Proof.
  intros B. pose proof (born_rule _ _ _ _ B) as R. kids B as K. unfold ese_section_of, is_rule. rewrite R. cbn [eqb EqDec_string String.eqb Ascii.eqb Bool.eqb].
  assert (F : Forall (fun p => verdict (fits_entry p) (parse_position p) (fun r => fst r = po_ident (snd r) /\ reads_position p (snd r))) (kids_of sec)).
  { apply shape_star in K; [|reflexivity]. destruct K as [l [-> F]]. apply Forall_flat. eapply Forall_impl; [|exact F]. intros u U. right. shp U. subst. eexists. split; [reflexivity|].
    pose proof (born_rule _ _ _ _ U) as R'. eapply verdict_iff; [exact (position_ok _ U) | fit R']. }
  eapply verdict_iff.
  - eapply (verdict_bind _ True); [exact (verdict_omap _ _ _ _ F)|]. intros l _ L. vend. split; [exact R|]. apply put_holds. eapply Forall2_mono; [|exact L].
    intros p [id x] [X Y]. cbn [fst snd] in *. subst id. split; [exact (position_key _ _ Y) | exact Y].
  - rewrite fits_all. tauto.
Qed.
Lemma airspace_section_ok sec : born G NonAtomic "airspace_section" sec -> verdict (fits_section sec) (ese_section_of sec) (sec_rel sec).
Proof.
  intros B. pose proof (born_rule _ _ _ _ B) as R. kids B as K. unfold ese_section_of, is_rule. rewrite R. cbn [eqb EqDec_string String.eqb Ascii.eqb Bool.eqb].
  assert (F : Forall (fun p => verdict (fits_entry p) (parse_airspace p) (air_rel p)) (kids_of sec)).
  { apply shape_star in K; [|reflexivity]. destruct K as [l [-> F]]. apply Forall_flat. eapply Forall_impl; [|exact F]. intros u U. right. exact (air_ok u U). }
  eapply verdict_iff.
  - eapply (verdict_bind _ True); [exact (verdict_omap _ _ _ _ F)|]. intros l _ L. vend. destruct (combine_sectors _) as [m cs] eqn:E. split; [exact R|]. exact (airspace_ok _ _ _ _ L E).
  - rewrite fits_all. tauto.
Qed.
Lemma sidsstars_section_ok sec : born G NonAtomic "sidsstars_section" sec -> verdict (fits_section sec) (ese_section_of sec) (sec_rel sec).
Proof.
  intros B. pose proof (born_rule _ _ _ _ B) as R. kids B as K. unfold ese_section_of, is_rule. rewrite R. cbn [eqb EqDec_string String.eqb Ascii.eqb Bool.eqb].
  assert (F : Forall (fun p => fits_entry p /\ exists x, parse_sid_star p = Ret x /\ reads_sid_star p x) (kids_of sec)).
  { apply shape_star in K; [|reflexivity]. destruct K as [l [-> F]]. apply Forall_flat. eapply Forall_impl; [|exact F]. intros u U. right. shp U. alts U; subst; (eexists; split; [reflexivity|]).
    - split; [|exact (sid_ok _ U)]. pose proof (born_rule _ _ _ _ U) as R'. fit R'.
    - split; [|exact (star_ok _ U)]. pose proof (born_rule _ _ _ _ U) as R'. fit R'. }
  destruct (omap_ret parse_sid_star reads_sid_star (kids_of sec)) as [ys [-> L]]; [eapply Forall_impl; [|exact F]; intros p [_ H]; exact H|].
  cbn [obind]. apply verdict_ret; [|split; [exact R | exact L]]. apply fits_all. eapply Forall_impl; [|exact F]. intros p [H _]. exact H.
Qed.
Lemma other_ok sec : rule_of sec <> "position_section" -> rule_of sec <> "airspace_section" -> rule_of sec <> "sidsstars_section" -> ese_section_of sec = Ret (NOther, SecOther).
Proof.
  intros A B C. unfold ese_section_of, is_rule. apply String.eqb_neq in A, B, C. unfold eqb, EqDec_string.
  destruct (eq_dec (rule_of sec) "position_section") as [X|_]; [rewrite X in A; discriminate|]. destruct (eq_dec (rule_of sec) "airspace_section") as [X|_]; [rewrite X in B; discriminate|].
  destruct (eq_dec (rule_of sec) "sidsstars_section") as [X|_]; [rewrite X in C; discriminate|]. reflexivity.
Qed.
Lemma unparsed_section_ok sec : born G NonAtomic "unparsed_section" sec -> verdict (fits_section sec) (ese_section_of sec) (sec_rel sec).
Proof.
  intros B. pose proof (born_rule _ _ _ _ B) as R. kids B as K. rewrite other_ok by (rewrite R; discriminate). apply verdict_ret; [|cbn [sec_rel]; rewrite R; repeat split; discriminate].
  apply fits_all. rewrite E. apply Forall_app. split.
  - sil K0. shp K0. subst. constructor; [|constructor]. pose proof (born_rule _ _ _ _ K0) as R'. fit R'.
  - apply shape_star in K; [|reflexivity]. destruct K as [l [-> F]]. apply Forall_flat. eapply Forall_impl; [|exact F]. intros u U. right. sil U. shp U. subst. eexists. split; [reflexivity|].
    pose proof (born_rule _ _ _ _ U) as R'. fit R'.
Qed.
Lemma ese_kids t kids : parsed G "ese" t kids -> Forall (fun sec => verdict (fits_section sec) (ese_section_of sec) (sec_rel sec)) kids.
Proof.
  intros P. apply parsed_born in P. kids P as K. apply Forall_app. split.
  - apply shape_plus in K0; [|reflexivity]. destruct K0 as [l [_ [-> F]]]. apply Forall_flat. eapply Forall_impl; [|exact F]. intros u U. right. sil U. alts U; subst; (eexists; split; [reflexivity|]).
    + exact (position_section_ok _ U).
    + exact (airspace_section_ok _ U).
    + exact (sidsstars_section_ok _ U).
    + exact (unparsed_section_ok _ U).
  - constructor; [|constructor]. rewrite other_ok by (cbn [rule_of]; discriminate). apply verdict_ret; [intros p []|]. cbn [sec_rel rule_of]. repeat split; discriminate.
Qed.
Definition kind (n : ese_name) : string := match n with NPosition => "position_section" | NAirspace => "airspace_section" | NSidsStars => "sidsstars_section" | NOther => "" end.
Lemma last_opt_cons {A} (x : A) l : last_opt (x :: l) = match last_opt l with Some y => Some y | None => Some x end.
Proof. revert x. induction l as [|y l IH]; intros x; [reflexivity|]. cbn [last_opt] in *. rewrite IH. destruct (last_opt l); reflexivity. Qed.
Lemma last_section n kids l : n <> NOther -> Forall2 sec_rel kids l ->
  match get n (put_all l []) with Some s => exists sec, last_opt (of_rule (kind n) kids) = Some sec /\ sec_rel sec (n, s) | None => last_opt (of_rule (kind n) kids) = None end.
Proof.
  intros N F. rewrite get_put_all. cbn [get].
  assert (H : match get n (rev l) with Some s => exists sec, last_opt (of_rule (kind n) kids) = Some sec /\ sec_rel sec (n, s) | None => last_opt (of_rule (kind n) kids) = None end).
  { induction F as [|sec [m s] kids l H F IH]; [reflexivity|]. cbn [rev]. rewrite get_app.
    assert (Y : get n (rev l) <> None \/ get n (rev l) = None) by (destruct (get n (rev l)); [left; discriminate | auto]).
    destruct (string_dec (rule_of sec) (kind n)) as [X|X].
    - rewrite of_rule_hit by exact X. rewrite last_opt_cons. destruct (get n (rev l)) as [s'|].
      + destruct IH as [sec' [-> S']]. exists sec'. auto.
      + rewrite IH. cbn [get]. assert (m = n) as ->.
        { destruct n, m, s; try reflexivity; try contradiction; exfalso; cbn [sec_rel kind] in *; try destruct x; destruct H as [H H']; try tauto; rewrite H in X; discriminate. }
        destruct (eq_dec n n); [|contradiction]. exists sec. auto.
    - rewrite of_rule_miss by exact X. destruct (get n (rev l)) as [s'|]; [exact IH|]. cbn [get]. destruct (eq_dec n m) as [<-|_]; [|exact IH].
      exfalso. apply X. destruct n, s; try contradiction; try destruct x; cbn [kind sec_rel] in *; tauto. }
  destruct (get n (rev l)); exact H.
Qed.
Definition ese_reads (kids : list tree) (e : ese) : Prop :=
  holds names_position (kids_of (section_of "position_section" kids)) reads_position (e_positions e) /\
  (let sec := section_of "airspace_section" kids in
   holds has_id (of_rule "sector" (kids_of sec)) (reads_sector sec) (e_sectors e) /\ Forall2 reads_cop (filter is_cop (kids_of sec)) (e_constraints e)) /\
  Forall2 reads_sid_star (kids_of (section_of "sidsstars_section" kids)) (e_procs e).
Lemma ese_file_ok t kids : parsed G "ese" t kids -> verdict (ese_fits kids) (parse_ese t) (ese_reads kids).
Proof.
  intros P. destruct (top_cases 1 "ese" G "ese" eq_refl ltac:(eexists; reflexivity) t) as [[kids' [P' E]]|[U _]]; [|contradiction (parsed_not _ _ _ _ P U)].
  pose proof (parsed_det _ _ _ _ _ P P') as <-. unfold parse_ese. rewrite E. cbn [obind]. eapply verdict_iff.
  - eapply (verdict_bind _ True); [exact (verdict_omap _ _ _ _ (ese_kids t kids P))|]. intros l _ L.
    pose proof (last_section NPosition kids l ltac:(discriminate) L) as H1. pose proof (last_section NAirspace kids l ltac:(discriminate) L) as H2. pose proof (last_section NSidsStars kids l ltac:(discriminate) L) as H3.
    cbn [kind] in *. unfold ese_reads, section_of. cbv zeta.
    set (x := match get NAirspace (put_all l []) with Some (SecSectors sectors) => sectors | _ => ([], []) end).
    destruct x as [m cs] eqn:X. unfold x in X. clear x. vend. cbn [e_positions e_sectors e_constraints e_procs]. split; [|split].
    + destruct (get NPosition (put_all l [])) as [s|].
      * destruct H1 as [sec [-> H]]. destruct s; try contradiction. exact (proj2 H).
      * rewrite H1. intros id. constructor.
    + destruct (get NAirspace (put_all l [])) as [s|].
      * destruct H2 as [sec [-> H]]. destruct s; try contradiction. subst x. exact (proj2 H).
      * rewrite H2. injection X as <- <-. split; [intros id; constructor | constructor].
    + destruct (get NSidsStars (put_all l [])) as [s|].
      * destruct H3 as [sec [-> H]]. destruct s; try contradiction. exact (proj2 H).
      * rewrite H3. constructor.
  - unfold ese_fits. rewrite Forall_forall. unfold fits_section. split; [intros [H _] sec p S1 S2; exact (H sec S1 p S2) | intros H; split; [intros sec S1 p S2; exact (H sec p S1 S2) | exact I]].
Qed.
Lemma ese_err t : unparsed G "ese" t -> parse_ese t = Err.
Proof.
  intros U. destruct (top_cases 1 "ese" G "ese" eq_refl ltac:(eexists; reflexivity) t) as [[kids' [P' _]]|[_ E]]; [contradiction (parsed_not _ _ _ _ P' U)|]. unfold parse_ese. rewrite E. reflexivity.
Qed.
