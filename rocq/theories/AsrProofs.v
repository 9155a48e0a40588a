(** Proofs about .asr files. *)
From Coq Require Import ZifyBool ZifyN ZifyNat.
From Verif Require Import Base Num Float FloatParse Peg Grammars SpecPeg PegProofs PegLang PegForward Trees PegTree SpecPairs PairsProofs SpecText TextProofs Numerals IcaoProofs Asr SpecAsr.
Local Open Scope string_scope.
Local Open Scope list_scope.

(** the rule a datum comes from *)
Definition tag (d : asr_data) : string :=
  match d with
  | DAbove _ => "above"
  | DBelow _ => "below"
  | DDisablePanning _ => "disable_panning"
  | DDisableZooming _ => "disable_zooming"
  | DDisplayRotation _ => "display_rotation"
  | DDisplayType _ => "display_type"
  | DDisplayTypeGeoReferenced _ => "display_type_geo_referenced"
  | DDisplayTypeNeedRadarContent _ => "display_type_need_radar_content"
  | DHistoryDots _ => "history_dots"
  | DLeader _ => "leader"
  | DSectorFile _ => "sector_file"
  | DSectorTitle _ => "sector_title"
  | DShowLeader _ => "show_leader"
  | DShowC _ => "show_c"
  | DShowStandby _ => "show_standby"
  | DSimulationMode _ => "simulation_mode"
  | DTagFamily _ => "tag_family"
  | DTurnLeader _ => "turn_leader"
  | DWindowArea _ => "window_area"
  | DPluginSetting _ _ _ => "plugin"
  | DRunway _ => "runways"
  | DAirport _ => "airports"
  | DVor _ => "vors"
  | DNdb _ => "ndbs"
  | DFix _ => "fixes"
  | DLowAirway _ => "low_airways"
  | DHighAirway _ => "high_airways"
  | DSid _ => "sids"
  | DStar _ => "stars"
  | DFreeText _ => "free_text"
  | DGeo _ => "geo"
  | DGroundNetwork _ => "ground_network"
  | DRegion _ => "regions"
  | DArtccBoundary _ => "artcc_boundary"
  | DArtccLowBoundary _ => "artcc_low_boundary"
  | DArtccHighBoundary _ => "artcc_high_boundary"
  end.
Definition setting_rules : list string := ["above"; "below"; "disable_panning"; "disable_zooming"; "display_rotation"; "display_type"; "display_type_geo_referenced"; "display_type_need_radar_content"; "history_dots"; "leader"; "sector_file"; "sector_title"; "show_leader"; "show_c"; "show_standby"; "simulation_mode"; "tag_family"; "turn_leader"; "window_area"; "plugin"; "runways"; "airports"; "vors"; "ndbs"; "fixes"; "low_airways"; "high_airways"; "sids"; "stars"; "free_text"; "geo"; "ground_network"; "regions"; "artcc_boundary"; "artcc_low_boundary"; "artcc_high_boundary"].

(** what a datum says about its pair *)
Definition good (p : tree) (d : asr_data) : Prop :=
  match d with
  | DAbove v => rule_of p = "above" /\ reads_filter p v
  | DBelow v => rule_of p = "below" /\ reads_filter p v
  | DDisablePanning v => rule_of p = "disable_panning" /\ reads_flag p v
  | DDisableZooming v => rule_of p = "disable_zooming" /\ reads_flag p v
  | DDisplayRotation v => rule_of p = "display_rotation" /\ reads_rotation p v
  | DDisplayType v => rule_of p = "display_type" /\ reads_display p v
  | DDisplayTypeGeoReferenced v => rule_of p = "display_type_geo_referenced" /\ reads_flag p v
  | DDisplayTypeNeedRadarContent v => rule_of p = "display_type_need_radar_content" /\ reads_flag p v
  | DHistoryDots v => rule_of p = "history_dots" /\ reads_count p v
  | DLeader v => rule_of p = "leader" /\ reads_leader p v
  | DSectorFile v => rule_of p = "sector_file" /\ reads_value p v
  | DSectorTitle v => rule_of p = "sector_title" /\ reads_value p v
  | DShowLeader v => rule_of p = "show_leader" /\ reads_flag p v
  | DShowC v => rule_of p = "show_c" /\ reads_flag p v
  | DShowStandby v => rule_of p = "show_standby" /\ reads_flag p v
  | DSimulationMode v => rule_of p = "simulation_mode" /\ reads_simulation p v
  | DTagFamily v => rule_of p = "tag_family" /\ reads_value p v
  | DTurnLeader v => rule_of p = "turn_leader" /\ reads_flag p v
  | DWindowArea v => rule_of p = "window_area" /\ reads_window p v
  | DPluginSetting a b v => rule_of p = "plugin" /\ texts "multivalue" p = [a; b] /\ field "value" p v
  | DRunway v => rule_of p = "runways" /\ extended p = false /\ reads_runway p v
  | DAirport v => rule_of p = "airports" /\ (reads_kind fix_symbols) p v
  | DVor v => rule_of p = "vors" /\ (reads_kind navaid_symbols) p v
  | DNdb v => rule_of p = "ndbs" /\ (reads_kind navaid_symbols) p v
  | DFix v => rule_of p = "fixes" /\ (reads_kind fix_symbols) p v
  | DLowAirway v => rule_of p = "low_airways" /\ (reads_kind airway_symbols) p v
  | DHighAirway v => rule_of p = "high_airways" /\ (reads_kind airway_symbols) p v
  | DSid v => rule_of p = "sids" /\ reads_name p v
  | DStar v => rule_of p = "stars" /\ reads_name p v
  | DFreeText v => rule_of p = "free_text" /\ reads_free_text p v
  | DGeo v => rule_of p = "geo" /\ reads_name p v
  | DGroundNetwork v => rule_of p = "ground_network" /\ (reads_kind ground_symbols) p v
  | DRegion v => rule_of p = "regions" /\ reads_name p v
  | DArtccBoundary v => rule_of p = "artcc_boundary" /\ reads_name p v
  | DArtccLowBoundary v => rule_of p = "artcc_low_boundary" /\ reads_name p v
  | DArtccHighBoundary v => rule_of p = "artcc_high_boundary" /\ reads_name p v
  end.
Definition sound (p : tree) : Prop :=
  match asr_setting p with
  | Ret (Some d) => good p d /\ readable p
  | Ret None => (rule_of p = "EOI" \/ rule_of p = "runways" /\ extended p = true) /\ readable p
  | Panic => ~ readable p
  | Err => False
  end.

Lemma is_in n l : existsb (String.eqb n) l = true -> In n l.
Proof. intros H. apply existsb_exists in H. destruct H as [x [I E]]. apply String.eqb_eq in E. subst. exact I. Qed.
Lemma asr_kids t kids : parsed asr_grammar "asr" t kids ->
  exists ds, kids = ds ++ [T "EOI" [] []] /\ Forall (fun p => exists n, In n setting_rules /\ born asr_grammar NonAtomic n p) ds.
Proof.
  intros P. apply parsed_born in P. kids P as K.
  apply shape_plus in K0; [|reflexivity]. destruct K0 as [l [_ [-> F]]]. exists (List.concat l). split; [reflexivity|].
  apply Forall_flat. eapply Forall_impl; [|exact F]. intros u U. right.
  sil U. alts U; subst; (eexists; split; [reflexivity|]; eexists; split; [|exact U]; apply is_in; reflexivity).
Qed.

(** ** The texts of numbers and flags *)
Lemma bool_text p : born asr_grammar NonAtomic "BOOL" p -> text_of p = s2t "0" \/ text_of p = s2t "1".
Proof.
  intros B. destruct (born_yes asr_grammar eq_refl _ _ _ B _ _ eq_refl ltac:(discriminate) ltac:(discriminate)) as [r Y].
  destruct Y as [[-> _]|[_ [-> _]]]; auto.
Qed.
Definition asr_decimal : expr := Opt (str "-") ~~ Plus ASCII_DIGIT ~~ Opt (str "." ~~ Plus ASCII_DIGIT).
Lemma asr_decimal_yes g s r ts : yes g Atomic asr_decimal s r ts -> numeral s.
Proof.
  intros Y. apply yes_seq_at in Y; [|discriminate]. destruct Y as [c1 [c2 [t1 [t2 [-> [-> [Y1 Y]]]]]]].
  apply yes_seq_at in Y; [|discriminate]. destruct Y as [c3 [c4 [t3 [t4 [-> [-> [Y3 Y]]]]]]].
  apply digits_yes in Y3; [|discriminate]. exists c1, (c3 ++ c4). split; [reflexivity|]. split.
  - destruct Y1 as [[-> _]|[-> _]]; auto.
  - destruct Y as [Y|[-> _]]; [|rewrite app_nil_r; apply numeral_int; tauto].
    apply yes_seq_at in Y; [|discriminate]. destruct Y as [c5 [c6 [t5 [t6 [-> [-> [[-> _] Y]]]]]]].
    apply digits_yes in Y; [|discriminate]. apply numeral_point; [apply Y3 | apply Y].
Qed.
Lemma decimal_text p : born asr_grammar NonAtomic "DECIMAL" p -> exists x, parse_f64 (text_of p) = Some x.
Proof.
  intros B. destruct (born_yes asr_grammar eq_refl _ _ _ B _ _ eq_refl ltac:(discriminate) ltac:(discriminate)) as [r Y].
  apply numeral_f64, (asr_decimal_yes asr_grammar _ r (kids_of p)). exact Y.
Qed.

Lemma head_digit c s : digits (c :: s) -> is_digit c = true.
Proof. intros [_ F]. inversion F. assumption. Qed.
Lemma sct_part_text p : born asr_grammar NonAtomic "sct_coord_part" p -> parse_f64 (text_of p) = None.
Proof.
  intros B. destruct (born_yes asr_grammar eq_refl _ _ _ B _ _ eq_refl ltac:(discriminate) ltac:(discriminate)) as [r Y].
  change (body_atom "sct_coord_part" KCompound NonAtomic) with Compound in Y.
  apply yes_seq_at in Y; [|discriminate]. destruct Y as [c1 [c2 [t1 [t2 [-> [_ [Y1 Y]]]]]]].
  apply yes_seq_at in Y; [|discriminate]. destruct Y as [c3 [c4 [t3 [t4 [-> [_ [Y3 _]]]]]]].
  destruct Y1 as [b1 [k1 [k1' M1]]], Y3 as [b3 [k3 [k3' M3]]].
  apply call_inv in M1. destruct M1 as [kd [e [o [G [M1 X]]]]]. injection G as <- <-. destruct o as [[[[c r'] k'] ts]|]; [|discriminate X].
  injection X as <- <- <- ->. apply (matches_says_t asr_grammar eq_refl) in M1. destruct M1 as [_ Y1].
  apply call_inv in M3. destruct M3 as [kd [e [o [G [M3 X]]]]]. injection G as <- <-. destruct o as [[[[c' r''] k''] ts']|]; [|discriminate X].
  injection X as <- <- <- ->. apply (matches_says_t asr_grammar eq_refl) in M3. destruct M3 as [_ Y3].
  apply digits_yes in Y3; [|discriminate]. destruct Y3 as [D _]. destruct c3 as [|d c3]; [destruct D as [D _]; contradiction D; reflexivity|].
  apply head_digit in D.
  assert (H : exists x, c1 = [x] /\ (x = 78 \/ x = 83 \/ x = 87 \/ x = 69)%N).
  { destruct Y1 as [[-> _]|[_ [[-> _]|[_ [[-> _]|[_ [-> _]]]]]]]; eexists; (split; [reflexivity|]); cbn; auto. }
  destruct H as [x [-> H]]. cbn [app]. generalize (c3 ++ c4). intros s.
  assert (L : lower1 d = d).
  { unfold lower1. unfold is_digit, is_upper in *. replace ((65 <=? d)%N && (d <=? 90)%N) with false; [reflexivity|]. lia. }
  assert (F1 : eqb (map lower1 (x :: d :: s)) (s2t "inf") = false).
  { rewrite eqb_false. cbn [map s2t]. rewrite L. intros X. injection X as _ X _. subst d. discriminate D. }
  assert (F2 : eqb (map lower1 (x :: d :: s)) (s2t "infinity") = false).
  { rewrite eqb_false. cbn [map s2t]. rewrite L. intros X. injection X as _ X _. subst d. discriminate D. }
  assert (F3 : eqb (map lower1 (x :: d :: s)) (s2t "nan") = false).
  { rewrite eqb_false. cbn [map s2t]. rewrite L. intros X. injection X as _ X _. subst d. discriminate D. }
  unfold parse_f64, parse_float. replace (x =? 45)%N with false by lia. replace (x =? 43)%N with false by lia. cbv zeta.
  rewrite F1, F2, F3. cbn [orb take_digits]. replace (is_digit x) with false by (unfold is_digit; lia).
  replace (x =? 46)%N with false by lia. reflexivity.
Qed.
Lemma part_text p : born asr_grammar NonAtomic "coord_part" p ->
  (of_rule "sct_coord_part" (kids_of p) = [] /\ exists x, parse_f64 (text_of p) = Some x) \/
  (of_rule "sct_coord_part" (kids_of p) <> [] /\ parse_f64 (text_of p) = None).
Proof.
  intros B. destruct (born_yes asr_grammar eq_refl _ _ _ B _ _ eq_refl ltac:(discriminate) ltac:(discriminate)) as [r Y].
  destruct Y as [Y|[_ Y]].
  - left. destruct Y as [b [k [k' M]]]. destruct (call_shape _ _ _ _ _ _ _ M _ _ _ _ eq_refl _ _ eq_refl ltac:(discriminate) ltac:(left; discriminate)) as [q [E Q]].
    rewrite E. destruct q as [n s l]. pose proof (born_rule _ _ _ _ Q) as R. cbn [rule_of] in R. subst n.
    split; [reflexivity|]. apply decimal_text in Q. cbn [text_of] in Q.
    apply call_inv in M. destruct M as [kd [e [o [G [M X]]]]]. injection G as <- <-. destruct o as [[[[c r'] k''] ts]|]; [|discriminate X].
    cbn [record_kind record] in X. injection X as X1 _ _ X2. rewrite E in X2. injection X2 as X2 _. rewrite X1, <- X2. exact Q.
  - right. destruct Y as [b [k [k' M]]]. destruct (call_shape _ _ _ _ _ _ _ M _ _ _ _ eq_refl _ _ eq_refl ltac:(discriminate) ltac:(left; discriminate)) as [q [E Q]].
    rewrite E. destruct q as [n s l]. pose proof (born_rule _ _ _ _ Q) as R. cbn [rule_of] in R. subst n.
    split; [discriminate|]. apply sct_part_text in Q. cbn [text_of] in Q.
    apply call_inv in M. destruct M as [kd [e [o [G [M X]]]]]. injection G as <- <-. destruct o as [[[[c r'] k''] ts]|]; [|discriminate X].
    cbn [record_kind record] in X. injection X as X1 _ _ X2. rewrite E in X2. injection X2 as X2 _. rewrite X1, <- X2. exact Q.
Qed.

(** ** Each setting *)
Definition numeric : list string := ["above"; "below"; "leader"; "history_dots"; "window_area"].
Lemma readable_other n s k : existsb (String.eqb n) numeric = false -> readable (T n s k).
Proof.
  intros H. assert (N : forall m, In m numeric -> n <> m).
  { intros m I E. subst m. assert (X : existsb (String.eqb n) numeric = true) by (apply existsb_exists; exists n; split; [exact I | apply String.eqb_refl]). congruence. }
  unfold readable. cbn [rule_of]. split; [|split; [|split]].
  - intros [E|E]; exfalso; revert E; apply N, is_in; reflexivity.
  - intros E; exfalso; revert E; apply N, is_in; reflexivity.
  - intros E; exfalso; revert E; apply N, is_in; reflexivity.
  - intros E; exfalso; revert E; apply N, is_in; reflexivity.
Qed.
Lemma sound_flag n s q f : born asr_grammar NonAtomic "BOOL" q -> (forall k, asr_setting (T n s k) = bool_setting f k) ->
  (forall p b, rule_of p = n -> reads_flag p b -> good p (f b)) -> existsb (String.eqb n) numeric = false -> sound (T n s [q]).
Proof.
  intros B E G O. unfold sound. rewrite E. apply bool_text in B as TX. apply born_rule in B. destruct q as [m x l]. cbn [rule_of text_of] in *. subst m.
  unfold bool_setting, value1. walk. destruct TX as [->| ->]; (split; [apply G; reflexivity | apply readable_other, O]).
Qed.
Lemma sound_value n s q f m : born asr_grammar NonAtomic m q -> (forall k, asr_setting (T n s k) = text_setting f k) ->
  (forall p v, rule_of p = n -> field m p v -> good p (f v)) -> existsb (String.eqb n) numeric = false -> sound (T n s [q]).
Proof.
  intros B E G O. unfold sound. rewrite E. apply born_rule in B. destruct q as [m' x l]. cbn [rule_of text_of] in *. subst m'.
  unfold text_setting, value1. walk. split; [|apply readable_other, O]. apply G; [reflexivity|]. unfold field, texts. cbn [kids_of of_rule rule_of].
  destruct (string_dec m m) as [_|X]; [reflexivity | contradiction X; reflexivity].
Qed.
Lemma sound_kind {K} n s q q' (f : text * K -> asr_data) kinds : born asr_grammar NonAtomic "multivalue" q -> In (rule_of q') (keys kinds) ->
  (forall k, asr_setting (T n s k) = kind_setting f kinds k) ->
  (forall p v, rule_of p = n -> reads_kind kinds p v -> good p (f v)) -> existsb (String.eqb n) numeric = false ->
  existsb (String.eqb "multivalue") (keys kinds) = false -> sound (T n s [q; q']).
Proof.
  intros B I E G O D. unfold sound. rewrite E. apply born_rule in B. destruct q as [m x l], q' as [m' x' l']. cbn [rule_of text_of] in *. subst m.
  unfold kind_setting, value1. walk. destruct (In_key_get _ _ I) as [v V]. rewrite V. split; [|apply readable_other, O]. apply G; [reflexivity|].
  split.
  - unfold field, texts. cbn [kids_of of_rule rule_of text_of fst]. destruct (string_dec "multivalue" "multivalue") as [_|X]; [|contradiction X; reflexivity].
    destruct (string_dec m' "multivalue") as [->|_]; [|reflexivity]. assert (X : existsb (String.eqb "multivalue") (keys kinds) = true); [|congruence].
    apply existsb_exists. exists "multivalue". split; [exact I | reflexivity].
  - exists m'. split; [apply get_In; exact V | reflexivity].
Qed.
Lemma sound_filter n s q f : born asr_grammar NonAtomic "INTEGER" q -> (forall k, asr_setting (T n s k) = filter_setting f k) ->
  (forall p v, rule_of p = n -> reads_filter p v -> good p (f v)) -> n = "above" \/ n = "below" -> sound (T n s [q]).
Proof.
  intros B E G O. unfold sound. rewrite E. apply born_rule in B. destruct q as [m x l]. cbn [rule_of] in *. subst m.
  unfold filter_setting, value1. walk. destruct (parse_u32 x) as [v|] eqn:P; walk.
  - assert (R : readable (T n s [T "INTEGER" x l])).
    { destruct O as [->| ->]; (split; [intros _; exists x, v; split; [reflexivity | exact P]|]; repeat split; intros; discriminate). }
    destruct (v =? 0)%N eqn:Z; (split; [apply G; [reflexivity|] | exact R]); exists x, v; (split; [reflexivity|]); (split; [exact P|]);
      [left | right]; split; [lia | reflexivity | lia | reflexivity].
  - intros [R _]. destruct (R O) as [s' [v [F P']]]. injection F as <-. congruence.
Qed.
Ltac know := intros; cbn [good]; auto.
Lemma sound_setting n p : In n setting_rules -> born asr_grammar NonAtomic n p -> sound p.
Proof.
  intros I B. unfold setting_rules in I. repeat (destruct I as [<-|I]); [..|contradiction].
  all: pose proof (born_rule _ _ _ _ B) as R; kids B as K; clear B; destruct p as [n s k]; cbn [rule_of kids_of] in *; subst.
  - apply (sound_filter "above" s t DAbove); [exact K | reflexivity | know | auto].
  - apply (sound_filter "below" s t DBelow); [exact K | reflexivity | know | auto].
  - apply (sound_flag "disable_panning" s t DDisablePanning); [exact K | reflexivity | know | reflexivity].
  - apply (sound_flag "disable_zooming" s t DDisableZooming); [exact K | reflexivity | know | reflexivity].
  - destruct (decimal_text t K) as [x X]. apply born_rule in K. destruct t as [m v l]. cbn [rule_of text_of] in *. subst m.
    unfold sound. change (asr_setting (T "display_rotation" s [T "DECIMAL" v l])) with (do x <- unwrap (parse_f64 v); Ret (Some (DDisplayRotation x))).
    rewrite X. walk. split; [|apply readable_other; reflexivity]. split; [reflexivity|]. exists v. split; [reflexivity | exact X].
  - apply born_rule in K. destruct t as [m v l]. cbn [rule_of text_of] in *. subst m.
    change (good (T "display_type" s [T "value" v l]) (DDisplayType (if eqb v (s2t "Ground Radar display") then DtGroundRadar else DtRadar)) /\
      readable (T "display_type" s [T "value" v l])).
    split; [|apply readable_other; reflexivity]. split; [reflexivity|]. exists v. split; [reflexivity|].
    destruct (eqb v (s2t "Ground Radar display")) eqn:E; [rewrite eqb_true in E | rewrite eqb_false in E]; split; congruence.
  - apply (sound_flag _ s t DDisplayTypeGeoReferenced); [exact K | reflexivity | know | reflexivity].
  - apply (sound_flag _ s t DDisplayTypeNeedRadarContent); [exact K | reflexivity | know | reflexivity].
  - apply born_rule in K. destruct t as [m v l]. cbn [rule_of text_of] in *. subst m.
    unfold sound. change (asr_setting (T "history_dots" s [T "INTEGER" v l])) with (do x <- unwrap (parse_u8 v); Ret (Some (DHistoryDots x))).
    destruct (parse_u8 v) as [x|] eqn:X; walk.
    + split; [split; [reflexivity|]; exists v; split; [reflexivity | exact X]|].
      split; [intros [D|D]; discriminate D|]. split; [intros D; discriminate D|]. split; [|intros D; discriminate D].
      intros _. exists v, x. split; [reflexivity | exact X].
    + intros [_ [_ [R _]]]. destruct (R eq_refl) as [v' [x [F P]]]. injection F as <-. congruence.
  - apply born_rule in K. destruct t as [m v l]. cbn [rule_of text_of] in *. subst m.
    unfold sound. change (asr_setting (T "leader" s [T "INTEGER" v l])) with
      (do leader <- unwrap (parse_i8 v); Ret (Some (DLeader (if (0 <? leader)%Z then Miles (Z.to_N leader) else Minutes (Z.abs_N leader))))).
    destruct (parse_i8 v) as [x|] eqn:X; walk.
    + split.
      * split; [reflexivity|]. exists v, x. split; [reflexivity|]. split; [exact X|]. destruct (0 <? x)%Z eqn:L; split; lia.
      * split; [intros [D|D]; discriminate D|]. split; [|split; intros D; discriminate D]. intros _. exists v, x. split; [reflexivity | exact X].
    + intros [_ [R _]]. destruct (R eq_refl) as [v' [x [F P]]]. injection F as <-. congruence.
  - apply (sound_value _ s t DSectorFile "value"); [exact K | reflexivity | know | reflexivity].
  - apply (sound_value _ s t DSectorTitle "value"); [exact K | reflexivity | know | reflexivity].
  - apply (sound_flag _ s t DShowLeader); [exact K | reflexivity | know | reflexivity].
  - apply (sound_flag _ s t DShowC); [exact K | reflexivity | know | reflexivity].
  - apply (sound_flag _ s t DShowStandby); [exact K | reflexivity | know | reflexivity].
  - apply born_rule in K. destruct t as [m v l]. cbn [rule_of text_of] in *. subst m.
    change (good (T "simulation_mode" s [T "INTEGER" v l]) (DSimulationMode (if eqb v (s2t "1") then SimRadar else if eqb v (s2t "4") then SimGround else SimRadar)) /\
      readable (T "simulation_mode" s [T "INTEGER" v l])).
    split; [|apply readable_other; reflexivity]. split; [reflexivity|]. exists v. split; [reflexivity|].
    destruct (eqb v (s2t "1")) eqn:E1; [rewrite eqb_true in E1; subst; split; discriminate|].
    destruct (eqb v (s2t "4")) eqn:E; [rewrite eqb_true in E | rewrite eqb_false in E]; split; congruence.
  - apply (sound_value _ s t DTagFamily "value"); [exact K | reflexivity | know | reflexivity].
  - apply (sound_flag _ s t DTurnLeader); [exact K | reflexivity | know | reflexivity].
  - sil K0. sil K. subst. cbn [app].
    pose proof (part_text _ K1) as P1. pose proof (part_text _ K0) as P2. pose proof (part_text _ K2) as P3. pose proof (part_text _ K) as P4.
    apply born_rule in K1, K0, K2, K. destruct t as [m1 v1 l1], t0 as [m2 v2 l2], t1 as [m3 v3 l3], t2 as [m4 v4 l4]. cbn [rule_of text_of kids_of] in *. subst.
    set (p := T "window_area" s _). unfold sound.
    change (asr_setting p) with (do lat1 <- unwrap (parse_f64 v1); do lng1 <- unwrap (parse_f64 v2); do lat2 <- unwrap (parse_f64 v3); do lng2 <- unwrap (parse_f64 v4);
      Ret (Some (DWindowArea ((lng1, lat1), (lng2, lat2))))).
    assert (W : forall i q, nth_error (kids_of p) i = Some q -> of_rule "sct_coord_part" (kids_of q) <> [] -> ~ readable p).
    { intros i q Q D [_ [_ [_ R]]]. apply D, (R eq_refl). eapply nth_error_In, Q. }
    destruct P1 as [[O1 [x1 X1]]|[O1 X1]]; rewrite X1; walk; [|apply (W 0 (T "coord_part" v1 l1)); [reflexivity | exact O1]].
    destruct P2 as [[O2 [x2 X2]]|[O2 X2]]; rewrite X2; walk; [|apply (W 1 (T "coord_part" v2 l2)); [reflexivity | exact O2]].
    destruct P3 as [[O3 [x3 X3]]|[O3 X3]]; rewrite X3; walk; [|apply (W 2 (T "coord_part" v3 l3)); [reflexivity | exact O3]].
    destruct P4 as [[O4 [x4 X4]]|[O4 X4]]; rewrite X4; walk; [|apply (W 3 (T "coord_part" v4 l4)); [reflexivity | exact O4]].
    split; [split; [reflexivity|]; exists v1, v2, v3, v4; cbn [fst snd]; auto|].
    split; [intros [D|D]; discriminate D|]. split; [intros D; discriminate D|]. split; [intros D; discriminate D|].
    intros _ q [<-|[<-|[<-|[<-|[]]]]]; assumption.
  - apply born_rule in K, K0, K1. destruct t as [m1 v1 l1], t0 as [m2 v2 l2], t1 as [m3 v3 l3]. cbn [rule_of] in *. subst.
    split; [|apply readable_other; reflexivity]. repeat split.
  - sil K0. sil K. apply born_rule in K0, K1, K2. destruct t as [m1 v1 l1], t0 as [m2 v2 l2], t1 as [m3 v3 l3]. cbn [rule_of] in *. subst.
    alts K; subst; apply born_rule in K; destruct t as [m v l]; cbn [rule_of] in K; subst m; cbn [app].
    + split; [repeat split | apply readable_other; reflexivity].
    + split; [repeat split | apply readable_other; reflexivity].
    + split; [right; split; reflexivity | apply readable_other; reflexivity].
  - sil K. alts K; subst; (apply (sound_kind "airports" s t _ DAirport fix_symbols);
      [exact K0 | apply born_rule in K; rewrite K; apply is_in; reflexivity | reflexivity | know | reflexivity | reflexivity]).
  - sil K. alts K; subst; (apply (sound_kind "vors" s t _ DVor navaid_symbols);
      [exact K0 | apply born_rule in K; rewrite K; apply is_in; reflexivity | reflexivity | know | reflexivity | reflexivity]).
  - sil K. alts K; subst; (apply (sound_kind "ndbs" s t _ DNdb navaid_symbols);
      [exact K0 | apply born_rule in K; rewrite K; apply is_in; reflexivity | reflexivity | know | reflexivity | reflexivity]).
  - sil K. alts K; subst; (apply (sound_kind "fixes" s t _ DFix fix_symbols);
      [exact K0 | apply born_rule in K; rewrite K; apply is_in; reflexivity | reflexivity | know | reflexivity | reflexivity]).
  - sil K. alts K; subst; (apply (sound_kind "low_airways" s t _ DLowAirway airway_symbols);
      [exact K0 | apply born_rule in K; rewrite K; apply is_in; reflexivity | reflexivity | know | reflexivity | reflexivity]).
  - sil K. alts K; subst; (apply (sound_kind "high_airways" s t _ DHighAirway airway_symbols);
      [exact K0 | apply born_rule in K; rewrite K; apply is_in; reflexivity | reflexivity | know | reflexivity | reflexivity]).
  - apply (sound_value _ s t DSid "multivalue"); [exact K | reflexivity | know | reflexivity].
  - apply (sound_value _ s t Asr.DStar "multivalue"); [exact K | reflexivity | know | reflexivity].
  - apply born_rule in K0, K. destruct t as [m1 v1 l1], t0 as [m2 v2 l2]. cbn [rule_of] in *. subst.
    split; [|apply readable_other; reflexivity]. repeat split.
  - apply (sound_value _ s t DGeo "multivalue"); [exact K | reflexivity | know | reflexivity].
  - sil K. alts K; subst; (apply (sound_kind "ground_network" s t _ DGroundNetwork ground_symbols);
      [exact K0 | apply born_rule in K; rewrite K; apply is_in; reflexivity | reflexivity | know | reflexivity | reflexivity]).
  - apply (sound_value _ s t DRegion "multivalue"); [exact K | reflexivity | know | reflexivity].
  - apply (sound_value _ s t DArtccBoundary "multivalue"); [exact K | reflexivity | know | reflexivity].
  - apply (sound_value _ s t DArtccLowBoundary "multivalue"); [exact K | reflexivity | know | reflexivity].
  - apply (sound_value _ s t DArtccHighBoundary "multivalue"); [exact K | reflexivity | know | reflexivity].
Qed.
Lemma kids_sound t kids : parsed asr_grammar "asr" t kids -> Forall sound kids.
Proof.
  intros P. destruct (asr_kids t kids P) as [ds [-> F]]. apply Forall_app. split.
  - eapply Forall_impl; [|exact F]. intros p [n [I B]]. exact (sound_setting n p I B).
  - constructor; [|constructor]. split; [left; reflexivity | apply readable_other; reflexivity].
Qed.

(** ** The whole file *)
Lemma sections_ok kids : Forall sound kids ->
  (Forall readable kids /\ exists sections, filter_omap asr_setting kids = Ret sections) \/ (Exists (fun p => ~ readable p) kids /\ filter_omap asr_setting kids = Panic).
Proof.
  induction 1 as [|p kids S _ IH]; [left; split; [constructor | exists []; reflexivity]|]. cbn [filter_omap].
  unfold sound in S. destruct (asr_setting p) as [o| |]; [|contradiction|].
  - assert (R : readable p) by (destruct o; apply S). walk. destruct IH as [[F [l E]]|[F E]]; rewrite E; walk.
    + left. split; [constructor; assumption|]. eexists. reflexivity.
    + right. split; [right; exact F | reflexivity].
  - right. split; [left; exact S | reflexivity].
Qed.
Lemma first_ok {V} n (g : asr_data -> option V) reads d kids sections :
  (forall p x, good p x -> rule_of p <> n -> g x = None) ->
  (forall p x, good p x -> rule_of p = n -> exists v, g x = Some v /\ reads p v) -> n <> "EOI" -> n <> "runways" ->
  Forall sound kids -> filter_omap asr_setting kids = Ret sections ->
  first_setting kids n reads d (unwrap_or (find_map g sections) d).
Proof.
  intros H1 H2 N1 N2 F. revert sections. unfold first_setting. induction F as [|p kids S F IH]; intros sections E; cbn [filter_omap] in E.
  - injection E as <-. reflexivity.
  - unfold sound in S. destruct (asr_setting p) as [o| |]; walk_in E; try discriminate E.
    destruct (filter_omap asr_setting kids) as [l| |]; walk_in E; try discriminate E. injection E as <-. specialize (IH l eq_refl).
    cbn [of_rule]. destruct (string_dec (rule_of p) n) as [R|R].
    + destruct o as [x|]; [|destruct S as [[X|[X _]] _]; congruence]. destruct (H2 p x (proj1 S) R) as [v [G Q]]. cbn [find_map]. rewrite G. exact Q.
    + destruct o as [x|]; [|exact IH]. cbn [find_map]. rewrite (H1 p x (proj1 S) R). exact IH.
Qed.
Definition picks {V} (g : asr_data -> option V) (l : list asr_data) : list V := flat_map (fun x => match g x with Some v => [v] | None => [] end) l.
Lemma drawn_ok {V} n (g : asr_data -> option V) reads kids sections :
  (forall p x, good p x -> rule_of p <> n -> g x = None) ->
  (forall p x, good p x -> rule_of p = n -> exists v, g x = Some v /\ reads p v /\ (n = "runways" -> extended p = false)) -> n <> "EOI" ->
  Forall sound kids -> filter_omap asr_setting kids = Ret sections ->
  Forall2 reads (if string_dec n "runways" then filter (fun p => negb (extended p)) (of_rule n kids) else of_rule n kids) (picks g sections).
Proof.
  intros H1 H2 N1 F. revert sections. induction F as [|p kids S F IH]; intros sections E; cbn [filter_omap] in E.
  - injection E as <-. destruct (string_dec n "runways"); constructor.
  - unfold sound in S. destruct (asr_setting p) as [o| |]; walk_in E; try discriminate E.
    destruct (filter_omap asr_setting kids) as [l| |]; walk_in E; try discriminate E. injection E as <-. specialize (IH l eq_refl).
    cbn [of_rule]. destruct (string_dec (rule_of p) n) as [R|R].
    + destruct o as [x|].
      * destruct (H2 p x (proj1 S) R) as [v [G [Q X]]]. cbn [picks flat_map]. rewrite G. cbn [app].
        destruct (string_dec n "runways") as [W|W]; [cbn [filter]; rewrite (X W); cbn [negb] |]; constructor; assumption.
      * destruct S as [[X|[X Y]] _]; [congruence|]. destruct (string_dec n "runways") as [W|W]; [|congruence]. cbn [filter]. rewrite Y. exact IH.
    + destruct o as [x|]; [|exact IH]. cbn [picks flat_map]. rewrite (H1 p x (proj1 S) R). exact IH.
Qed.
Definition pick_runways (d : asr_data) : option (text * text * text * runway_kind) := match d with DRunway v => Some v | _ => None end.
Definition pick_airports (d : asr_data) : option (text * fix_kind) := match d with DAirport v => Some v | _ => None end.
Definition pick_vors (d : asr_data) : option (text * navaid_kind) := match d with DVor v => Some v | _ => None end.
Definition pick_ndbs (d : asr_data) : option (text * navaid_kind) := match d with DNdb v => Some v | _ => None end.
Definition pick_fixes (d : asr_data) : option (text * fix_kind) := match d with DFix v => Some v | _ => None end.
Definition pick_low_airways (d : asr_data) : option (text * airway_kind) := match d with DLowAirway v => Some v | _ => None end.
Definition pick_high_airways (d : asr_data) : option (text * airway_kind) := match d with DHighAirway v => Some v | _ => None end.
Definition pick_sids (d : asr_data) : option text := match d with DSid v => Some v | _ => None end.
Definition pick_stars (d : asr_data) : option text := match d with DStar v => Some v | _ => None end.
Definition pick_free_text (d : asr_data) : option (text * text) := match d with DFreeText v => Some v | _ => None end.
Definition pick_geo (d : asr_data) : option text := match d with DGeo v => Some v | _ => None end.
Definition pick_ground_network (d : asr_data) : option (text * ground_kind) := match d with DGroundNetwork v => Some v | _ => None end.
Definition pick_regions (d : asr_data) : option text := match d with DRegion v => Some v | _ => None end.
Definition pick_artcc_boundary (d : asr_data) : option text := match d with DArtccBoundary v => Some v | _ => None end.
Definition pick_artcc_low_boundary (d : asr_data) : option text := match d with DArtccLowBoundary v => Some v | _ => None end.
Definition pick_artcc_high_boundary (d : asr_data) : option text := match d with DArtccHighBoundary v => Some v | _ => None end.
Definition pick_plugin (d : asr_data) : option ((text * text) * text) := match d with DPluginSetting a b v => Some ((a, b), v) | _ => None end.
Lemma map_from_ok l : forall acc, let m := fold_left asr_map_push l acc in
  am_runways m = am_runways acc ++ picks pick_runways l /\
  am_airports m = am_airports acc ++ picks pick_airports l /\
  am_vors m = am_vors acc ++ picks pick_vors l /\
  am_ndbs m = am_ndbs acc ++ picks pick_ndbs l /\
  am_fixes m = am_fixes acc ++ picks pick_fixes l /\
  am_low_airways m = am_low_airways acc ++ picks pick_low_airways l /\
  am_high_airways m = am_high_airways acc ++ picks pick_high_airways l /\
  am_sids m = am_sids acc ++ picks pick_sids l /\
  am_stars m = am_stars acc ++ picks pick_stars l /\
  am_free_text m = am_free_text acc ++ picks pick_free_text l /\
  am_geo m = am_geo acc ++ picks pick_geo l /\
  am_ground_network m = am_ground_network acc ++ picks pick_ground_network l /\
  am_regions m = am_regions acc ++ picks pick_regions l /\
  am_artcc_boundary m = am_artcc_boundary acc ++ picks pick_artcc_boundary l /\
  am_artcc_low_boundary m = am_artcc_low_boundary acc ++ picks pick_artcc_low_boundary l /\
  am_artcc_high_boundary m = am_artcc_high_boundary acc ++ picks pick_artcc_high_boundary l.
Proof.
  induction l as [|d l IH]; intros acc m; [subst m; cbn [fold_left picks flat_map]; rewrite !app_nil_r; repeat split; reflexivity|].
  subst m. cbn [fold_left]. specialize (IH (asr_map_push acc d)). cbv zeta in IH.
  set (acc' := asr_map_push acc d) in *. set (m := fold_left asr_map_push l acc') in *. clearbody m.
  destruct acc as [l0 l1 l2 l3 l4 l5 l6 l7 l8 l9 l10 l11 l12 l13 l14 l15], d; subst acc'; cbn in IH |- *; rewrite <- ?app_assoc in IH; exact IH.
Qed.
Lemma of_rule_none n kids : (forall p, In p kids -> rule_of p <> n) -> of_rule n kids = [].
Proof.
  intros H. induction kids as [|p kids IH]; [reflexivity|]. cbn [of_rule]. destruct (string_dec (rule_of p) n) as [E|_].
  - exfalso. apply (H p); [left; reflexivity | exact E].
  - apply IH. intros q I. apply H. right. exact I.
Qed.
Lemma get_rev_last {K V} `{EqDec K} (k : K) (v : V) l : get k (rev l) = Some v <->
  exists l1 l2, l = l1 ++ (k, v) :: l2 /\ forall x, In x l2 -> fst x <> k.
Proof.
  induction l as [|x l IH] using rev_ind; [split; [discriminate | intros [l1 [l2 [E _]]]; destruct l1; discriminate E]|].
  rewrite rev_app_distr. cbn [rev app get]. destruct x as [k' v']. destruct (eq_dec k k') as [E|E].
  - subst k'. split.
    + intros [= ->]. exists l, []. split; [reflexivity | intros x []].
    + intros [l1 [l2 [E N]]]. destruct l2 as [|y l2] using rev_ind.
      * apply app_inj_tail in E. destruct E as [_ E]. injection E as ->. reflexivity.
      * rewrite app_comm_cons, app_assoc in E. apply app_inj_tail in E. destruct E as [_ <-]. exfalso. apply (N (k, v')); [apply in_elt | reflexivity].
  - rewrite IH. split.
    + intros [l1 [l2 [-> N]]]. exists l1, (l2 ++ [(k', v')]). split; [rewrite <- app_assoc; reflexivity|].
      intros x I. apply in_app_iff in I. destruct I as [I|[<-|[]]]; [apply N, I|]. cbn [fst]. congruence.
    + intros [l1 [l2 [X N]]]. destruct l2 as [|y l2 _] using rev_ind.
      * apply app_inj_tail in X. destruct X as [_ X]. injection X as X _. congruence.
      * rewrite app_comm_cons, app_assoc in X. apply app_inj_tail in X. destruct X as [-> _]. exists l1, l2. split; [reflexivity|].
        intros x I. apply N, in_app_iff. left. exact I.
Qed.
Lemma Forall2_split {A B} (R : A -> B -> Prop) l m1 y m2 : Forall2 R l (m1 ++ y :: m2) ->
  exists l1 x l2, l = l1 ++ x :: l2 /\ Forall2 R l1 m1 /\ R x y /\ Forall2 R l2 m2.
Proof.
  intros F. apply Forall2_app_inv_r in F. destruct F as [l1 [l' [F1 [F2 ->]]]]. inversion F2 as [|x ? l2 ? X F]; subst. exists l1, x, l2. auto.
Qed.
Lemma Forall2_split_l {A B} (R : A -> B -> Prop) l1 x l2 m : Forall2 R (l1 ++ x :: l2) m ->
  exists m1 y m2, m = m1 ++ y :: m2 /\ Forall2 R l1 m1 /\ R x y /\ Forall2 R l2 m2.
Proof.
  intros F. apply Forall2_app_inv_l in F. destruct F as [m1 [m' [F1 [F2 ->]]]]. inversion F2 as [|? y ? m2 X F]; subst. exists m1, y, m2. auto.
Qed.
Lemma Forall2_In_l {A B} (R : A -> B -> Prop) l m x : Forall2 R l m -> In x l -> exists y, In y m /\ R x y.
Proof. induction 1 as [|a b l m X _ IH]; intros I; [contradiction I|]. destruct I as [<-|I]; [exists b; split; [left; reflexivity | exact X]|]. destruct (IH I) as [y [J Y]]. exists y. split; [right; exact J | exact Y]. Qed.
Lemma Forall2_In_r {A B} (R : A -> B -> Prop) l m y : Forall2 R l m -> In y m -> exists x, In x l /\ R x y.
Proof. induction 1 as [|a b l m X _ IH]; intros I; [contradiction I|]. destruct I as [<-|I]; [exists a; split; [left; reflexivity | exact X]|]. destruct (IH I) as [x [J Y]]. exists x. split; [right; exact J | exact Y]. Qed.
Definition reads_plugin (p : tree) (v : (text * text) * text) : Prop := texts "multivalue" p = [fst (fst v); snd (fst v)] /\ field "value" p (snd v).
Lemma plugins_of l : forall acc, fold_left (fun m data => match data with DPluginSetting plugin key value => put (plugin, key) value m | _ => m end) l acc = put_all (picks pick_plugin l) acc.
Proof. induction l as [|d l IH]; intros acc; [reflexivity|]. cbn [fold_left]. rewrite IH. destruct d; reflexivity. Qed.
Lemma plugins_ok kids m : Forall2 reads_plugin (of_rule "plugin" kids) m -> asr_plugins kids (of_list m).
Proof.
  intros F. split; [apply NoDup_of_list|]. intros a b v. rewrite get_of_list, get_rev_last. split.
  - intros [m1 [m2 [-> N]]]. apply Forall2_split in F. destruct F as [l1 [p [l2 [-> [_ [[X Y] F2]]]]]]. exists l1, p, l2.
    split; [reflexivity|]. split; [exact X|]. split; [exact Y|]. intros q I E. destruct (Forall2_In_l _ _ _ _ F2 I) as [y [J [R _]]].
    apply (N y J). destruct y as [[a' b'] v']. cbn [fst snd] in *. congruence.
  - intros [l1 [p [l2 [L [X [Y N]]]]]]. rewrite L in F. apply Forall2_split_l in F. destruct F as [m1 [y [m2 [-> [_ [[R1 R2] F2]]]]]].
    destruct y as [[a' b'] v']. cbn [fst snd] in *. rewrite X in R1. unfold field in *. rewrite Y in R2. injection R1 as <- <-. injection R2 as <-.
    exists m1, m2. split; [reflexivity|]. intros y J E. destruct (Forall2_In_r _ _ _ _ F2 J) as [q [I [R _]]].
    apply (N q I). destruct y as [[a' b'] v']. cbn [fst snd] in *. congruence.
Qed.
Ltac other := let p := fresh "p" in let x := fresh "x" in let G := fresh "G" in let R := fresh "R" in
  intros p x G R; destruct x; try reflexivity; exfalso; apply R; apply G.
Ltac mine := let p := fresh "p" in let x := fresh "x" in let G := fresh "G" in let R := fresh "R" in
  intros p x G R; destruct x; cbn [good] in G; try (exfalso; destruct G as [G _]; rewrite R in G; discriminate G);
  eexists; (split; [reflexivity|]); first [apply G | split; [apply G | discriminate] | split; [apply G | intros _; apply G]].
Lemma scalars_ok kids sections : Forall sound kids -> filter_omap asr_setting kids = Ret sections -> asr_scalars kids (asr_of sections).
Proof.
  intros F E. unfold asr_scalars, asr_of. cbn [asr_above asr_below asr_disable_panning asr_disable_zooming asr_display_rotation asr_display_type asr_geo_referenced asr_need_radar_content asr_history_dots asr_leader asr_sector_file asr_sector_title asr_show_leader asr_show_c asr_show_standby asr_simulation_mode asr_tag_family asr_turn_leader asr_window_area].
  split; [apply (first_ok "above"); [other | mine | discriminate | discriminate | exact F | exact E]|].
  split; [apply (first_ok "below"); [other | mine | discriminate | discriminate | exact F | exact E]|].
  split; [apply (first_ok "disable_panning"); [other | mine | discriminate | discriminate | exact F | exact E]|].
  split; [apply (first_ok "disable_zooming"); [other | mine | discriminate | discriminate | exact F | exact E]|].
  split; [apply (first_ok "display_rotation"); [other | mine | discriminate | discriminate | exact F | exact E]|].
  split; [apply (first_ok "display_type"); [other | mine | discriminate | discriminate | exact F | exact E]|].
  split; [apply (first_ok "display_type_geo_referenced"); [other | mine | discriminate | discriminate | exact F | exact E]|].
  split; [apply (first_ok "display_type_need_radar_content"); [other | mine | discriminate | discriminate | exact F | exact E]|].
  split; [apply (first_ok "history_dots"); [other | mine | discriminate | discriminate | exact F | exact E]|].
  split; [apply (first_ok "leader"); [other | mine | discriminate | discriminate | exact F | exact E]|].
  split; [apply (first_ok "sector_file"); [other | mine | discriminate | discriminate | exact F | exact E]|].
  split; [apply (first_ok "sector_title"); [other | mine | discriminate | discriminate | exact F | exact E]|].
  split; [apply (first_ok "show_leader"); [other | mine | discriminate | discriminate | exact F | exact E]|].
  split; [apply (first_ok "show_c"); [other | mine | discriminate | discriminate | exact F | exact E]|].
  split; [apply (first_ok "show_standby"); [other | mine | discriminate | discriminate | exact F | exact E]|].
  split; [apply (first_ok "simulation_mode"); [other | mine | discriminate | discriminate | exact F | exact E]|].
  split; [apply (first_ok "tag_family"); [other | mine | discriminate | discriminate | exact F | exact E]|].
  split; [apply (first_ok "turn_leader"); [other | mine | discriminate | discriminate | exact F | exact E]|].
  apply (first_ok "window_area"); [other | mine | discriminate | discriminate | exact F | exact E].
Qed.
Lemma items_ok kids sections : Forall sound kids -> filter_omap asr_setting kids = Ret sections -> asr_items kids (asr_map_of (asr_of sections)).
Proof.
  intros F E. change (asr_map_of (asr_of sections)) with (fold_left asr_map_push sections asr_map_default).
  pose proof (map_from_ok sections asr_map_default) as M. cbv zeta in M. cbn [asr_map_default am_runways am_airports am_vors am_ndbs am_fixes am_low_airways am_high_airways am_sids am_stars am_free_text am_geo am_ground_network am_regions am_artcc_boundary am_artcc_low_boundary am_artcc_high_boundary app] in M.
  destruct M as [M0 [M1 [M2 [M3 [M4 [M5 [M6 [M7 [M8 [M9 [M10 [M11 [M12 [M13 [M14 M15]]]]]]]]]]]]]]].
  unfold asr_items, drawn. rewrite M0, M1, M2, M3, M4, M5, M6, M7, M8, M9, M10, M11, M12, M13, M14, M15.
  split; [apply (drawn_ok "runways" pick_runways); [other | mine | discriminate | exact F | exact E]|].
  split; [apply (drawn_ok "airports" pick_airports); [other | mine | discriminate | exact F | exact E]|].
  split; [apply (drawn_ok "vors" pick_vors); [other | mine | discriminate | exact F | exact E]|].
  split; [apply (drawn_ok "ndbs" pick_ndbs); [other | mine | discriminate | exact F | exact E]|].
  split; [apply (drawn_ok "fixes" pick_fixes); [other | mine | discriminate | exact F | exact E]|].
  split; [apply (drawn_ok "low_airways" pick_low_airways); [other | mine | discriminate | exact F | exact E]|].
  split; [apply (drawn_ok "high_airways" pick_high_airways); [other | mine | discriminate | exact F | exact E]|].
  split; [apply (drawn_ok "sids" pick_sids); [other | mine | discriminate | exact F | exact E]|].
  split; [apply (drawn_ok "stars" pick_stars); [other | mine | discriminate | exact F | exact E]|].
  split; [apply (drawn_ok "free_text" pick_free_text); [other | mine | discriminate | exact F | exact E]|].
  split; [apply (drawn_ok "geo" pick_geo); [other | mine | discriminate | exact F | exact E]|].
  split; [apply (drawn_ok "ground_network" pick_ground_network); [other | mine | discriminate | exact F | exact E]|].
  split; [apply (drawn_ok "regions" pick_regions); [other | mine | discriminate | exact F | exact E]|].
  split; [apply (drawn_ok "artcc_boundary" pick_artcc_boundary); [other | mine | discriminate | exact F | exact E]|].
  split; [apply (drawn_ok "artcc_low_boundary" pick_artcc_low_boundary); [other | mine | discriminate | exact F | exact E]|].
  apply (drawn_ok "artcc_high_boundary" pick_artcc_high_boundary); [other | mine | discriminate | exact F | exact E].
Qed.
Lemma plugin_ok kids sections : Forall sound kids -> filter_omap asr_setting kids = Ret sections -> asr_plugins kids (asr_plugin_settings (asr_of sections)).
Proof.
  intros F E. cbn [asr_plugin_settings asr_of]. unfold plugin_settings. rewrite plugins_of. apply plugins_ok.
  apply (drawn_ok "plugin" pick_plugin); [other | | discriminate | exact F | exact E].
  intros p x G R; destruct x; cbn [good] in G; try (exfalso; destruct G as [G _]; rewrite R in G; discriminate G).
  eexists. split; [reflexivity|]. split; [split; apply G | discriminate].
Qed.
Lemma asr_ok t kids : parsed asr_grammar "asr" t kids ->
  (Forall readable kids /\ exists a, asr_parse t = Ret a /\ asr_scalars kids a /\ asr_items kids (asr_map_of a) /\ asr_plugins kids (asr_plugin_settings a)) \/
  (Exists (fun p => ~ readable p) kids /\ asr_parse t = Panic).
Proof.
  intros P. destruct (top_cases 2 "asr" asr_grammar "asr" eq_refl ltac:(eexists; reflexivity) t) as [[kids' [P' E]]|[U _]];
    [|contradiction (parsed_not _ _ _ _ P U)].
  pose proof (parsed_det _ _ _ _ _ P P') as <-. pose proof (kids_sound t kids P) as F. unfold asr_parse. rewrite E. walk.
  destruct (sections_ok kids F) as [[R [l L]]|[R L]]; rewrite L; walk; [left | right]; (split; [exact R|]); [|reflexivity].
  exists (asr_of l). split; [reflexivity|]. split; [apply scalars_ok; assumption|]. split; [apply items_ok; assumption | apply plugin_ok; assumption].
Qed.
Lemma asr_err t : unparsed asr_grammar "asr" t -> asr_parse t = Err.
Proof.
  intros U. destruct (top_cases 2 "asr" asr_grammar "asr" eq_refl ltac:(eexists; reflexivity) t) as [[kids' [P' _]]|[_ E]];
    [contradiction (parsed_not _ _ _ _ P' U)|]. unfold asr_parse. rewrite E. reflexivity.
Qed.
