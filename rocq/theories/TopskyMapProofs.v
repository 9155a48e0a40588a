(** Proofs about TopSky maps. *)
From Coq Require Import ZifyBool ZifyN ZifyNat.
From Verif Require Import Base Num Float FloatParse Dms Decode Colours Settings Locations Maps Lines Peg Grammars SpecPeg PegProofs PegLang PegForward Trees PegTree SpecPairs PairsProofs SpecText TextProofs Numerals Verdict SpecKeyed KeyedProofs SpecSct SpecEse SymbolParse SpecSymbol SymbolProofs TopskyParse SpecTopsky TopskyProofs.
Local Open Scope string_scope.
Local Open Scope list_scope.
Ltac eqs := repeat match goal with |- context[@eqb string ?h ?a ?b] => let v := eval vm_compute in (@eqb string h a b) in
  lazymatch v with true => idtac | false => idtac end; change (@eqb string h a b) with v; cbv iota end.
Ltac known p := destruct p as [?n ?s ?k]; cbn [rule_of kids_of text_of] in *; subst.
Ltac fld := unfold field, texts; cbn [kids_of app]; pick; reflexivity.

(** ** Locations *)
Lemma decimal_text n p a : a <> Atomic -> born G a n p -> get n G = Some (KAtomic, Call "decimal") -> exists x, parse_f64 (text_of p) = Some x.
Proof.
  intros A B E. destruct (born_yes G eq_refl _ _ _ B _ _ E ltac:(discriminate) A) as [r Y].
  destruct Y as [b [k [k' M]]]. apply call_inv in M. destruct M as [kd [e [o [X [M Z]]]]]. injection X as <- <-.
  destruct o as [[[[c r'] k''] ts]|]; [|discriminate Z]. cbn [record_kind record] in Z. injection Z as -> _ _ _.
  apply (matches_says_t G eq_refl) in M. destruct M as [_ Y]. apply numeral_f64. exact (proj1 (numeral_yes G _ _ _ Y)).
Qed.
Lemma hemi_text p a : a <> Atomic -> born G a "hemi" p -> exists h, hemi_from (text_of p) = Ret h /\ In (text_of p, h) hemispheres.
Proof.
  intros A B. destruct (born_yes G eq_refl _ _ _ B _ _ eq_refl ltac:(discriminate) A) as [r Y]. unfold hemispheres.
  destruct Y as [[-> _]|[_ [[-> _]|[_ [[-> _]|[_ [[-> _]|[_ [[-> _]|[_ [[-> _]|[_ [[-> _]|[_ [-> _]]]]]]]]]]]]]]];
    eexists; (split; [reflexivity|]); cbn [In]; tauto.
Qed.
Definition is_decimal (p : tree) : Prop := exists s, field "decimal" p s.
Definition part_rel (p : tree) (c : coord_part) : Prop :=
  match c with CDecimal x => (exists s, field "decimal" p s /\ reads_f64 s x) /\ (forall v, ~ reads_dms p v) /\ ~ fits_dms p | CDms v => reads_dms p v /\ fits_dms p /\ ~ is_decimal p end.
Lemma part_ok p : born G NonAtomic "coord_part" p -> verdict (is_decimal p \/ fits_dms p) (parse_coord_part p) (part_rel p).
Proof.
  intros B. pose proof (born_rule _ _ _ _ B) as R. kids B as K. clear B. alts K.
  - pose proof (born_rule _ _ _ _ K) as R'. kids K as L. clear K.
    destruct (hemi_text _ Compound ltac:(discriminate) L0) as [h [H1 H2]].
    destruct (decimal_text "sec" _ Compound ltac:(discriminate) L eq_refl) as [x X].
    bare L0. bare L1. bare L2. bare L. known t. known p.
    set (p := T "coord_part" s4 _). assert (ND : ~ is_decimal p).
    { intros [u U]. unfold field, texts in U. revert U. subst p. cbn [kids_of]. pick. discriminate. }
    assert (FD : fits_dms p <-> (exists n, parse_u16 s0 = Some n) /\ (exists n, parse_u8 s1 = Some n)).
    { unfold fits_dms. subst p. cbn [kids_of]. pick. split.
      * intros [q [E [D M]]]. injection E as <-. unfold texts in D, M. revert D M. cbn [kids_of]. pick. cbn [In]. intros D M. split; [apply D; auto | apply M; auto].
      * intros [[d D] [m M]]. eexists. split; [reflexivity|]. unfold texts. cbn [kids_of]. pick. cbn [In]. split; intros u [<-|[]]; eauto. }
    eapply verdict_iff.
    + unfold parse_coord_part, is_rule. change (kids_of p) with [T "sct_coord_part" s3 [T "hemi" s []; T "deg" s0 []; T "min" s1 []; T "sec" s2 []]]. cbn [kids_of next obind rule_of]. eqs. cbn [kids_of text_of next obind]. rewrite H1. cbn [obind].
      vb (unwrap (parse_u16 s0)); [apply verdict_unwrap|]. intros d _ D.
      eapply (verdict_bind _ True (unwrap (parse_u8 s1))); [apply verdict_unwrap|]. intros m _ M.
      rewrite X. walk. apply verdict_ret; [exact I|]. split; [|split; [apply FD; split; [exists d; exact D | exists m; exact M] | exact ND]].
      eexists. split; [subst p; cbn [kids_of]; pick; reflexivity|].
      exists s, s0, s1, s2, h, d, m, x. repeat (split; [first [fld | assumption]|]). reflexivity.
    + rewrite FD. tauto.
  - destruct (born_decimal_at G eq_refl NonAtomic _ eq_refl ltac:(discriminate) K) as [_ D]. destruct (numeral_f64 _ D) as [x X].
    bare K. known p. set (p := T "coord_part" s0 _).
    assert (F : field "decimal" p s) by (subst p; fld).
    assert (ND : of_rule "sct_coord_part" (kids_of p) = []) by (subst p; cbn [kids_of]; pick; reflexivity).
    unfold parse_coord_part, is_rule. change (kids_of p) with [T "decimal" s []]. cbn [kids_of next obind rule_of]. eqs. cbn [text_of]. rewrite X. cbn [unwrap obind]. apply verdict_ret; [left; exists s; exact F|].
    split; [eauto|]. split; [intros v [q [E _]] | intros [q [E _]]]; rewrite ND in E; discriminate.
Qed.
Lemma geo_ok p : born G NonAtomic "coordinate" p -> verdict (place_fits p) (parse_coord p) (reads_geo p).
Proof.
  intros B. pose proof (born_rule _ _ _ _ B) as R. kids B as K. clear B. pose proof (part_ok _ K0) as V1. pose proof (part_ok _ K) as V2. apply born_rule in K0, K.
  assert (CP : of_rule "coord_part" (kids_of p) = [t; t0]) by (rewrite E; pick; reflexivity).
  unfold parse_coord. rewrite E. cbn [next obind]. destruct V1 as [[W1 [a [A1 A2]]]|[W1 A1]]; rewrite A1; cbn [obind].
  - destruct V2 as [[W2 [b [B1 B2]]]|[W2 B1]]; rewrite B1; cbn [obind].
    + destruct a as [y|y], b as [x|x]; cbn [part_rel] in *.
      * destruct A2 as [[s [S1 S2]] _]. destruct B2 as [[u [U1 U2]] _]. apply verdict_ret.
        -- intros _. exists t, t0. split; [exact CP|]. left. eauto.
        -- exists t, t0. split; [exact CP|]. left. exists s, u. auto.
      * right. split; [|reflexivity]. intros F. destruct (F R) as [a [b [X F']]]. rewrite CP in X. injection X as <- <-. destruct B2 as [_ [_ B2]]. destruct A2 as [_ [_ A2]].
        destruct F' as [[s [u [_ F']]]|[F' _]]; [apply B2; exists u; exact F' | exact (A2 F')].
      * right. split; [|reflexivity]. intros F. destruct (F R) as [a [b [X F']]]. rewrite CP in X. injection X as <- <-. destruct B2 as [_ [_ B2]]. destruct A2 as [_ [_ A2]].
        destruct F' as [[s [u [F' _]]]|[_ F']]; [apply A2; exists s; exact F' | exact (B2 F')].
      * apply verdict_ret.
        -- intros _. exists t, t0. split; [exact CP|]. right. tauto.
        -- exists t, t0. split; [exact CP|]. right. exists y, x. split; [apply A2|]. split; [apply B2 | reflexivity].
    + right. split; [|reflexivity]. intros F. destruct (F R) as [a' [b' [X F']]]. rewrite CP in X. injection X as <- <-. apply W2. destruct F' as [[s [u [_ F']]]|[_ F']]; [left; exists u; exact F' | right; exact F'].
  - right. split; [|reflexivity]. intros F. destruct (F R) as [a' [b' [X F']]]. rewrite CP in X. injection X as <- <-. apply W1. destruct F' as [[s [u [F' _]]]|[F' _]]; [left; exists s; exact F' | right; exact F'].
Qed.
Definition is_place (q : tree) : Prop := born G NonAtomic "coordinate" q \/ born G NonAtomic "colon_delimited_text" q.
Lemma place_ok q : is_place q -> verdict (place_fits q) (parse_location q) (reads_loc q).
Proof.
  intros [B|B]; pose proof (born_rule _ _ _ _ B) as R; unfold parse_location, is_rule; rewrite R; eqs.
  - eapply verdict_iff; [vb (parse_coord q); [exact (geo_ok q B)|]; intros c _ C; vend; split; assumption | tauto].
  - apply verdict_ret; [unfold place_fits; rewrite R; discriminate | split; [exact R | reflexivity]].
Qed.

(** ** Activation conditions *)
Lemma of_rule_all n l : Forall (fun q => rule_of q = n) l -> of_rule n l = l.
Proof. induction 1 as [|p l B _ IH]; [reflexivity|]. rewrite of_rule_hit, IH by exact B. reflexivity. Qed.
Lemma names_kids q : born G NonAtomic "names" q -> map text_of (kids_of q) = texts "comma_delimited_text" q.
Proof.
  intros B. kids B as K. apply shape_star in K; [|reflexivity]. destruct K as [l [-> F]]. unfold texts. rewrite of_rule_all; [reflexivity|]. rewrite E. rules. constructor; [assumption|].
  apply Forall_flat. eapply Forall_impl; [|exact F]. intros u U. right. shp U. subst u. eexists. split; [reflexivity | exact (born_rule _ _ _ _ U)].
Qed.
Definition wn (q : tree) : Prop := born G NonAtomic "wildcard" q \/ born G NonAtomic "names" q.
Lemma wn_of u : shape G 6 NonAtomic (&"wildcard" // &"names") u -> exists q, u = [q] /\ wn q.
Proof. intros U. alts U; subst u; eexists; (split; [reflexivity|]); [left|right]; exact U. Qed.
Lemma names_ok q : wn q -> exists o, parse_names q = Ret o /\ reads_names q o.
Proof.
  intros [B|B]; pose proof (born_rule _ _ _ _ B) as R; unfold parse_names, is_rule; rewrite R; eqs; eexists; (split; [reflexivity|]); [exact R|].
  split; [exact R|]. symmetry. exact (names_kids q B).
Qed.
Lemma runway_ok q : born G NonAtomic "runway" q -> exists r, parse_runway_id q = Ret r /\ reads_runway_id q r.
Proof.
  intros B. kids B as K. rules. unfold parse_runway_id. rewrite E. cbn [next obind]. eexists. split; [reflexivity|]. split; unfold field, texts; rewrite E; pick; reflexivity.
Qed.
Definition wr (q : tree) : Prop := born G NonAtomic "wildcard" q \/ born G NonAtomic "runways" q.
Lemma wr_of u : shape G 6 NonAtomic (&"wildcard" // &"runways") u -> exists q, u = [q] /\ wr q.
Proof. intros U. alts U; subst u; eexists; (split; [reflexivity|]); [left|right]; exact U. Qed.
Lemma omap_all {A B} (f : A -> outcome B) (R : A -> B -> Prop) l : Forall (fun x => exists y, f x = Ret y /\ R x y) l -> exists ys, omap f l = Ret ys /\ Forall2 R l ys.
Proof.
  induction 1 as [|x l [y [E X]] _ [ys [IH F]]]; [exists []; split; [reflexivity | constructor]|]. exists (y :: ys). cbn [omap]. rewrite E. cbn [obind]. rewrite IH. split; [reflexivity | constructor; assumption].
Qed.
Lemma runways_ok q : wr q -> exists o, parse_runways q = Ret o /\ reads_runways q o.
Proof.
  intros [B|B]; pose proof (born_rule _ _ _ _ B) as R; unfold parse_runways, is_rule; rewrite R; eqs; [eexists; (split; [reflexivity|]); exact R|].
  kids B as K. apply shape_star in K; [|reflexivity]. destruct K as [l [-> F]].
  assert (A : Forall (born G NonAtomic "runway") (kids_of q)).
  { rewrite E. constructor; [exact K0|]. apply Forall_flat. eapply Forall_impl; [|exact F]. intros u U. right. shp U. subst u. eexists. split; [reflexivity | exact U]. }
  destruct (omap_all parse_runway_id reads_runway_id (kids_of q)) as [ys [Y1 Y2]]; [eapply Forall_impl; [|exact A]; exact runway_ok|].
  rewrite Y1. cbn [obind]. eexists. split; [reflexivity|]. split; [exact R|]. rewrite of_rule_all; [exact Y2|]. eapply Forall_impl; [|exact A]. intros a. apply born_rule.
Qed.
Lemma ids_ok q n : n = "active_id" \/ n = "active_callsign" -> born G NonAtomic n q -> exists a, parse_active_ids q = Ret a /\ reads_ids q a.
Proof.
  intros N B. assert (X : exists a b c d, kids_of q = [a; b; c; d] /\ wn a /\ wn b /\ wn c /\ wn d).
  { destruct N as [-> | ->]; kids B as K; apply wn_of in K0, K1, K2, K; destruct K0 as [a [-> A]], K1 as [b [-> B']], K2 as [c [-> C]], K as [d [-> D]]; exists a, b, c, d; auto. }
  destruct X as [a [b [c [d [E [A [B' [C D]]]]]]]]. destruct (names_ok a A) as [x1 [X1 Y1]], (names_ok b B') as [x2 [X2 Y2]], (names_ok c C) as [x3 [X3 Y3]], (names_ok d D) as [x4 [X4 Y4]].
  unfold parse_active_ids, reads_ids. rewrite E. cbn [next obind]. rewrite X1. cbn [next obind]. rewrite X2. cbn [next obind]. rewrite X3. cbn [next obind]. rewrite X4. cbn [next obind].
  eexists. split; [reflexivity|]. cbn [ai_own ai_own_ex ai_online ai_online_ex]. repeat constructor; assumption.
Qed.
Lemma active_ok u : shape G 6 NonAtomic (&"active_options") u -> exists q, u = [q] /\ forall p, kids_of p = [q] -> exists a, parse_active p = Ret a /\ reads_active q a.
Proof.
  intros U. sil U. alts U; subst u; eexists; (split; [reflexivity|]); intros p E; unfold parse_active; rewrite E; cbn [next obind]; pose proof (born_rule _ _ _ _ U) as R; unfold is_rule; rewrite R; eqs.
  - eexists. split; [reflexivity | exact R].
  - destruct (ids_ok _ _ (or_introl eq_refl) U) as [a [A1 A2]]. rewrite A1. eexists. split; [reflexivity|]. split; assumption.
  - clear E. kids U as K. rules. rewrite E. cbn [next obind]. eexists. split; [reflexivity|]. unfold reads_active, field, texts. rewrite E. pick. auto.
  - clear E. kids U as K. rules. eexists. split; [reflexivity|]. unfold reads_active, texts. rewrite E. pick. auto.
  - clear E. kids U as K. rules. unfold parse_areas_excludes. rewrite E. cbn [next obind]. eexists. split; [reflexivity|]. right. split; [exact R|]. rewrite E. eexists. split; [reflexivity|].
    cbn [aa_areas]. rewrite !names_kids by assumption. repeat constructor; assumption.
  - clear E. kids U as K. rules. unfold parse_areas. rewrite E. cbn [next obind]. eexists. split; [reflexivity|]. left. split; [exact R|]. rewrite E. split; [|reflexivity].
    cbn [aa_areas]. rewrite names_kids by assumption. repeat constructor; assumption.
  - destruct (ids_ok _ _ (or_intror eq_refl) U) as [a [A1 A2]]. rewrite A1. eexists. split; [reflexivity|]. split; assumption.
  - clear E. kids U as K. apply wr_of in K0, K1, K2, K. destruct K0 as [a [-> A]], K1 as [b [-> B']], K2 as [c [-> C]], K as [d [-> D]]. cbn [app] in E.
    destruct (runways_ok a A) as [x1 [X1 Y1]], (runways_ok b B') as [x2 [X2 Y2]], (runways_ok c C) as [x3 [X3 Y3]], (runways_ok d D) as [x4 [X4 Y4]].
    unfold parse_runways_excludes. rewrite E. cbn [next obind]. rewrite X1. cbn [next obind]. rewrite X2. cbn [next obind]. rewrite X3. cbn [next obind]. rewrite X4. cbn [next obind].
    eexists. split; [reflexivity|]. right. split; [exact R|]. rewrite E. cbn [ar_arr ar_arr_ex ar_dep ar_dep_ex]. repeat constructor; assumption.
  - clear E. kids U as K. apply wr_of in K0, K. destruct K0 as [a [-> A]], K as [d [-> D]]. cbn [app] in E.
    destruct (runways_ok a A) as [x1 [X1 Y1]], (runways_ok d D) as [x4 [X4 Y4]].
    unfold parse_active_runways. rewrite E. cbn [next obind]. rewrite X1. cbn [next obind]. rewrite X4. cbn [next obind].
    eexists. split; [reflexivity|]. left. split; [exact R|]. rewrite E. cbn [ar_arr ar_arr_ex ar_dep ar_dep_ex]. repeat split; repeat constructor; assumption.
  - eexists. split; [reflexivity | exact R].
  - clear E. kids U as K. rules. rewrite E. cbn [next obind].
    destruct (born_yes G eq_refl _ _ _ K0 _ _ eq_refl ltac:(discriminate) ltac:(discriminate)) as [r Y].
    assert (T1 : text_of t0 = s2t "!" \/ text_of t0 = s2t "=") by (destruct Y as [[Y _]|[_ [Y _]]]; [left|right]; exact Y).
    destruct T1 as [T1|T1]; rewrite T1; eexists; (split; [reflexivity|]); unfold reads_active, field, texts; rewrite E; pick; cbn [map]; rewrite T1; auto.
Qed.

(** ** Map rules *)
Lemma integer_f32 t : born G NonAtomic "integer" t -> exists x, parse_f32 (text_of t) = Some x.
Proof.
  intros B. destruct (born_yes G eq_refl _ _ _ B _ _ eq_refl ltac:(discriminate) ltac:(discriminate)) as [r Y]. apply parse_numeral.
  change (body_atom "integer" KAtomic NonAtomic) with Atomic in Y. apply yes_seq_at in Y; [|discriminate]. destruct Y as [c1 [c2 [t1 [t2 [-> [_ [Y1 Y]]]]]]].
  apply sign_yes in Y1. destruct Y1 as [S1 _]. apply digits_yes in Y; [|discriminate]. exists c1, c2. split; [reflexivity|]. split; [exact S1|]. apply numeral_int; tauto.
Qed.
Lemma decimal_f32 t : born G NonAtomic "decimal" t -> exists x, parse_f32 (text_of t) = Some x.
Proof. intros B. apply parse_numeral. apply (born_decimal_at G eq_refl NonAtomic t eq_refl ltac:(discriminate) B). Qed.
Lemma co_of u : shape G 6 NonAtomic (&"coordinate" // &"colon_delimited_text") u -> exists q, u = [q] /\ is_place q.
Proof. intros U. alts U; subst u; eexists; (split; [reflexivity|]); [left|right]; exact U. Qed.
Lemma place_name q : is_place q -> rule_of q = "coordinate" \/ rule_of q = "colon_delimited_text".
Proof. intros [B|B]; rewrite (born_rule _ _ _ _ B); auto. Qed.
Section upper.
  Variable upper : text -> text.
  Definition rule_rel (q : tree) (o : option Maps.rule) : Prop :=
    match o with Some r => skipped q = false /\ reads_map_rule upper q r | None => skipped q = true end.
  Definition rule_good (q : tree) : Prop := verdict (map_rule_fits q) (parse_map_rule upper q) (rule_rel q).
  Lemma easy_rule q r : ~ In (rule_of q) ["mapsymbol"; "text"; "coord"; "mapline"] -> parse_map_rule upper q = Ret r -> rule_rel q r -> rule_good q.
  Proof.
    intros N E R. unfold rule_good. rewrite E. apply verdict_ret; [|exact R]. cbn [In] in N. unfold map_rule_fits. cbn [In]. split; intros X; contradiction N; intuition auto.
  Qed.
  Lemma skipped_rule q : skipped q = true -> (forall n, In n ["folder"; "colour"; "asrdata"; "active"; "andactive"; "layer"; "mapsymbol"; "fontsize"; "zoom"; "style"; "mapline"; "text"; "screen_specific"; "global"; "hidden"; "coordline"; "coord"; "coordpoly"] -> rule_of q <> n) -> rule_good q.
  Proof.
    intros S N. assert (S' : existsb (is_rule q) ignored_rules = true).
    { revert S. unfold skipped. rewrite !existsb_exists. intros [n [I E]]. exists n. split; [exact I|]. apply String.eqb_eq in E. apply eqb_true. exact E. }
    apply (easy_rule q None).
    - intros X. cbn [In] in X. destruct X as [X|[X|[X|[X|[]]]]]; symmetry in X; revert X; apply N; cbn [In]; tauto.
    - unfold parse_map_rule. repeat match goal with |- context[if is_rule q ?n then _ else _] => replace (is_rule q n) with false by (symmetry; apply eqb_false, N; cbn [In]; tauto) end. rewrite S'. reflexivity.
    - exact S.
  Qed.
End upper.
Ltac begin U R := pose proof (born_rule _ _ _ _ U) as R; unfold rule_good, parse_map_rule, is_rule; rewrite R; eqs.
Ltac simple_rule U R r := pose proof (born_rule _ _ _ _ U) as R; apply (easy_rule _ _ r); [rewrite R; cbn; intuition discriminate | |].
