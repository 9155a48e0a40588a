(** Proofs about airway.txt files. *)
From Coq Require Import ZifyBool ZifyN ZifyNat.
From Verif Require Import Base Num Float FloatParse Peg Grammars SpecPeg PegProofs PegLang PegForward Trees PegTree SpecPairs PairsProofs SpecText TextProofs Numerals IcaoProofs Airways AirwaysProofs AirwayTxt SpecAirwayTxt.
Local Open Scope string_scope.
Local Open Scope list_scope.
Notation G := airway_grammar.

Lemma airway_kids t kids : parsed G "airways" t kids -> exists ds, kids = ds ++ [T "EOI" [] []] /\ Forall (born G NonAtomic "airway") ds.
Proof.
  intros P. apply parsed_born in P. kids P as K.
  apply shape_plus in K0; [|reflexivity]. destruct K0 as [l [_ [-> F]]]. exists (List.concat l). split; [reflexivity|].
  apply Forall_flat. eapply Forall_impl; [|exact F]. intros u U. right. shp U. eauto.
Qed.
Lemma decimal_yes g s r ts : yes g Atomic (Opt (str "-") ~~ Plus ASCII_DIGIT ~~ str "." ~~ Plus ASCII_DIGIT) s r ts -> numeral s.
Proof.
  intros Y. apply yes_seq_at in Y; [|discriminate]. destruct Y as [c1 [c2 [t1 [t2 [-> [-> [Y1 Y]]]]]]].
  apply yes_seq_at in Y; [|discriminate]. destruct Y as [c3 [c4 [t3 [t4 [-> [-> [Y3 Y]]]]]]].
  apply yes_seq_at in Y; [|discriminate]. destruct Y as [c5 [c6 [t5 [t6 [-> [-> [[-> _] Y]]]]]]].
  apply digits_yes in Y3; [|discriminate]. apply digits_yes in Y; [|discriminate]. exists c1, (c3 ++ s2t "." ++ c6). split; [reflexivity|]. split.
  - destruct Y1 as [[-> _]|[-> _]]; auto.
  - apply numeral_point; [apply Y3 | apply Y].
Qed.
Lemma part_number p : born G NonAtomic "coord_part" p -> exists x, parse_f64 (text_of p) = Some x.
Proof.
  intros B. destruct (born_yes G eq_refl _ _ _ B _ _ eq_refl ltac:(discriminate) ltac:(discriminate)) as [r Y].
  destruct Y as [b [k [k' M]]]. apply call_inv in M. destruct M as [kd [e [o [X [M Z]]]]]. injection X as <- <-.
  destruct o as [[[[c r'] k''] ts]|]; [|discriminate Z]. cbn [record_kind record] in Z. injection Z as -> _ _ _.
  apply (matches_says_t G eq_refl) in M. destruct M as [_ Y]. apply numeral_f64. exact (decimal_yes G _ _ _ Y).
Qed.
Lemma coord_ok c : born G NonAtomic "coord" c -> exists a b v w x y l l', c = T "coord" v [T "coord_part" a l; T "coord_part" b l'] /\
  parse_f64 a = Some y /\ parse_f64 b = Some x /\ airway_coord c = Ret (x, y) /\ w = v.
Proof.
  intros B. pose proof (born_rule _ _ _ _ B) as R. kids B as K.
  destruct (part_number _ K0) as [y Y], (part_number _ K) as [x X]. apply born_rule in K0, K.
  destruct c as [m v k], t as [m1 a l], t0 as [m2 b l']. cbn [rule_of kids_of text_of] in *. subst.
  exists a, b, v, v, x, y, l, l'. split; [reflexivity|]. split; [exact Y|]. split; [exact X|]. split; [|reflexivity].
  unfold airway_coord. cbn [kids_of]. walk. cbn [text_of]. rewrite Y. walk. rewrite X. reflexivity.
Qed.
Lemma texts_in n s k m v l : texts n (T m s (T n v l :: k)) = v :: texts n (T m s k).
Proof. unfold texts. cbn [kids_of of_rule rule_of]. destruct (string_dec n n) as [_|X]; [reflexivity | contradiction X; reflexivity]. Qed.

Definition reads_fix (q : tree) (a : airway_fix) : Prop :=
  field "designator" q (af_name a) /\ reads_coord q (af_pos a) /\
  match af_min a with
  | Some n => exists l, field "level" q l /\ parse_u32 l = Some n
  | None => of_rule "level" (kids_of q) = []
  end /\
  (if af_valid a then field "TRUE" q (s2t "Y") else field "FALSE" q (s2t "N")).
Lemma flag_text n p v : born G NonAtomic n p -> get n G = Some (normal (str v)) -> text_of p = s2t v.
Proof.
  intros B X. destruct (born_yes G eq_refl _ _ _ B _ _ X ltac:(discriminate) ltac:(discriminate)) as [r [Y _]]. exact Y.
Qed.
Lemma neighbour_ok q : born G NonAtomic "neighbour" q ->
  (level_ok q /\ exists a, airway_fix_parse q = Ret (Some a) /\ reads_fix q a) \/ (~ level_ok q /\ airway_fix_parse q = Panic).
Proof.
  intros B. pose proof (born_rule _ _ _ _ B) as R. kids B as K. clear B.
  destruct (coord_ok _ K1) as [a [b [v [w [x [y [l [l' [-> [Y [X [C _]]]]]]]]]]]]. clear K1.
  assert (F : exists f m, ts4 = [f] /\ (rule_of f = "TRUE" /\ text_of f = s2t "Y" /\ m = true \/ rule_of f = "FALSE" /\ text_of f = s2t "N" /\ m = false)).
  { sil K. alts K; subst; (exists t0; eexists; split; [reflexivity|]).
    - left. split; [exact (born_rule _ _ _ _ K)|]. split; [apply (flag_text "TRUE"); [exact K | reflexivity] | reflexivity].
    - right. split; [exact (born_rule _ _ _ _ K)|]. split; [apply (flag_text "FALSE"); [exact K | reflexivity] | reflexivity]. }
  destruct F as [f [m [-> F]]]. clear K. apply born_rule in K0. destruct q as [n s k], t as [n1 s1 k1], f as [n2 s2 k2]. cbn [rule_of kids_of text_of] in *. subst n n1.
  assert (F' : eqb s2 (s2t "Y") = m) by (destruct F as [[_ [-> ->]]|[_ [-> ->]]]; reflexivity).
  alts K2; subst; apply born_rule in K2; destruct t as [n3 s3 k3]; cbn [rule_of app] in *; subst n3; cbn [app].
  - set (q := T "neighbour" s _).
    assert (L : texts "level" q = [s3]) by (destruct F as [[-> _]|[-> _]]; reflexivity).
    assert (E : airway_fix_parse q = do c <- airway_coord (T "coord" v [T "coord_part" a l; T "coord_part" b l']); do n <- (do n <- unwrap (parse_u32 s3); Ret (Some n));
      Ret (Some (mkAfix s1 c (eqb s2 (s2t "Y")) n))) by reflexivity.
    rewrite E, C. walk. destruct (parse_u32 s3) as [z|] eqn:Z; walk.
    + left. split; [unfold level_ok; rewrite L; intros u [<-|[]]; exists z; exact Z|]. eexists. split; [reflexivity|].
      split; [destruct F as [[-> _]|[-> _]]; reflexivity|]. split.
      { exists (T "coord" v [T "coord_part" a l; T "coord_part" b l']), a, b. split; [destruct F as [[-> _]|[-> _]]; reflexivity|]. split; [reflexivity|]. split; assumption. }
      cbn [af_min af_valid]. split; [exists s3; split; [exact L | exact Z]|].
      destruct F as [[-> [-> _]]|[-> [-> _]]]; reflexivity.
    + right. split; [|reflexivity]. intros LO. unfold level_ok in LO. rewrite L in LO. destruct (LO s3 ltac:(left; reflexivity)) as [z Z']. congruence.
  - set (q := T "neighbour" s _).
    assert (L : texts "level" q = []) by (destruct F as [[-> _]|[-> _]]; reflexivity).
    assert (E : airway_fix_parse q = do c <- airway_coord (T "coord" v [T "coord_part" a l; T "coord_part" b l']);
      Ret (Some (mkAfix s1 c (eqb s2 (s2t "Y")) None))) by reflexivity.
    rewrite E, C. walk. left. split; [unfold level_ok; rewrite L; intros u []|]. eexists. split; [reflexivity|].
    split; [destruct F as [[-> _]|[-> _]]; reflexivity|]. split.
    { exists (T "coord" v [T "coord_part" a l; T "coord_part" b l']), a, b. split; [destruct F as [[-> _]|[-> _]]; reflexivity|]. split; [reflexivity|]. split; assumption. }
    cbn [af_min af_valid]. split; [destruct F as [[-> _]|[-> _]]; reflexivity|].
    destruct F as [[-> [-> _]]|[-> [-> _]]]; reflexivity.
Qed.
(** the first or the second neighbour *)
Definition slot (n : tree) : Prop := rule_of n = "no_neighbour" /\ airway_fix_parse n = Ret None \/
  rule_of n = "neighbour" /\ ((level_ok n /\ exists a, airway_fix_parse n = Ret (Some a) /\ reads_fix n a) \/ (~ level_ok n /\ airway_fix_parse n = Panic)).
Lemma slot_ok ts : shape G 6 NonAtomic (&"no_neighbour" // &"neighbour") ts -> exists n, ts = [n] /\ slot n.
Proof.
  intros K. alts K; subst; exists t; (split; [reflexivity|]).
  - left. apply born_rule in K. split; [exact K|]. destruct t as [n s k]. cbn [rule_of] in K. subst n. reflexivity.
  - right. split; [exact (born_rule _ _ _ _ K) | exact (neighbour_ok _ K)].
Qed.
Lemma type_ok p : born G NonAtomic "airway_type" p -> exists ty, airway_type_parse p = Ret ty /\ In (text_of p, ty) airway_letters.
Proof.
  intros B. destruct (born_yes G eq_refl _ _ _ B _ _ eq_refl ltac:(discriminate) ltac:(discriminate)) as [r Y].
  unfold airway_type_parse, airway_letters.
  destruct Y as [[-> _]|[_ [[-> _]|[_ [[-> _]|[_ [-> _]]]]]]]; eexists; (split; [reflexivity|]); cbn [In]; tauto.
Qed.
Definition seg_of (awy from : text) (pos : point) (ty : airway_type) (a : airway_fix) : segment :=
  mkSeg awy from pos (af_name a) (af_pos a) (af_valid a) (af_min a) ty.
Lemma insert_seg_of acc awy from pos ty a : insert_seg acc (seg_of awy from pos ty a) = insert_segment acc awy from pos a ty.
Proof. destruct a. reflexivity. Qed.
Lemma insert_all_app g l1 l2 : insert_all g (l1 ++ l2) = match insert_all g l1 with Some g => insert_all g l2 | None => None end.
Proof. revert g. induction l1 as [|x l1 IH]; intros g; [reflexivity|]. cbn [app insert_all]. destruct (insert_seg g x); [apply IH | reflexivity]. Qed.
Lemma segments_ok p awy from pos ty : texts "designator" p = [from; awy] -> reads_coord p pos -> (exists s, field "airway_type" p s /\ In (s, ty) airway_letters) ->
  forall ns, Forall slot ns ->
  (Forall level_ok (of_rule "neighbour" ns) /\ exists segs, Forall2 (reads_segment p) (of_rule "neighbour" ns) segs /\
    forall acc, airway_segments (List.length ns) acc awy from pos ty ns = unwrap (insert_all acc segs)) \/
  (~ Forall level_ok (of_rule "neighbour" ns) /\ forall acc, airway_segments (List.length ns) acc awy from pos ty ns = Panic).
Proof.
  intros D C TY ns F. induction F as [|n ns S _ IH]; [left; split; [constructor|]; exists []; split; [constructor | reflexivity]|].
  cbn [of_rule List.length airway_segments].
  destruct S as [[R E]|[R [[L [a [E [A1 [A2 [A3 A4]]]]]]|[L E]]]].
  - destruct (string_dec (rule_of n) "neighbour") as [X|_]; [congruence|].
    destruct IH as [[L [segs [F2 I]]]|[L I]]; [left | right]; (split; [exact L|]).
    + exists segs. split; [exact F2|]. intros acc. walk. rewrite E. walk. apply I.
    + intros acc. walk. rewrite E. walk. apply I.
  - destruct (string_dec (rule_of n) "neighbour") as [_|X]; [|congruence].
    destruct IH as [[LL [segs [F2 I]]]|[LL I]]; [left | right]; (split; [|]).
    + constructor; assumption.
    + exists (seg_of awy from pos ty a :: segs). split.
      * constructor; [|exact F2]. unfold reads_segment, seg_of. cbn [s_from s_awy s_from_pos s_type s_to s_to_pos s_min s_valid].
        split; [exact D|]. split; [exact C|]. split; [exact TY|]. split; [exact A1|]. split; [exact A2|]. split; [exact A3 | exact A4].
      * intros acc. walk. rewrite E. walk. cbn [insert_all]. rewrite insert_seg_of. destruct (insert_segment acc awy from pos a ty) as [g|]; walk; [apply I | reflexivity].
    + intros X. inversion X. contradiction.
    + intros acc. walk. rewrite E. walk. destruct (insert_segment acc awy from pos a ty) as [g|]; walk; [apply I | reflexivity].
  - destruct (string_dec (rule_of n) "neighbour") as [_|X]; [|congruence]. right. split; [intros X; inversion X; contradiction|].
    intros acc. walk. rewrite E. reflexivity.
Qed.
Lemma line_ok p : born G NonAtomic "airway" p ->
  (levels_ok p /\ exists segs, reads_line p segs /\ forall acc, airway_pair acc p = unwrap (insert_all acc segs)) \/
  (~ levels_ok p /\ forall acc, airway_pair acc p = Panic).
Proof.
  intros B. pose proof (born_rule _ _ _ _ B) as R. kids B as K. clear B.
  destruct (coord_ok _ K1) as [a [b [v [w [x [y [l [l' [-> [Y [X [C _]]]]]]]]]]]]. clear K1.
  destruct (type_ok _ K3) as [ty [TY IN]]. apply slot_ok in K4, K. destruct K4 as [n1 [-> S1]], K as [n2 [-> S2]].
  apply born_rule in K0, K2, K3. destruct p as [m s k], t as [m1 s1 k1], t1 as [m2 s2 k2], t2 as [m3 s3 k3]. cbn [rule_of kids_of text_of] in *. subst.
  cbn [app]. set (p := T "airway" s _).
  assert (N : forall n, slot n -> rule_of n <> "designator" /\ rule_of n <> "coord" /\ rule_of n <> "airway_type").
  { intros n [[-> _]|[-> _]]; repeat split; discriminate. }
  destruct (N n1 S1) as [D1 [O1 A1]], (N n2 S2) as [D2 [O2 A2]]. clear N.
  assert (DES : texts "designator" p = [s1; s2]).
  { unfold texts, p. cbn [kids_of]. pick. reflexivity. }
  assert (COO : reads_coord p (x, y)).
  { exists (T "coord" v [T "coord_part" a l; T "coord_part" b l']), a, b. split; [|split; [reflexivity | split; assumption]].
    unfold p. cbn [kids_of]. pick. reflexivity. }
  assert (TYP : exists s, field "airway_type" p s /\ In (s, ty) airway_letters).
  { exists s3. split; [|exact IN]. unfold field, texts, p. cbn [kids_of]. pick. reflexivity. }
  assert (NB : neighbours p = of_rule "neighbour" [n1; n2]) by reflexivity.
  assert (E : forall acc, airway_pair acc p = airway_segments 2 acc s2 s1 (x, y) ty [n1; n2]).
  { intros acc. change (airway_pair acc p) with (do c <- airway_coord (T "coord" v [T "coord_part" a l; T "coord_part" b l']); do ty <- airway_type_parse (T "airway_type" s3 k3);
      airway_segments 2 acc s2 s1 c ty [n1; n2]). rewrite C. walk. rewrite TY. reflexivity. }
  unfold levels_ok, reads_line. rewrite NB.
  destruct (segments_ok p s2 s1 (x, y) ty DES COO TYP [n1; n2] ltac:(auto)) as [[L [segs [F I]]]|[L I]]; [left | right]; (split; [exact L|]).
  - exists segs. split; [exact F|]. intros acc. rewrite E. apply I.
  - intros acc. rewrite E. apply I.
Qed.
Lemma lines_ok ds : Forall (born G NonAtomic "airway") ds ->
  (Forall levels_ok ds /\ exists segs, Forall2 reads_line ds segs /\ forall acc, ofold airway_pair (ds ++ [T "EOI" [] []]) acc = unwrap (insert_all acc (List.concat segs))) \/
  (Exists (fun p => ~ levels_ok p) ds /\ forall acc, ofold airway_pair (ds ++ [T "EOI" [] []]) acc = Panic).
Proof.
  induction 1 as [|p ds B _ IH]; [left; split; [constructor|]; exists []; split; [constructor | reflexivity]|].
  cbn [app ofold]. destruct (line_ok p B) as [[L [s [R E]]]|[L E]].
  - destruct IH as [[LL [segs [F I]]]|[LL I]]; [left | right]; (split; [|]).
    + constructor; assumption.
    + exists (s :: segs). split; [constructor; assumption|]. intros acc. rewrite E. cbn [List.concat]. rewrite insert_all_app.
      destruct (insert_all acc s) as [g|]; walk; [apply I | reflexivity].
    + right. exact LL.
    + intros acc. rewrite E. destruct (insert_all acc s) as [g|]; walk; [apply I | reflexivity].
  - right. split; [left; exact L|]. intros acc. rewrite E. reflexivity.
Qed.
Lemma of_rule_lines ds : Forall (born G NonAtomic "airway") ds -> of_rule "airway" (ds ++ [T "EOI" [] []]) = ds.
Proof.
  induction 1 as [|p ds B _ IH]; [reflexivity|]. cbn [app of_rule]. rewrite IH. apply born_rule in B.
  destruct (string_dec (rule_of p) "airway"); congruence.
Qed.
Lemma airway_txt_ok t kids : parsed G "airways" t kids ->
  (Forall levels_ok (of_rule "airway" kids) /\ exists segs, Forall2 reads_line (of_rule "airway" kids) segs /\ parse_airway_txt t = unwrap (insert_all empty_graph (List.concat segs))) \/
  (Exists (fun p => ~ levels_ok p) (of_rule "airway" kids) /\ parse_airway_txt t = Panic).
Proof.
  intros P. destruct (top_cases 4 "airway" G "airways" eq_refl ltac:(eexists; reflexivity) t) as [[kids' [P' E]]|[U _]];
    [|contradiction (parsed_not _ _ _ _ P U)].
  pose proof (parsed_det _ _ _ _ _ P P') as <-. destruct (airway_kids t kids P) as [ds [-> F]]. unfold parse_airway_txt. rewrite E. walk.
  rewrite (of_rule_lines ds F). destruct (lines_ok ds F) as [[L [segs [R I]]]|[L I]]; [left | right]; (split; [exact L|]).
  - exists segs. split; [exact R | apply I].
  - apply I.
Qed.
Lemma airway_txt_err t : unparsed G "airways" t -> parse_airway_txt t = Err.
Proof.
  intros U. destruct (top_cases 4 "airway" G "airways" eq_refl ltac:(eexists; reflexivity) t) as [[kids' [P' _]]|[_ E]];
    [contradiction (parsed_not _ _ _ _ P' U)|]. unfold parse_airway_txt. rewrite E. reflexivity.
Qed.
