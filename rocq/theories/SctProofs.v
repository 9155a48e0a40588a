(** Proofs about .sct files. *)
From Coq Require Import ZifyBool ZifyN ZifyNat.
From Verif Require Import Base Num Float FloatParse Colours SpecColours ColoursProofs Locations SctData Lines Dms Peg Grammars SpecPeg PegProofs PegLang PegForward Trees PegTree SpecPairs PairsProofs SpecText TextProofs Numerals Verdict SctParse SpecSct.
Local Open Scope string_scope.
Local Open Scope list_scope.
Notation G := sct_grammar.
Fixpoint depth (t : tree) : nat := match t with T _ _ k => S ((fix go l := match l with [] => 0 | x :: l => Nat.max (depth x) (go l) end) k) end.
Fixpoint list_depth (ts : list tree) : nat := match ts with [] => 0 | t :: ts => Nat.max (depth t) (list_depth ts) end.

Lemma depth_T n s k : depth (T n s k) = S (list_depth k).
Proof. reflexivity. Qed.

(** ** numbers that fit *)
Lemma all_fit_nil : all_fit [].
Proof. intros q H. inversion H as [? X|? ? X]; destruct X. Qed.
Lemma all_fit_app a b : all_fit (a ++ b) <-> all_fit a /\ all_fit b.
Proof.
  split.
  - intros H. split; intros q Q; apply H; inversion Q as [? X|t ? X Y]; subst.
    + apply inside_here, in_or_app. auto.
    + apply (inside_deep _ t); [apply in_or_app; auto | exact Y].
    + apply inside_here, in_or_app. auto.
    + apply (inside_deep _ t); [apply in_or_app; auto | exact Y].
  - intros [HA HB] q Q. inversion Q as [? X|t ? X Y]; subst; apply in_app_or in X; destruct X as [X|X].
    + apply HA, inside_here, X.
    + apply HB, inside_here, X.
    + apply HA. apply (inside_deep _ t); assumption.
    + apply HB. apply (inside_deep _ t); assumption.
Qed.
Lemma all_fit_one p : all_fit [p] <-> fits p /\ all_fit (kids_of p).
Proof.
  split.
  - intros H. split; [apply H, inside_here; left; reflexivity|]. intros q Q. apply H. apply (inside_deep _ p); [left; reflexivity | exact Q].
  - intros [F K] q Q. inversion Q as [? X|t ? X Y]; subst; destruct X as [<-|[]]; [exact F | apply K, Y].
Qed.
Lemma all_fit_cons p ts : all_fit (p :: ts) <-> all_fit [p] /\ all_fit ts.
Proof. apply (all_fit_app [p] ts). Qed.
(** the same, computed *)
Fixpoint each (n : string) (P : text -> Prop) (ts : list tree) : Prop :=
  match ts with
  | [] => True
  | t :: ts => if String.eqb (rule_of t) n then P (text_of t) /\ each n P ts else each n P ts
  end.
Definition fit1 (n : string) (s : text) (k : list tree) : Prop :=
  if String.eqb n "deg" then exists v, parse_u16 s = Some v
  else if String.eqb n "min" then exists v, parse_u8 s = Some v
  else if String.eqb n "colour_definition" then each "pos_integer" (fun s => exists v, parse_i32 s = Some v) k
  else if String.eqb n "runway" then each "pos_integer" (fun s => exists v, parse_u32 s = Some v) k
  else True.
Fixpoint fitted (t : tree) : Prop :=
  match t with T n s k => fit1 n s k /\ (fix go l := match l with [] => True | x :: l => fitted x /\ go l end) k end.
Fixpoint fitted_all (ts : list tree) : Prop := match ts with [] => True | t :: ts => fitted t /\ fitted_all ts end.
Lemma fitted_T n s k : fitted (T n s k) <-> fit1 n s k /\ fitted_all k.
Proof. reflexivity. Qed.
Lemma each_all n P ts : each n P ts <-> forall s, In s (map text_of (of_rule n ts)) -> P s.
Proof.
  induction ts as [|t ts IH]; [split; [intros _ s [] | intros _; exact I]|]. cbn [each of_rule].
  destruct (String.eqb_spec (rule_of t) n) as [E|E], (string_dec (rule_of t) n) as [E'|E']; try congruence. cbn [map In]. rewrite IH. split.
  - intros [A B] s [<-|X]; auto.
  - intros H. split; [apply H; auto | intros s X; apply H; auto].
Qed.
Lemma fits_fit1 n s k : fits (T n s k) <-> fit1 n s k.
Proof.
  unfold fits, fit1, texts. cbn [rule_of text_of kids_of]. rewrite <- !each_all.
  destruct (String.eqb_spec n "deg") as [->|N1]; [split; [intros [H _]; auto | intros H; repeat split; intros X; try discriminate X; exact H]|].
  destruct (String.eqb_spec n "min") as [->|N2]; [split; [intros [_ [H _]]; auto | intros H; repeat split; intros X; try discriminate X; exact H]|].
  destruct (String.eqb_spec n "colour_definition") as [->|N3]; [split; [intros [_ [_ [H _]]]; auto | intros H; repeat split; intros X; try discriminate X; exact H]|].
  destruct (String.eqb_spec n "runway") as [->|N4]; [split; [intros [_ [_ [_ H]]]; auto | intros H; repeat split; intros X; try discriminate X; exact H]|].
  split; [intros _; exact I | intros _; repeat split; intros X; contradiction].
Qed.
Lemma all_fit_fitted ts : all_fit ts <-> fitted_all ts.
Proof.
  assert (D : forall d ts, list_depth ts <= d -> (all_fit ts <-> fitted_all ts)).
  { induction d as [|d IHd]; intros l L.
    - destruct l as [|t l]; [pose proof all_fit_nil; cbn; tauto|]. destruct t as [n s k]. cbn [list_depth] in L. rewrite depth_T in L. lia.
    - induction l as [|t l IHl]; [pose proof all_fit_nil; cbn; tauto|].
      rewrite all_fit_cons, all_fit_one. cbn [fitted_all]. destruct t as [n s k]. cbn [list_depth] in L. rewrite depth_T in L. rewrite fitted_T, fits_fit1. cbn [kids_of].
      rewrite IHl by lia. rewrite IHd by lia. tauto. }
  apply (D (list_depth ts)). lia.
Qed.

(** ** leaves *)
Lemma decimal_text n p a : a <> Atomic -> born G a n p -> get n G = Some (KAtomic, Call "decimal") -> exists x, parse_f64 (text_of p) = Some x.
Proof.
  intros A B E. destruct (born_yes G eq_refl _ _ _ B _ _ E ltac:(discriminate) A) as [r Y].
  destruct Y as [b [k [k' M]]]. apply call_inv in M. destruct M as [kd [e [o [X [M Z]]]]]. injection X as <- <-.
  destruct o as [[[[c r'] k''] ts]|]; [|discriminate Z]. cbn [record_kind record] in Z. injection Z as -> _ _ _.
  apply (matches_says_t G eq_refl) in M. destruct M as [_ Y]. apply numeral_f64. exact (proj1 (numeral_yes G _ _ _ Y)).
Qed.
Lemma hemi_text p a : a <> Atomic -> born G a "hemi" p -> exists h, hemi_from (text_of p) = Ret h /\ In (text_of p, h) hemispheres.
Proof.
  intros A B. destruct (born_yes G eq_refl _ _ _ B _ _ eq_refl ltac:(discriminate) A) as [r Y]. unfold hemispheres.
  destruct Y as [[-> _]|[_ [[-> _]|[_ [[-> _]|[_ [[-> _]|[_ [[-> _]|[_ [[-> _]|[_ [[-> _]|[_ [-> _]]]]]]]]]]]]]]];
    eexists; (split; [reflexivity|]); cbn [In]; tauto.
Qed.
Lemma coord_part_ok a p : a <> Atomic -> born G a "sct_coord_part" p -> verdict (fitted p) (coord_part p) (reads_part p).
Proof.
  intros A B. pose proof (born_rule _ _ _ _ B) as R. kids B as K. clear B.
  destruct (hemi_text _ Compound ltac:(discriminate) K0) as [h [H1 H2]].
  destruct (decimal_text "sec" _ Compound ltac:(discriminate) K eq_refl) as [x X].
  bare K0. bare K1. bare K2. bare K. destruct p as [n3 s3 k]. cbn [rule_of text_of kids_of] in *. subst.
  eapply verdict_iff.
  - unfold coord_part. cbn [kids_of text_of]. walk. rewrite H1. walk.
    eapply (verdict_bind _ _ (unwrap (parse_u16 s0))); [apply verdict_unwrap|]. intros d _ D.
    eapply (verdict_bind _ True (unwrap (parse_u8 s1))); [apply verdict_unwrap|]. intros m _ M.
    rewrite X. walk. apply verdict_ret; [exact I|].
    exists s, s0, s1, s2, h, d, m, x. repeat (split; [first [reflexivity | assumption]|]). reflexivity.
  - cbn. tauto.
Qed.
Ltac vb x := eapply (verdict_bind _ _ x).
Ltac vend := apply verdict_ret; [exact I|].
Ltac conds := repeat match goal with H : _ /\ _ |- _ => destruct H end; cbn; tauto.
Lemma coordinate_ok a p : a <> Atomic -> born G a "sct_coordinate" p -> verdict (fitted p) (coordinate p) (reads_coord p).
Proof.
  intros A B. pose proof (born_rule _ _ _ _ B) as R. kids B as K. clear B.
  pose proof (coord_part_ok Compound _ ltac:(discriminate) K0) as V1. pose proof (coord_part_ok Compound _ ltac:(discriminate) K) as V2.
  apply born_rule in K0, K. destruct p as [n s k]. cbn [rule_of kids_of] in *. subst. eapply verdict_iff.
  - unfold coordinate. cbn [kids_of]. walk. vb (coord_part t); [exact V1|]. intros y _ Y. vb (coord_part t0); [exact V2|]. intros x _ X. vend.
    exists t, t0, y, x. split; [cbn [kids_of]; pick; reflexivity|]. split; [exact Y|]. split; [exact X | reflexivity].
  - conds.
Qed.
Lemma location_ok d ts : shape G d NonAtomic (&"sct_coordinate" // &"airway_fix") ts ->
  exists t, ts = [t] /\ is_location t = true /\ (rule_of t = "sct_coordinate" \/ rule_of t = "airway_fix") /\ verdict (fitted t) (parse_location t) (reads_location t).
Proof.
  intros K. alts K; subst; exists t; (split; [reflexivity|]); pose proof (born_rule _ _ _ _ K) as R; unfold is_location, parse_location, is_rule; rewrite R;
    (split; [reflexivity|]); (split; [auto|]).
  - pose proof (coordinate_ok NonAtomic _ ltac:(discriminate) K) as V. cbn. eapply verdict_iff.
    + vb (coordinate t); [exact V|]. intros c _ C. vend. split; [exact R | exact C].
    + tauto.
  - cbn. kids K as K'. bare K'. destruct t as [n s0 k]. cbn [rule_of kids_of] in *. subst. walk. apply verdict_ret; [cbn; tauto|].
    split; reflexivity.
Qed.
Lemma place_one p q c : of_rule "sct_coordinate" (kids_of p) = [q] -> reads_coord q c -> reads_place p c.
Proof. intros. exists q. auto. Qed.
Ltac known p := destruct p as [?n ?s ?k]; cbn [rule_of kids_of text_of] in *; subst.
Ltac place t H := exists t; split; [cbn [kids_of app]; pick; reflexivity | exact H].
Ltac fld := unfold field, texts; cbn [kids_of app]; pick; reflexivity.
Lemma airport_ok p : born G NonAtomic "aerodrome" p -> verdict (fitted p) (parse_airport p) (reads_airport p).
Proof.
  intros B. pose proof (born_rule _ _ _ _ B) as R. kids B as K. clear B.
  pose proof (coordinate_ok NonAtomic _ ltac:(discriminate) K2) as V. apply born_rule in K2 as R2. bare K0. bare K.
  assert (F : ts1 = [] \/ exists u, ts1 = [T "frequency" u []]).
  { destruct K1 as [->|K1]; [left; reflexivity|]. alts K1; [right|left; exact K1]. bare K1. subst. eauto. }
  clear K1. known p. eapply verdict_iff.
  - instantiate (1 := fitted t0 /\ True).
    assert (E : parse_airport (T "aerodrome" s1 (T "designator" s [] :: ts1 ++ [t0; T "ctr_airspace" s0 []])) = do c <- coordinate t0; Ret (mkSctAp s c s0)).
    { unfold parse_airport. cbn [kids_of]. walk. destruct F as [->|[u ->]]; cbn [app find_pair is_rule rule_of]; unfold is_rule; rewrite R2; reflexivity. }
    rewrite E. vb (coordinate t0); [exact V|]. intros c _ C. vend.
    destruct F as [->|[u ->]]; cbn [app]; (split; [fld | split; [place t0 C | fld]]).
  - destruct F as [->|[u ->]]; conds.
Qed.
Lemma fix_ok p : born G NonAtomic "fix" p -> verdict (fitted p) (parse_fix p) (fun o => exists x, o = Some x /\ reads_fix p x).
Proof.
  intros B. pose proof (born_rule _ _ _ _ B) as R. kids B as K. clear B.
  pose proof (coordinate_ok NonAtomic _ ltac:(discriminate) K) as V. apply born_rule in K as R2. bare K0. known p. eapply verdict_iff.
  - unfold parse_fix. cbn [kids_of is_rule rule_of]. change (is_rule _ "fix") with true. walk. vb (coordinate t0); [exact V|]. intros c _ C. vend.
    eexists. split; [reflexivity|]. split; [fld | place t0 C].
  - conds.
Qed.
Lemma nav_ok p : born G NonAtomic "location" p -> verdict (fitted p) (parse_nav p) (reads_nav p).
Proof.
  intros B. pose proof (born_rule _ _ _ _ B) as R. kids B as K. clear B.
  pose proof (coordinate_ok NonAtomic _ ltac:(discriminate) K) as V. apply born_rule in K as R2. bare K0. bare K1. known p. eapply verdict_iff.
  - unfold parse_nav. cbn [kids_of]. walk. vb (coordinate t1); [exact V|]. intros c _ C. vend.
    split; [fld | split; [fld | place t1 C]].
  - conds.
Qed.
Lemma ndb_ok p : born G NonAtomic "location" p -> verdict (fitted p) (parse_ndb p) (fun o => exists x, o = Some x /\ reads_nav p x).
Proof.
  intros B. pose proof (nav_ok p B) as V. apply born_rule in B. unfold parse_ndb, is_rule. rewrite B. cbn. eapply verdict_iff.
  - vb (parse_nav p); [exact V|]. intros x _ X. vend. eauto.
  - tauto.
Qed.
Lemma airway_ok p : born G NonAtomic "airway" p -> verdict (fitted p) (parse_airway p) (fun o => exists x, o = Some x /\ reads_airway p x).
Proof.
  intros B. pose proof (born_rule _ _ _ _ B) as R. kids B as K. clear B.
  apply location_ok in K1. destruct K1 as [a [-> [A1 [RA VA]]]]. apply location_ok in K. destruct K as [b [-> [B1 [RB VB]]]]. bare K0. known p. eapply verdict_iff.
  - unfold parse_airway. cbn [kids_of app]. walk. vb (parse_location a); [exact VA|]. intros x _ X. vb (parse_location b); [exact VB|]. intros y _ Y. vend.
    eexists. split; [reflexivity|]. split.
    + unfold field, texts. cbn [kids_of]. rewrite of_rule_hit by reflexivity. rewrite 2 of_rule_miss by (first [destruct RA as [->| ->] | destruct RB as [->| ->]]; discriminate). reflexivity.
    + exists a, b. unfold locations_of. cbn [kids_of filter]. rewrite A1, B1. auto.
  - conds.
Qed.
Lemma coords_ok l : Forall (born G NonAtomic "sct_coordinate") l -> verdict (fitted_all l) (omap coordinate l) (Forall2 reads_coord l).
Proof.
  induction 1 as [|p l B _ IH]; [apply verdict_ret; [exact I | constructor]|]. cbn [omap fitted_all]. eapply verdict_iff.
  - vb (coordinate p); [exact (coordinate_ok NonAtomic _ ltac:(discriminate) B)|]. intros c _ C. vb (omap coordinate l); [exact IH|]. intros cs _ CS. vend. constructor; assumption.
  - tauto.
Qed.
Lemma of_rule_all n l : Forall (born G NonAtomic n) l -> of_rule n l = l.
Proof. induction 1 as [|p l B _ IH]; [reflexivity|]. rewrite of_rule_hit by exact (born_rule _ _ _ _ B). rewrite IH. reflexivity. Qed.
Lemma of_rule_none n m l : Forall (born G NonAtomic n) l -> n <> m -> of_rule m l = [].
Proof. intros F N. induction F as [|p l B _ IH]; [reflexivity|]. rewrite of_rule_miss by (rewrite (born_rule _ _ _ _ B); exact N). exact IH. Qed.
Lemma star_of n ts : leaf G 5 NonAtomic (&"NL") = true -> leaf G 5 NonAtomic (&n) = false -> shape G 6 NonAtomic (Peg.Star (&"NL" ~~ &n)) ts ->
  (forall u, shape G 6 NonAtomic (&n) u -> exists t, u = [t] /\ born G NonAtomic n t) -> Forall (born G NonAtomic n) ts.
Proof.
  intros L0 L S H. apply shape_star in S.
  - destruct S as [l [-> F]]. apply Forall_flat. eapply Forall_impl; [|exact F]. intros u U. right. apply H.
    unfold Seq in U. rewrite !shape_Then in U. change (leaf G 5 NonAtomic Skip) with true in U. rewrite L0, L in U.
    change (leaf G 5 NonAtomic (Then Skip (& n))) with (leaf G 5 NonAtomic (& n)) in U. rewrite L in U. exact U.
  - unfold Seq. change (leaf G 5 NonAtomic (Then & "NL" (Then Skip & n))) with (leaf G 5 NonAtomic (&"NL") && (true && leaf G 5 NonAtomic (&n))). rewrite L, andb_false_r. reflexivity.
Qed.
Lemma region_ok p : born G NonAtomic "region" p -> verdict (fitted p) (parse_region p) (reads_region p).
Proof.
  intros B. pose proof (born_rule _ _ _ _ B) as R. kids B as K. clear B.
  apply (star_of "sct_coordinate") in K; [|reflexivity|reflexivity|intros u U; shp U; eauto].
  bare K0. bare K1. assert (F : Forall (born G NonAtomic "sct_coordinate") (t1 :: ts4)) by (constructor; assumption). clear K2 K. known p. eapply verdict_iff.
  - unfold parse_region. cbn [kids_of]. walk. vb (omap coordinate (t1 :: ts4)); [exact (coords_ok _ F)|]. intros c _ C. vend.
    split; [unfold field, texts; cbn [kids_of]; rewrite of_rule_hit, of_rule_miss by (reflexivity || discriminate); rewrite (of_rule_none _ _ _ F) by discriminate; reflexivity|].
    split; [unfold field, texts; cbn [kids_of]; rewrite of_rule_miss, of_rule_hit by (reflexivity || discriminate); rewrite (of_rule_none _ _ _ F) by discriminate; reflexivity|].
    cbn [kids_of]. rewrite 2 of_rule_miss by discriminate. rewrite (of_rule_all _ _ F). exact C.
  - rewrite fitted_T. cbn [fitted_all]. cbn [fitted fit1 String.eqb Ascii.eqb Bool.eqb]. tauto.
Qed.
Lemma label_ok p : born G NonAtomic "label" p -> verdict (fitted p) (parse_label p) (reads_label p).
Proof.
  intros B. pose proof (born_rule _ _ _ _ B) as R. kids B as K. clear B. sil K0. bare K0. subst. bare K.
  pose proof (coordinate_ok NonAtomic _ ltac:(discriminate) K1) as V. apply born_rule in K1 as R2. known p. eapply verdict_iff.
  - assert (E : parse_label (T "label" s1 ([T "quote_delimited_text" s []] ++ [t; T "colour_name" s0 []])) = do c <- coordinate t; Ret (mkSctLabel s (LCoord c) s0)).
    { unfold parse_label, parse_location, is_rule. cbn [kids_of app next obind]. rewrite R2. cbn. destruct (coordinate t); reflexivity. }
    rewrite E. vb (coordinate t); [exact V|]. intros c _ C. vend.
    split; [fld|]. split; [exists c; split; [reflexivity | place t C] | fld].
  - conds.
Qed.
Lemma line_ok p : born G NonAtomic "coloured_line" p -> verdict (fitted p) (parse_line p) (reads_line p).
Proof.
  intros B. pose proof (born_rule _ _ _ _ B) as R. kids B as K. clear B.
  apply location_ok in K0. destruct K0 as [a [-> [A1 [RA VA]]]]. apply location_ok in K1. destruct K1 as [b [-> [B1 [RB VB]]]].
  assert (F : exists o, ts2 = match o with Some c => [T "colour_name" c []] | None => [] end).
  { destruct K as [->|K]; [exists None; reflexivity|]. shp K. bare K. subst. exists (Some s). reflexivity. }
  destruct F as [o ->]. clear K. known p. eapply verdict_iff.
  - unfold parse_line. cbn [kids_of app]. walk. vb (parse_location a); [exact VA|]. intros x _ X. vb (parse_location b); [exact VB|]. intros y _ Y. vend.
    split.
    + exists a, b. unfold locations_of. cbn [kids_of filter]. rewrite A1, B1. split; [destruct o; reflexivity|]. split; [exact X | exact Y].
    + unfold texts. cbn [kids_of fst snd]. rewrite 2 of_rule_miss by (first [destruct RA as [->| ->] | destruct RB as [->| ->]]; discriminate). destruct o; reflexivity.
  - destruct o; conds.
Qed.
Lemma groups_ok l : Forall (born G NonAtomic "coloured_line") l -> forall acc,
  verdict (fitted_all l) (ofold (fun acc pair => do x <- parse_line pair; Ret (push_entry acc x)) l acc)
    (fun gs => exists xs, Forall2 reads_line l xs /\ gs = fold_left push_entry xs acc).
Proof.
  induction 1 as [|p l B _ IH]; intros acc; [apply verdict_ret; [exact I | exists []; split; [constructor | reflexivity]]|]. cbn [ofold fitted_all].
  assert (V : verdict (fitted p) (do x <- parse_line p; Ret (push_entry acc x)) (fun g => exists x, reads_line p x /\ g = push_entry acc x)).
  { eapply verdict_iff; [vb (parse_line p); [exact (line_ok _ B)|]; intros x _ X; vend; eauto | tauto]. }
  eapply verdict_bind; [exact V|]. intros g _ [x [X ->]]. eapply verdict_mono; [apply IH|]. intros gs _ [xs [F ->]]. exists (x :: xs). split; [constructor; assumption | reflexivity].
Qed.
Lemma drawing_ok p : born G NonAtomic "coloured_lines" p -> verdict (fitted p) (parse_drawing p) (reads_drawing p).
Proof.
  intros B. pose proof (born_rule _ _ _ _ B) as R. kids B as K. clear B.
  apply (star_of "coloured_line") in K; [|reflexivity|reflexivity|intros u U; shp U; eauto].
  assert (F : Forall (born G NonAtomic "coloured_line") (t0 :: ts2)) by (constructor; assumption). clear K1 K. bare K0. known p. eapply verdict_iff.
  - unfold parse_drawing. cbn [kids_of]. walk. vb (parse_line_groups (t0 :: ts2)); [exact (groups_ok _ F [])|]. intros gs _ [xs [X ->]]. vend.
    split; [unfold field, texts; cbn [kids_of]; rewrite of_rule_hit by reflexivity; rewrite (of_rule_none _ _ _ F) by discriminate; reflexivity|].
    exists xs. cbn [kids_of]. rewrite of_rule_miss by discriminate. rewrite (of_rule_all _ _ F). split; [exact X | reflexivity].
  - rewrite fitted_T. cbn [fitted_all]. cbn [fitted fit1 String.eqb Ascii.eqb Bool.eqb]. tauto.
Qed.
Lemma runway_ok p : born G NonAtomic "runway" p -> verdict (fitted p) (parse_runway p) (reads_runway p).
Proof.
  intros B. pose proof (born_rule _ _ _ _ B) as R. kids B as K. clear B.
  pose proof (coordinate_ok NonAtomic _ ltac:(discriminate) K4) as V1. apply born_rule in K4 as R1.
  pose proof (coordinate_ok NonAtomic _ ltac:(discriminate) K5) as V2. apply born_rule in K5 as R2.
  bare K0. bare K1. bare K2. bare K3. bare K. known p. eapply verdict_iff.
  - unfold parse_runway. cbn [kids_of next obind text_of]. vb (unwrap (parse_u32 s1)); [apply verdict_unwrap|]. intros h1 _ H1.
    vb (unwrap (parse_u32 s2)); [apply verdict_unwrap|]. intros h2 _ H2. vb (coordinate t3); [exact V1|]. intros c1 _ C1. vb (coordinate t4); [exact V2|]. intros c2 _ C2. vend.
    split; [unfold texts; cbn [kids_of]; pick; reflexivity|].
    split; [exists s1, s2; split; [unfold texts; cbn [kids_of]; pick; reflexivity | split; [exact H1 | exact H2]]|].
    split; [exists t3, t4; split; [cbn [kids_of]; pick; reflexivity | split; [exact C1 | exact C2]] | fld].
  - rewrite fitted_T. unfold fit1. cbn [fitted_all each String.eqb Ascii.eqb Bool.eqb rule_of text_of]. rewrite R1, R2. cbn. tauto.
Qed.

(** ** colours *)
Definition reads_def (p : tree) (o : option (text * colour)) : Prop :=
  exists n s z, field "colour_name" p n /\ field "pos_integer" p s /\ parse_i32 s = Some z /\ o = match Colours.from_euroscope z with Some c => Some (n, c) | None => None end.
Definition store1 (o : option (text * colour)) (m : list (text * colour)) : list (text * colour) := match o with Some (n, c) => put n c m | None => m end.
Inductive stores : list tree -> list (text * colour) -> list (text * colour) -> Prop :=
| stores_nil m : stores [] m m
| stores_cons p ps o m m' : reads_def p o -> stores ps (store1 o m) m' -> stores (p :: ps) m m'.
Lemma stores_app a b m m1 m2 : stores a m m1 -> stores b m1 m2 -> stores (a ++ b) m m2.
Proof. induction 1; [auto|]. intros Y. cbn [app]. econstructor; eauto. Qed.
Lemma colour_ok p m : born G NonAtomic "colour_definition" p -> verdict (fitted p) (store_colour m p) (fun m' => stores [p] m m').
Proof.
  intros B. pose proof (born_rule _ _ _ _ B) as R. kids B as K. clear B. bare K0. bare K. known p. eapply verdict_iff.
  - unfold store_colour, parse_colour_definition. cbn [kids_of next obind text_of].
    assert (E : (do d <- (do n <- unwrap (parse_i32 s0); Ret match Colours.from_euroscope n with Some c => Some (s, c) | None => None end);
                 Ret match d with Some (n, c) => put n c m | None => m end) =
                do n <- unwrap (parse_i32 s0); Ret (store1 match Colours.from_euroscope n with Some c => Some (s, c) | None => None end m)).
    { destruct (parse_i32 s0); reflexivity. }
    rewrite E. vb (unwrap (parse_i32 s0)); [apply verdict_unwrap|]. intros z _ Z. vend.
    econstructor; [|constructor]. exists s, s0, z. split; [fld|]. split; [fld|]. split; [exact Z | reflexivity].
  - cbn. tauto.
Qed.
Lemma entries_ok {A} (f : tree -> outcome (option A)) sel (R : tree -> A -> Prop) ts :
  sel <> "colour_definition" ->
  Forall (fun p => born G NonAtomic "colour_definition" p \/ rule_of p <> "colour_definition" /\
    verdict (fitted p) (f p) (fun o => match o with Some x => rule_of p = sel /\ R p x | None => rule_of p <> sel end)) ts ->
  forall m, verdict (fitted_all ts) (entries f ts m) (fun r => Forall2 R (of_rule sel ts) (fst r) /\ stores (of_rule "colour_definition" ts) m (snd r)).
Proof.
  intros N F. induction F as [|p ts H _ IH]; intros m; [apply verdict_ret; [exact I | split; constructor]|]. cbn [entries fitted_all]. destruct H as [B|[C V]].
  - pose proof (born_rule _ _ _ _ B) as E. unfold is_rule. rewrite E. change (eqb "colour_definition" "colour_definition") with true. cbv iota.
    eapply verdict_bind; [exact (colour_ok p m B)|]. intros m1 _ S1. eapply verdict_mono; [apply IH|]. intros [l m2] _ [F2 S2]. cbn [fst snd] in *.
    rewrite of_rule_miss by congruence. rewrite of_rule_hit by exact E. split; [exact F2 | exact (stores_app [p] _ _ _ _ S1 S2)].
  - unfold is_rule. destruct (eqb (rule_of p) "colour_definition") eqn:E; [rewrite eqb_true in E; contradiction|]. clear E.
    eapply verdict_bind; [exact V|]. intros o _ HO. eapply verdict_iff; [eapply (verdict_bind _ True); [apply IH|]|tauto]. intros [l m2] _ [F2 S2]. cbn [fst snd] in *. vend. cbn [fst snd].
    rewrite (of_rule_miss "colour_definition") by exact C. split; [|exact S2]. destruct o as [x|].
    + destruct HO as [E X]. rewrite of_rule_hit by exact E. constructor; assumption.
    + rewrite of_rule_miss by exact HO. exact F2.
Qed.
Lemma fitted_all_app a b : fitted_all (a ++ b) <-> fitted_all a /\ fitted_all b.
Proof. induction a as [|t a IH]; cbn [app fitted_all]; tauto. Qed.
Lemma info_colours cs : Forall (born G NonAtomic "colour_definition") cs -> forall ts info i y m (Q : Prop) R,
  (forall m1, stores cs m m1 -> verdict Q (info_lines ts info i y m1) R) -> verdict (fitted_all cs /\ Q) (info_lines (cs ++ ts) info i y m) R.
Proof.
  induction 1 as [|p cs B _ IH]; intros ts info i y m Q R H; cbn [app info_lines fitted_all].
  - eapply verdict_iff; [apply H; constructor | tauto].
  - unfold is_rule. rewrite (born_rule _ _ _ _ B). change (eqb "colour_definition" "colour_definition") with true. cbv iota. eapply verdict_iff.
    + eapply verdict_bind; [exact (colour_ok p m B)|]. intros m1 _ S1. apply (IH ts info i y m1 Q R). intros m2 S2. apply H. exact (stores_app [p] _ _ _ _ S1 S2).
    + tauto.
Qed.
Lemma info_plain p ts info i y m info' y' : rule_of p <> "colour_definition" -> info_line info i y p = Ret (info', y') ->
  info_lines (p :: ts) info i y m = info_lines ts info' (S i) y' m.
Proof.
  intros N E. cbn [info_lines]. unfold is_rule. destruct (eqb (rule_of p) "colour_definition") eqn:D; [rewrite eqb_true in D; contradiction|].
  rewrite E. reflexivity.
Qed.
Lemma info_part p ts info i y m (P Q : Prop) (V : deg_min_sec -> Prop) g R : rule_of p <> "colour_definition" ->
  verdict P (coord_part p) V -> info_line info i y p = (do z <- coord_part p; Ret (g z)) ->
  (forall z, V z -> verdict Q (info_lines ts (fst (g z)) (S i) (snd (g z)) m) R) ->
  verdict (P /\ Q) (info_lines (p :: ts) info i y m) R.
Proof.
  intros N V0 E H. cbn [info_lines]. unfold is_rule. destruct (eqb (rule_of p) "colour_definition") eqn:D; [rewrite eqb_true in D; contradiction|].
  rewrite E. destruct V0 as [[A [z [-> Z]]]|[A ->]]; cbn [obind].
  - specialize (H z Z). destruct (g z) as [info' y']. cbn [fst snd] in H. destruct H as [[B H]|[B H]]; [left | right]; split; tauto.
  - right. split; [tauto | reflexivity].
Qed.
Lemma info_decimal p a : a <> Atomic -> born G a "decimal" p -> exists x s, p = T "decimal" s [] /\ parse_f64 s = Some x.
Proof.
  intros A B. pose proof B as B'. bare B'. destruct (born_yes G eq_refl _ _ _ B _ _ eq_refl ltac:(discriminate) A) as [r Y].
  cbn [text_of] in Y. apply numeral_yes in Y. destruct (numeral_f64 s (proj1 Y)) as [x X]. eauto.
Qed.
Lemma info_ok p m : born G NonAtomic "info_section" p -> verdict (fitted p) (parse_info_section p m) (fun r => reads_info p (fst r) /\ stores (of_rule "colour_definition" (kids_of p)) m (snd r)).
Proof.
  intros B. pose proof (born_rule _ _ _ _ B) as R. kids B as K. clear B.
  apply (star_of "colour_definition") in K0; [|reflexivity|reflexivity|intros u U; shp U; eauto].
  apply (star_of "colour_definition") in K; [|reflexivity|reflexivity|intros u U; shp U; eauto].
  pose proof (coord_part_ok NonAtomic _ ltac:(discriminate) K4) as V1. apply born_rule in K4 as R1.
  pose proof (coord_part_ok NonAtomic _ ltac:(discriminate) K5) as V2. apply born_rule in K5 as R2.
  destruct (info_decimal _ NonAtomic ltac:(discriminate) K6) as [x1 [d1 [-> D1]]].
  destruct (info_decimal _ NonAtomic ltac:(discriminate) K7) as [x2 [d2 [-> D2]]].
  destruct (info_decimal _ NonAtomic ltac:(discriminate) K8) as [x3 [d3 [-> D3]]].
  assert (F : exists o, ts17 = match o with Some (d, _) => [T "decimal" d []] | None => [] end /\ forall d x, o = Some (d, x) -> parse_f64 d = Some x).
  { destruct K9 as [->|K9]; [exists None; split; [reflexivity | discriminate]|]. shp K9. subst.
    destruct (info_decimal _ NonAtomic ltac:(discriminate) K9) as [x4 [d4 [-> D4]]]. exists (Some (d4, x4)). split; [reflexivity|]. intros d x E4. injection E4 as <- <-. exact D4. }
  destruct F as [o [-> O]]. clear K9 K6 K7 K8. bare K1. bare K2. bare K3. known p.
  assert (V : verdict (fitted_all ts /\ fitted t2 /\ fitted t3 /\ fitted_all ts18) (parse_info_section (T "info_section" s2 (ts ++ T "sector_name" s [] :: T "sector_callsign" s0 [] :: T "designator" s1 [] :: t2 :: t3
     :: T "decimal" d1 [] :: T "decimal" d2 [] :: T "decimal" d3 [] :: match o with Some (d, _) => [T "decimal" d []] | None => [] end ++ ts18)) m)
     (fun r => (exists y x, reads_part t2 y /\ reads_part t3 x /\ fst r = mkSctInfo s s0 s1 (from_deg_min_sec y x) x1 x2 x3 match o with Some (_, x) => x | None => S754_zero false end) /\
        stores (ts ++ ts18) m (snd r))).
  { unfold parse_info_section. cbn [kids_of]. apply info_colours; [exact K0|]. intros m1 S1.
    unfold info_default.
    do 3 (erewrite info_plain; [|discriminate|reflexivity]). cbn [text_of].
    eapply info_part; [congruence | exact V1 | instantiate (1 := fun z => (_, z)); reflexivity |]. intros y Y. cbn [fst snd].
    eapply info_part; [congruence | exact V2 | instantiate (1 := fun z => (mkSctInfo s s0 s1 (from_deg_min_sec y z) (S754_zero false) (S754_zero false) (S754_zero false) (S754_zero false), y)); reflexivity |]. intros x X. cbn [fst snd].
    erewrite info_plain; [|discriminate|cbn [info_line text_of]; rewrite D1; reflexivity].
    erewrite info_plain; [|discriminate|cbn [info_line text_of]; rewrite D2; reflexivity].
    erewrite info_plain; [|discriminate|cbn [info_line text_of]; rewrite D3; reflexivity].
    assert (E : info_lines (match o with Some (d, _) => [T "decimal" d []] | None => [] end ++ ts18) (mkSctInfo s s0 s1 (from_deg_min_sec y x) x1 x2 x3 (S754_zero false)) 8 y m1 =
                info_lines ts18 (mkSctInfo s s0 s1 (from_deg_min_sec y x) x1 x2 x3 match o with Some (_, x) => x | None => S754_zero false end) (match o with Some _ => 9 | None => 8 end) y m1).
    { destruct o as [[d x4]|]; [|reflexivity]. cbn [app]. erewrite info_plain; [reflexivity|discriminate|cbn [info_line text_of]; rewrite (O d x4 eq_refl); reflexivity]. }
    rewrite E. rewrite <- (app_nil_r ts18) at 2. eapply verdict_iff; [apply (info_colours ts18 K [] _ _ _ m1 True)|tauto].
    intros m2 S2. apply verdict_ret; [exact I|]. cbn [fst snd]. split; [exists y, x; tauto | exact (stores_app _ _ _ _ _ S1 S2)]. }
  assert (W : forall n, of_rule n (ts ++ T "sector_name" s [] :: T "sector_callsign" s0 [] :: T "designator" s1 [] :: t2 :: t3
     :: T "decimal" d1 [] :: T "decimal" d2 [] :: T "decimal" d3 [] :: match o with Some (d, _) => [T "decimal" d []] | None => [] end ++ ts18) =
     of_rule n ts ++ of_rule n (T "sector_name" s [] :: T "sector_callsign" s0 [] :: T "designator" s1 [] :: t2 :: t3
     :: T "decimal" d1 [] :: T "decimal" d2 [] :: T "decimal" d3 [] :: match o with Some (d, _) => [T "decimal" d []] | None => [] end) ++ of_rule n ts18).
  { intros n. rewrite of_rule_app. f_equal. rewrite <- of_rule_app. reflexivity. }
  assert (W0 : forall n, "colour_definition" <> n -> of_rule n (ts ++ T "sector_name" s [] :: T "sector_callsign" s0 [] :: T "designator" s1 [] :: t2 :: t3
     :: T "decimal" d1 [] :: T "decimal" d2 [] :: T "decimal" d3 [] :: match o with Some (d, _) => [T "decimal" d []] | None => [] end ++ ts18) =
     of_rule n (T "sector_name" s [] :: T "sector_callsign" s0 [] :: T "designator" s1 [] :: t2 :: t3
     :: T "decimal" d1 [] :: T "decimal" d2 [] :: T "decimal" d3 [] :: match o with Some (d, _) => [T "decimal" d []] | None => [] end)).
  { intros n N. rewrite W, (of_rule_none _ _ _ K0 N), (of_rule_none _ _ _ K N). apply app_nil_r. }
  eapply verdict_iff; [eapply verdict_mono; [exact V|]|].
  - intros [info m'] _ [[y [x [Y [X E]]]] S]. cbn [fst snd] in *. subst info. split.
    + unfold reads_info, reads_coord, field, texts. cbn [kids_of in_name in_callsign in_airport in_centre in_mi_lat in_mi_lng in_magvar in_scale]. rewrite (W0 "sector_name"), (W0 "sector_callsign"), (W0 "designator"), (W0 "sct_coord_part"), (W0 "decimal") by discriminate.
      destruct o as [[d x4]|]; pick; cbn [map text_of].
      * repeat (split; [reflexivity|]). split; [exists t2, t3, y, x; repeat split; assumption|]. exists d1, d2, d3, d.
        repeat (split; [assumption|]). left. split; [reflexivity | exact (O d x4 eq_refl)].
      * repeat (split; [reflexivity|]). split; [exists t2, t3, y, x; repeat split; assumption|]. exists d1, d2, d3, [].
        repeat (split; [assumption|]). right. split; reflexivity.
    + cbn [kids_of]. rewrite W.
      assert (W1 : of_rule "colour_definition" (T "sector_name" s [] :: T "sector_callsign" s0 [] :: T "designator" s1 [] :: t2 :: t3
     :: T "decimal" d1 [] :: T "decimal" d2 [] :: T "decimal" d3 [] :: match o with Some (d, _) => [T "decimal" d []] | None => [] end) = []).
      { destruct o as [[d x4]|]; pick; reflexivity. }
      rewrite W1. cbn [app]. rewrite (of_rule_all _ _ K0), (of_rule_all _ _ K). exact S.
  - rewrite fitted_T. rewrite fitted_all_app. cbn [fitted_all]. rewrite fitted_all_app.
    destruct o as [[d x4]|]; cbn [fitted_all fitted fit1 String.eqb Ascii.eqb Bool.eqb]; tauto.
Qed.
(** ** sections *)
Definition rule_name (n : section_name) : string :=
  match n with
  | SnInfo => "info_section"
  | SnAirport => "airport_section"
  | SnHighAirway => "high_airway_section"
  | SnLowAirway => "low_airway_section"
  | SnFixes => "fixes_section"
  | SnNdbs => "ndb_section"
  | SnVors => "vor_section"
  | SnRunways => "runway_section"
  | SnSid => "sid_section"
  | SnStar => "star_section"
  | SnArtccHigh => "artcc_high_section"
  | SnArtcc => "artcc_section"
  | SnArtccLow => "artcc_low_section"
  | SnRegions => "region_section"
  | SnLabels => "labels_section"
  | SnGeo => "geo_section"
  | SnUnsupported => "unsupported_section"
  end.
Definition sec_reads (p : tree) (n : section_name) (s : section) : Prop :=
  match n with
  | SnInfo => exists x, s = SecInfo x /\ reads_info p x
  | SnAirport => exists x, s = SecAirport x /\ Forall2 reads_airport (of_rule "aerodrome" (kids_of p)) x
  | SnHighAirway => exists x, s = SecHighAirways x /\ Forall2 reads_airway (of_rule "airway" (kids_of p)) x
  | SnLowAirway => exists x, s = SecLowAirways x /\ Forall2 reads_airway (of_rule "airway" (kids_of p)) x
  | SnFixes => exists x, s = SecFixes x /\ Forall2 reads_fix (of_rule "fix" (kids_of p)) x
  | SnNdbs => exists x, s = SecNdbs x /\ Forall2 reads_nav (of_rule "location" (kids_of p)) x
  | SnVors => exists x, s = SecVors x /\ Forall2 reads_nav (of_rule "location" (kids_of p)) x
  | SnRunways => exists x, s = SecRunways x /\ Forall2 reads_runway (of_rule "runway" (kids_of p)) x
  | SnSid => exists x, s = SecSid x /\ Forall2 reads_drawing (of_rule "coloured_lines" (kids_of p)) x
  | SnStar => exists x, s = SecStar x /\ Forall2 reads_drawing (of_rule "coloured_lines" (kids_of p)) x
  | SnArtccHigh => exists x, s = SecArtccHigh x /\ Forall2 reads_drawing (of_rule "coloured_lines" (kids_of p)) x
  | SnArtcc => exists x, s = SecArtcc x /\ Forall2 reads_drawing (of_rule "coloured_lines" (kids_of p)) x
  | SnArtccLow => exists x, s = SecArtccLow x /\ Forall2 reads_drawing (of_rule "coloured_lines" (kids_of p)) x
  | SnRegions => exists x, s = SecRegions x /\ Forall2 reads_region (of_rule "region" (kids_of p)) x
  | SnLabels => exists x, s = SecLabels x /\ Forall2 reads_label (of_rule "label" (kids_of p)) x
  | SnGeo => exists x, s = SecGeo x /\ Forall2 reads_drawing (of_rule "coloured_lines" (kids_of p)) x
  | SnUnsupported => True
  end.
Definition sec_result (p : tree) (m : list (text * colour)) (r : section_name * section * list (text * colour)) : Prop :=
  let '(n, s, m') := r in
  (if EqDec_section_name n SnUnsupported then forall n', n' <> SnUnsupported -> rule_of p <> rule_name n' else rule_of p = rule_name n) /\
  sec_reads p n s /\ stores (of_rule "colour_definition" (kids_of p)) m m'.
Lemma fit1_section p n : rule_of p = rule_name n -> fit1 (rule_of p) (text_of p) (kids_of p).
Proof. intros E. unfold fit1. rewrite E. destruct n; cbn; tauto. Qed.
Lemma listed_ok {A} (f : tree -> outcome (option A)) sec n sel (R : tree -> A -> Prop) p m :
  sel <> "colour_definition" -> n <> SnUnsupported -> rule_of p = rule_name n ->
  Forall (fun p => born G NonAtomic "colour_definition" p \/ rule_of p <> "colour_definition" /\
    verdict (fitted p) (f p) (fun o => match o with Some x => rule_of p = sel /\ R p x | None => rule_of p <> sel end)) (kids_of p) ->
  (forall l, Forall2 R (of_rule sel (kids_of p)) l -> sec_reads p n (sec l)) ->
  verdict (fitted p) (listed f sec n p m) (sec_result p m).
Proof.
  intros N U E F H. pose proof (fit1_section p n E) as F1. unfold listed. eapply verdict_iff.
  - eapply (verdict_bind _ True); [apply (entries_ok f sel R _ N F)|]. intros [l m'] _ [F2 S2]. cbn [fst snd] in *. vend.
    unfold sec_result. destruct (EqDec_section_name n SnUnsupported); [contradiction|]. split; [exact E|]. split; [apply H; exact F2 | exact S2].
  - destruct p as [q s k]. rewrite fitted_T. cbn [kids_of rule_of text_of] in *. tauto.
Qed.
Lemma some_ok {A} (f : tree -> outcome A) p sel (R : tree -> A -> Prop) : rule_of p = sel -> verdict (fitted p) (f p) (R p) ->
  verdict (fitted p) (some f p) (fun o => match o with Some x => rule_of p = sel /\ R p x | None => rule_of p <> sel end).
Proof. intros E V. unfold some. eapply verdict_iff; [eapply (verdict_bind _ True); [exact V|]|tauto]. intros x _ X. vend. split; assumption. Qed.
Lemma opt_ok {A} (f : tree -> outcome (option A)) p sel (R : tree -> A -> Prop) : rule_of p = sel -> verdict (fitted p) (f p) (fun o => exists x, o = Some x /\ R p x) ->
  verdict (fitted p) (f p) (fun o => match o with Some x => rule_of p = sel /\ R p x | None => rule_of p <> sel end).
Proof. intros E V. eapply verdict_mono; [exact V|]. intros o _ [x [-> X]]. split; assumption. Qed.
Lemma broken_ok {A} (f : tree -> outcome (option A)) p sel (R : tree -> A -> Prop) : rule_of p <> sel -> fitted p -> f p = Ret None ->
  verdict (fitted p) (f p) (fun o => match o with Some x => rule_of p = sel /\ R p x | None => rule_of p <> sel end).
Proof. intros E F ->. apply verdict_ret; assumption. Qed.
(** the entries of a section *)
Ltac listing B K ok sel R := kids B as K; unfold sct_section in K; cbv iota beta in K; shp K; apply shape_star in K; [|reflexivity];
  let l := fresh "l" in let E := fresh "E" in let F := fresh "F" in destruct K as [l [E F]];
  apply (listed_ok _ _ _ sel R); [discriminate | discriminate | exact (born_rule _ _ _ _ B)
  | rewrite E; apply Forall_flat; eapply Forall_impl; [|exact F]; let u := fresh "u" in let U := fresh "U" in intros u U; right; shp U; alts U; subst u; eexists; (split; [reflexivity|]);
    first [left; exact U | right; let Q := fresh in pose proof (born_rule _ _ _ _ U) as Q; (split; [rewrite Q; discriminate|]);
      first [apply some_ok; [exact Q | exact (ok _ U)] | apply opt_ok; [exact Q | exact (ok _ U)] | bare U; apply broken_ok; [discriminate | cbn; tauto | reflexivity]]]
  | let l := fresh "l" in let H := fresh in intros l H; exists l; (split; [reflexivity | exact H])].
Lemma airport_section_ok p m : born G NonAtomic "airport_section" p -> verdict (fitted p) (parse_section p m) (sec_result p m).
Proof.
  intros B. unfold parse_section, is_rule. rewrite (born_rule _ _ _ _ B). cbn [String.eqb Ascii.eqb Bool.eqb]. listing B K airport_ok "aerodrome" reads_airport.
Qed.
Lemma high_airway_section_ok p m : born G NonAtomic "high_airway_section" p -> verdict (fitted p) (parse_section p m) (sec_result p m).
Proof.
  intros B. unfold parse_section, is_rule. rewrite (born_rule _ _ _ _ B). cbn [String.eqb Ascii.eqb Bool.eqb]. listing B K airway_ok "airway" reads_airway.
Qed.
Lemma low_airway_section_ok p m : born G NonAtomic "low_airway_section" p -> verdict (fitted p) (parse_section p m) (sec_result p m).
Proof.
  intros B. unfold parse_section, is_rule. rewrite (born_rule _ _ _ _ B). cbn [String.eqb Ascii.eqb Bool.eqb]. listing B K airway_ok "airway" reads_airway.
Qed.
Lemma fixes_section_ok p m : born G NonAtomic "fixes_section" p -> verdict (fitted p) (parse_section p m) (sec_result p m).
Proof.
  intros B. unfold parse_section, is_rule. rewrite (born_rule _ _ _ _ B). cbn [String.eqb Ascii.eqb Bool.eqb]. listing B K fix_ok "fix" reads_fix.
Qed.
Lemma ndb_section_ok p m : born G NonAtomic "ndb_section" p -> verdict (fitted p) (parse_section p m) (sec_result p m).
Proof.
  intros B. unfold parse_section, is_rule. rewrite (born_rule _ _ _ _ B). cbn [String.eqb Ascii.eqb Bool.eqb]. listing B K ndb_ok "location" reads_nav.
Qed.
Lemma vor_section_ok p m : born G NonAtomic "vor_section" p -> verdict (fitted p) (parse_section p m) (sec_result p m).
Proof.
  intros B. unfold parse_section, is_rule. rewrite (born_rule _ _ _ _ B). cbn [String.eqb Ascii.eqb Bool.eqb]. listing B K nav_ok "location" reads_nav.
Qed.
Lemma runway_section_ok p m : born G NonAtomic "runway_section" p -> verdict (fitted p) (parse_section p m) (sec_result p m).
Proof.
  intros B. unfold parse_section, is_rule. rewrite (born_rule _ _ _ _ B). cbn [String.eqb Ascii.eqb Bool.eqb]. listing B K runway_ok "runway" reads_runway.
Qed.
Lemma sid_section_ok p m : born G NonAtomic "sid_section" p -> verdict (fitted p) (parse_section p m) (sec_result p m).
Proof.
  intros B. unfold parse_section, is_rule. rewrite (born_rule _ _ _ _ B). cbn [String.eqb Ascii.eqb Bool.eqb]. listing B K drawing_ok "coloured_lines" reads_drawing.
Qed.
Lemma star_section_ok p m : born G NonAtomic "star_section" p -> verdict (fitted p) (parse_section p m) (sec_result p m).
Proof.
  intros B. unfold parse_section, is_rule. rewrite (born_rule _ _ _ _ B). cbn [String.eqb Ascii.eqb Bool.eqb]. listing B K drawing_ok "coloured_lines" reads_drawing.
Qed.
Lemma artcc_high_section_ok p m : born G NonAtomic "artcc_high_section" p -> verdict (fitted p) (parse_section p m) (sec_result p m).
Proof.
  intros B. unfold parse_section, is_rule. rewrite (born_rule _ _ _ _ B). cbn [String.eqb Ascii.eqb Bool.eqb]. listing B K drawing_ok "coloured_lines" reads_drawing.
Qed.
Lemma artcc_section_ok p m : born G NonAtomic "artcc_section" p -> verdict (fitted p) (parse_section p m) (sec_result p m).
Proof.
  intros B. unfold parse_section, is_rule. rewrite (born_rule _ _ _ _ B). cbn [String.eqb Ascii.eqb Bool.eqb]. listing B K drawing_ok "coloured_lines" reads_drawing.
Qed.
Lemma artcc_low_section_ok p m : born G NonAtomic "artcc_low_section" p -> verdict (fitted p) (parse_section p m) (sec_result p m).
Proof.
  intros B. unfold parse_section, is_rule. rewrite (born_rule _ _ _ _ B). cbn [String.eqb Ascii.eqb Bool.eqb]. listing B K drawing_ok "coloured_lines" reads_drawing.
Qed.
Lemma region_section_ok p m : born G NonAtomic "region_section" p -> verdict (fitted p) (parse_section p m) (sec_result p m).
Proof.
  intros B. unfold parse_section, is_rule. rewrite (born_rule _ _ _ _ B). cbn [String.eqb Ascii.eqb Bool.eqb]. listing B K region_ok "region" reads_region.
Qed.
Lemma labels_section_ok p m : born G NonAtomic "labels_section" p -> verdict (fitted p) (parse_section p m) (sec_result p m).
Proof.
  intros B. unfold parse_section, is_rule. rewrite (born_rule _ _ _ _ B). cbn [String.eqb Ascii.eqb Bool.eqb]. listing B K label_ok "label" reads_label.
Qed.
Lemma geo_section_ok p m : born G NonAtomic "geo_section" p -> verdict (fitted p) (parse_section p m) (sec_result p m).
Proof.
  intros B. unfold parse_section, is_rule. rewrite (born_rule _ _ _ _ B). cbn [String.eqb Ascii.eqb Bool.eqb]. listing B K drawing_ok "coloured_lines" reads_drawing.
Qed.
Lemma info_section_ok p m : born G NonAtomic "info_section" p -> verdict (fitted p) (parse_section p m) (sec_result p m).
Proof.
  intros B. unfold parse_section, is_rule. rewrite (born_rule _ _ _ _ B). cbn [String.eqb Ascii.eqb Bool.eqb]. eapply verdict_iff.
  - eapply (verdict_bind _ True); [exact (info_ok p m B)|]. intros [i m'] _ [F2 S2]. cbn [fst snd] in *. vend.
    split; [exact (born_rule _ _ _ _ B)|]. split; [exists i; split; [reflexivity | exact F2] | exact S2].
  - tauto.
Qed.
Lemma eoi_ok m : verdict (fitted (T "EOI" [] [])) (parse_section (T "EOI" [] []) m) (sec_result (T "EOI" [] []) m).
Proof.
  apply verdict_ret; [cbn; tauto|]. split; [|split; [exact I | constructor]]. intros n N E. destruct n; discriminate E.
Qed.
Definition part_of_file (p : tree) : Prop :=
  born G NonAtomic "colour_definition" p \/ rule_of p <> "colour_definition" /\ forall m, verdict (fitted p) (parse_section p m) (sec_result p m).
Lemma section_kind u : shape G 6 NonAtomic (&"section") u -> exists p, u = [p] /\ part_of_file p.
Proof.
  intros U. sil U. alts U.
  all: subst u; eexists; (split; [reflexivity|]).
  all: first [left; exact U | right; (split; [rewrite (born_rule _ _ _ _ U); discriminate|]); intros m;
    first [apply info_section_ok; exact U | apply vor_section_ok; exact U | apply ndb_section_ok; exact U | apply fixes_section_ok; exact U | apply airport_section_ok; exact U | apply runway_section_ok; exact U | apply sid_section_ok; exact U | apply star_section_ok; exact U | apply artcc_high_section_ok; exact U | apply artcc_section_ok; exact U | apply artcc_low_section_ok; exact U | apply high_airway_section_ok; exact U | apply low_airway_section_ok; exact U | apply region_section_ok; exact U | apply labels_section_ok; exact U | apply geo_section_ok; exact U]].
Qed.
Lemma sct_kids t kids : parsed G "sct" t kids -> Forall part_of_file kids.
Proof.
  intros P. apply parsed_born in P. kids P as K.
  apply Forall_app. split; [|apply Forall_app; split].
  - destruct K0 as [->|U]; [constructor|]. destruct (section_kind _ U) as [p [-> H]]. constructor; [exact H | constructor].
  - apply shape_star in K1; [|reflexivity]. destruct K1 as [l [-> F]]. apply Forall_flat. eapply Forall_impl; [|exact F]. intros u U. right.
    apply section_kind. shp U. exact U.
  - constructor; [|constructor]. right. split; [discriminate|]. exact eoi_ok.
Qed.
Definition defs_in (p : tree) : list tree := if string_dec (rule_of p) "colour_definition" then [p] else of_rule "colour_definition" (kids_of p).
Definition step_reads (p : tree) (st st' : list (section_name * section) * list (text * colour)) : Prop :=
  stores (defs_in p) (snd st) (snd st') /\
  forall n, n <> SnUnsupported -> if string_dec (rule_of p) (rule_name n) then exists s, get n (fst st') = Some s /\ sec_reads p n s else get n (fst st') = get n (fst st).
Lemma step_ok p st : part_of_file p -> verdict (fitted p) (sct_step st p) (step_reads p st).
Proof.
  destruct st as [secs m]. intros [B|[N V]]; unfold sct_step, is_rule.
  - pose proof (born_rule _ _ _ _ B) as E. rewrite E. cbn [String.eqb Ascii.eqb Bool.eqb]. eapply verdict_iff.
    + eapply (verdict_bind _ True); [exact (colour_ok p m B)|]. intros m' _ S1. vend. split.
      * unfold defs_in. cbn [snd]. destruct (string_dec (rule_of p) "colour_definition"); [exact S1 | contradiction].
      * intros n NU. destruct (string_dec (rule_of p) (rule_name n)) as [X|X]; [|reflexivity]. rewrite E in X. destruct n; discriminate X.
    + tauto.
  - destruct (eqb (rule_of p) "colour_definition") eqn:D; [rewrite eqb_true in D; contradiction|]. eapply verdict_iff.
    + eapply (verdict_bind _ True); [exact (V m)|]. intros [[n s] m'] _ [E [S1 S2]]. vend. split.
      * unfold defs_in. cbn [snd]. destruct (string_dec (rule_of p) "colour_definition"); [contradiction | exact S2].
      * intros n' NU. cbn [fst]. destruct (EqDec_section_name n SnUnsupported) as [->|NN].
        -- destruct (string_dec (rule_of p) (rule_name n')) as [X|X]; [contradiction (E n' NU X)|]. apply get_put_other. congruence.
        -- destruct (string_dec (rule_of p) (rule_name n')) as [X|X].
           ++ assert (n' = n) as -> by (rewrite E in X; destruct n, n'; try discriminate X; congruence). exists s. split; [apply get_put_same | exact S1].
           ++ apply get_put_other. congruence.
    + tauto.
Qed.
Definition inv (done : list tree) (st : list (section_name * section) * list (text * colour)) : Prop :=
  stores (colour_defs done) [] (snd st) /\
  forall n, n <> SnUnsupported -> match last_opt (of_rule (rule_name n) done) with Some p => exists s, get n (fst st) = Some s /\ sec_reads p n s | None => get n (fst st) = None end.
Lemma last_opt_snoc {A} (l : list A) x : last_opt (l ++ [x]) = Some x.
Proof. induction l as [|y l IH]; [reflexivity|]. cbn [app last_opt]. destruct (l ++ [x]) eqn:E; [destruct l; discriminate E | exact IH]. Qed.
Lemma file_ok ts : Forall part_of_file ts -> forall done st, inv done st -> verdict (fitted_all ts) (ofold sct_step ts st) (inv (done ++ ts)).
Proof.
  induction 1 as [|p ts H _ IH]; intros done st I; cbn [fitted_all ofold].
  - rewrite app_nil_r. apply verdict_ret; [exact Logic.I | exact I].
  - eapply verdict_bind; [exact (step_ok p st H)|]. intros st' _ [S1 S2]. replace (done ++ p :: ts) with ((done ++ [p]) ++ ts) by (rewrite <- app_assoc; reflexivity).
    apply IH. destruct I as [I1 I2]. split.
    + unfold colour_defs. rewrite flat_map_app. cbn [flat_map]. rewrite app_nil_r. exact (stores_app _ _ _ _ _ I1 S1).
    + intros n NU. specialize (S2 n NU). rewrite of_rule_app. destruct (string_dec (rule_of p) (rule_name n)) as [X|X].
      * rewrite of_rule_hit by exact X. cbn [of_rule]. rewrite last_opt_snoc. exact S2.
      * rewrite of_rule_miss by exact X. cbn [of_rule]. rewrite app_nil_r, S2. apply I2. exact NU.
Qed.

(** ** the whole file *)
Lemma reads_def_defines p o : reads_def p o -> forall n c, o = Some (n, c) <-> defines p n c.
Proof.
  intros [n0 [s [z [H1 [H2 [H3 ->]]]]]] n c. pose proof (from_euroscope_spec z) as Z. destruct (Colours.from_euroscope z) as [c0|]; split.
  - intros E. injection E as -> ->. split; [exact H1|]. destruct Z as [Z1 [Z2 [Z3 Z4]]]. destruct c as [r g b a]. destruct Z2 as [W1 [W2 [W3 W4]]].
    cbn [cr cg cb ca] in *. exists s, r, g, b. subst a. rewrite Z4. repeat split; try assumption; lia.
  - intros [D1 [s' [r [g [b [D2 [R1 [R2 [R3 [D3 ->]]]]]]]]]]. unfold field in *. rewrite H1 in D1. injection D1 as ->. rewrite H2 in D2. injection D2 as ->.
    rewrite H3 in D3. injection D3 as ->. destruct Z as [Z1 [Z2 [Z3 Z4]]]. f_equal. f_equal. destruct c0 as [r0 g0 b0 a0]. destruct Z2 as [W1 [W2 [W3 W4]]]. cbn [cr cg cb ca] in *.
    destruct (rgb_number_inj r0 g0 b0 r g b W1 W2 W3 ltac:(lia) ltac:(lia) ltac:(lia) Z4) as [-> [-> ->]]. subst. reflexivity.
  - discriminate.
  - intros [D1 [s' [r [g [b [D2 [R1 [R2 [R3 [D3 ->]]]]]]]]]]. exfalso. unfold field in *. rewrite H2 in D2. injection D2 as ->. rewrite H3 in D3. injection D3 as ->.
    apply Z. unfold rgb_number. lia.
Qed.
Lemma stores_last ds m m' : stores ds m m' -> forall n c, get n m' = Some c <-> last_definition ds n c \/ get n m = Some c /\ Forall (fun q => forall c', ~ defines q n c') ds.
Proof.
  induction 1 as [m|p ps o m m' D S IH]; intros n c.
  - split; [intros H; right; split; [exact H | constructor]|]. intros [[b [q [a [E _]]]]|[H _]]; [destruct b; discriminate E | exact H].
  - pose proof (reads_def_defines p o D) as X. rewrite IH. clear IH S. split.
    + intros [[b [q [a [-> [Q F]]]]]|[H F]].
      * left. exists (p :: b), q, a. auto.
      * destruct o as [[n0 c0]|]; cbn [store1] in H.
        -- rewrite get_put in H. destruct (eq_dec n n0) as [->|N].
           ++ injection H as ->. left. exists [], p, ps. split; [reflexivity|]. split; [apply X; reflexivity | exact F].
           ++ right. split; [exact H|]. constructor; [|exact F]. intros c' C'. apply X in C'. congruence.
        -- right. split; [exact H|]. constructor; [|exact F]. intros c' C'. apply X in C'. discriminate.
    + intros [[b [q [a [E [Q F]]]]]|[H F]].
      * destruct b as [|p' b]; injection E as -> ->.
        -- right. split; [|exact F]. apply X in Q. subst o. apply get_put_same.
        -- left. exists b, q, a. auto.
      * apply Forall_cons_iff in F. destruct F as [F1 F]. right. split; [|exact F]. destruct o as [[n0 c0]|]; [|exact H]. cbn [store1].
        rewrite get_put_other; [exact H|]. intros ->. apply (F1 c0). apply X. reflexivity.
Qed.
Lemma taken_ok {A} secs m kids n (f : section -> option (list A)) (R : tree -> A -> Prop) sel :
  inv kids (secs, m) -> n <> SnUnsupported -> (forall p s, sec_reads p n s -> exists l, f s = Some l /\ Forall2 R (of_rule sel (kids_of p)) l) ->
  Forall2 R (entries_of (rule_name n) sel kids) (taken n f [] secs).
Proof.
  intros [_ I] N H. specialize (I n N). unfold entries_of, taken. cbn [fst] in I. destruct (last_opt (of_rule (rule_name n) kids)) as [p|].
  - destruct I as [s [-> S]]. destruct (H p s S) as [l [-> F]]. exact F.
  - rewrite I. constructor.
Qed.
Ltac took I := match goal with |- Forall2 ?R (entries_of _ ?sel _) (taken ?n ?f _ _) => apply (taken_ok _ _ _ n f R sel I) end; [discriminate|]; let H := fresh in let l := fresh in intros ? ? [l [-> H]]; exists l; (split; [reflexivity | exact H]).
Definition sct_reads (kids : list tree) (s : sct) : Prop :=
  (match last_opt (of_rule "info_section" kids) with Some p => reads_info p (sc_info s) | None => empty_info (sc_info s) end) /\
  (forall n c, get n (sc_colours s) = Some c <-> last_definition (colour_defs kids) n c) /\
  Forall2 reads_airport (entries_of "airport_section" "aerodrome" kids) (sc_airports s) /\
  Forall2 reads_fix (entries_of "fixes_section" "fix" kids) (sc_fixes s) /\
  Forall2 reads_nav (entries_of "ndb_section" "location" kids) (sc_ndbs s) /\
  Forall2 reads_nav (entries_of "vor_section" "location" kids) (sc_vors s) /\
  Forall2 reads_runway (entries_of "runway_section" "runway" kids) (sc_runways s) /\
  Forall2 reads_drawing (entries_of "sid_section" "coloured_lines" kids) (sc_sids s) /\
  Forall2 reads_drawing (entries_of "star_section" "coloured_lines" kids) (sc_stars s) /\
  Forall2 reads_drawing (entries_of "artcc_high_section" "coloured_lines" kids) (sc_artccs_high s) /\
  Forall2 reads_drawing (entries_of "artcc_section" "coloured_lines" kids) (sc_artccs s) /\
  Forall2 reads_drawing (entries_of "artcc_low_section" "coloured_lines" kids) (sc_artccs_low s) /\
  Forall2 reads_airway (entries_of "high_airway_section" "airway" kids) (sc_high_airways s) /\
  Forall2 reads_airway (entries_of "low_airway_section" "airway" kids) (sc_low_airways s) /\
  Forall2 reads_region (entries_of "region_section" "region" kids) (sc_regions s) /\
  Forall2 reads_label (entries_of "labels_section" "label" kids) (sc_labels s) /\
  Forall2 reads_drawing (entries_of "geo_section" "coloured_lines" kids) (sc_geo s).
Lemma sct_file_ok t kids : parsed G "sct" t kids -> verdict (all_fit kids) (parse_sct t) (sct_reads kids).
Proof.
  intros P. destruct (top_cases 0 "sct" G "sct" eq_refl ltac:(eexists; reflexivity) t) as [[kids' [P' E]]|[U _]];
    [|contradiction (parsed_not _ _ _ _ P U)].
  pose proof (parsed_det _ _ _ _ _ P P') as <-. unfold parse_sct. rewrite E. cbn [obind]. eapply verdict_iff.
  - eapply (verdict_bind _ True).
    + apply (file_ok kids (sct_kids t kids P) [] ([], [])). split; [constructor | intros n N; reflexivity].
    + intros [secs m] _ I. cbn [app] in I. vend. unfold sct_reads.
      cbn [sc_info sc_colours sc_airports sc_fixes sc_ndbs sc_vors sc_runways sc_sids sc_stars sc_artccs_high sc_artccs sc_artccs_low sc_high_airways sc_low_airways sc_regions sc_labels sc_geo].
      split; [|split].
      * destruct I as [_ I]. specialize (I SnInfo ltac:(discriminate)). cbn [fst rule_name] in I. unfold taken. destruct (last_opt (of_rule "info_section" kids)) as [p|].
        -- destruct I as [s [-> [x [-> X]]]]. exact X.
        -- rewrite I. reflexivity.
      * intros n c. destruct I as [I _]. cbn [snd] in I. rewrite (stores_last _ _ _ I n c). split; [intros [H|[H _]]; [exact H | discriminate H] | intros H; left; exact H].
      * repeat apply conj.
        all: took I.
  - rewrite all_fit_fitted. tauto.
Qed.
Lemma sct_err t : unparsed G "sct" t -> parse_sct t = Err.
Proof.
  intros U. destruct (top_cases 0 "sct" G "sct" eq_refl ltac:(eexists; reflexivity) t) as [[kids' [P' _]]|[_ E]];
    [contradiction (parsed_not _ _ _ _ P' U)|]. unfold parse_sct. rewrite E. reflexivity.
Qed.
