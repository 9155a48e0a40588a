(** Proofs about designators, SIDs and STARs. *)
From Coq Require Import ZifyBool ZifyN ZifyNat.
From Verif Require Import Base Num NumProofs Float Unicode Locations SpecLocations LocationsProofs.

(** The tables that SIDs and STARs do not touch *)
Definition tables (i : loc_input) (L : locations) : Prop :=
  l_fixes L = l_fixes (base_locations i) /\ l_vors L = l_vors (base_locations i) /\
  l_ndbs L = l_ndbs (base_locations i) /\ l_airports L = l_airports (base_locations i).

Lemma get_airport i L d : input_ok i -> tables i L -> forall o,
  get d (l_airports L) = o <-> airport_entry i d o.
Proof.
  intros OK [_ [_ [_ ->]]] o. cbn [base_locations l_airports]. split.
  - intros <-. apply airport_table_spec, OK.
  - intros H. eapply airport_entry_fun; [apply airport_table_spec, OK | exact H].
Qed.

Lemma find_map_spec {A B} (f : A -> option B) l : match find_map f l with
  | Some y => exists pre x post, l = pre ++ x :: post /\ (forall z, In z pre -> f z = None) /\ f x = Some y
  | None => forall z, In z l -> f z = None
  end.
Proof.
  induction l as [|x l IH]; cbn; [tauto|]. destruct (f x) as [y|] eqn:E.
  - exists [], x, l. cbn. tauto.
  - destruct (find_map f l) as [y|].
    + destruct IH as [pre [z [post [-> [H1 H2]]]]]. exists (x :: pre), z, post. repeat split; auto.
      intros w [<-|I]; auto.
    + intros z [<-|I]; auto.
Qed.

Lemma rwy_end_named rw r : match rwy_end rw r with
  | Some (des, pos) => named rw r /\ des = rw /\ pos = (if eqb (fst (r_des r)) rw then fst (r_loc r) else snd (r_loc r))
  | None => ~ named rw r
  end.
Proof.
  unfold rwy_end, named. destruct (eqb (fst (r_des r)) rw) eqn:E1.
  - rewrite eqb_true in E1. auto.
  - rewrite eqb_false in E1. destruct (eqb (snd (r_des r)) rw) eqn:E2.
    + rewrite eqb_true in E2. auto.
    + rewrite eqb_false in E2. tauto.
Qed.

Lemma convert_rwy_spec i L d : input_ok i -> tables i L -> forall f,
  convert_rwy L d = Some f <-> threshold i d f.
Proof.
  intros OK T f. unfold convert_rwy. split.
  - destruct (Nat.eqb (utf8_len d) 6 || Nat.eqb (utf8_len d) 7) eqn:EL; cbn [negb]; [|discriminate].
    destruct (split_bytes 4 d) as [[ad rw]|] eqn:ES; [|discriminate].
    apply split_bytes_spec in ES. destruct ES as [-> L4].
    destruct (get ad (l_airports L)) as [ap|] eqn:G; [|discriminate].
    apply (get_airport i L ad OK T) in G. intros F.
    pose proof (find_map_spec (fun r => match rwy_end rw r with
       | Some (des, pos) => Some (mkFix (ap_des ap ++ des) pos) | None => None end) (ap_runways ap)) as H.
    rewrite F in H. destruct H as [pre [r [post [E [N S]]]]].
    exists ad, rw, ap, pre, r, post. rewrite utf8_len_app in EL.
    pose proof (rwy_end_named rw r) as R. destruct (rwy_end rw r) as [[des pos]|]; [|discriminate].
    destruct R as [R1 [-> ->]]. injection S as <-.
    split; [reflexivity|]. split; [exact L4|]. split; [lia|]. split; [exact G|]. split; [exact E|].
    split; [|split; [exact R1|]].
    + intros r' I. specialize (N r' I). pose proof (rwy_end_named rw r') as R'.
      destruct (rwy_end rw r') as [[? ?]|]; [discriminate | exact R'].
    + destruct G as [-> _]. reflexivity.
  - intros [ad [rw [ap [pre [r [post [-> [L4 [L23 [G [E [N [R ->]]]]]]]]]]]]].
    rewrite utf8_len_app.
    replace (Nat.eqb (utf8_len ad + utf8_len rw) 6 || Nat.eqb (utf8_len ad + utf8_len rw) 7) with true by lia.
    cbn [negb].
    replace (split_bytes 4 (ad ++ rw)) with (Some (ad, rw)) by (symmetry; apply split_bytes_spec; auto).
    replace (get ad (l_airports L)) with (Some ap) by (symmetry; apply (get_airport i L ad OK T); exact G).
    rewrite E. clear E. induction pre as [|x pre IH]; cbn [app find_map].
    + pose proof (rwy_end_named rw r) as R'. destruct (rwy_end rw r) as [[des pos]|]; [|contradiction].
      destruct R' as [_ [-> ->]]. destruct G as [-> _]. reflexivity.
    + pose proof (rwy_end_named rw x) as R'. destruct (rwy_end rw x) as [[des pos]|].
      * destruct R' as [R' _]. exfalso. apply (N x); [left; reflexivity | exact R'].
      * apply IH. intros r' I. apply N. right. exact I.
Qed.

Lemma convert_fix_spec i L d : input_ok i -> tables i L -> forall o,
  convert_fix L d = o <-> resolves_fix i d o.
Proof.
  intros OK T. pose proof (get_airport i L d OK T) as GA. pose proof (convert_rwy_spec i L d OK T) as RW.
  unfold convert_fix. destruct T as [-> [-> [-> T4]]]. cbn [base_locations l_fixes l_vors l_ndbs].
  rewrite !mget_named.
  pose proof (first_named_eq n_des d (i_vors i)) as NV. pose proof (first_named_eq n_des d (i_ndbs i)) as NN.
  destruct (first_named n_des d (i_vors i)) as [v|] eqn:EV; cbn [option_map opt_or].
  { rewrite (NV v eq_refl). intros o. split; [intros <-; constructor; exact EV|].
    intros H; inversion H; congruence. }
  destruct (first_named n_des d (i_ndbs i)) as [v|] eqn:EN; cbn [option_map opt_or].
  { rewrite (NN v eq_refl). intros o. split; [intros <-; apply rf_ndb; assumption|].
    intros H; inversion H; congruence. }
  destruct (first_named f_des d (i_fixes i)) as [f|] eqn:EF; cbn [option_map opt_or].
  { intros o. split; [intros <-; apply rf_fix; assumption|]. intros H; inversion H; congruence. }
  assert (AU : forall a, airport_entry i d (Some a) -> airport_entry i d None -> False).
  { intros a A B. apply GA in A. apply GA in B. congruence. }
  destruct (get d (l_airports L)) as [a|] eqn:EA; cbn [option_map opt_or].
  { assert (A : airport_entry i d (Some a)) by (apply GA; reflexivity).
    assert (ap_des a = d) as -> by apply A. intros o. split.
    - intros <-. apply rf_airport; assumption.
    - intros H; inversion H; subst; try congruence; try (exfalso; eauto; fail).
      apply GA in H3. congruence. }
  assert (A : airport_entry i d None) by (apply GA; reflexivity).
  destruct (convert_rwy L d) as [f|] eqn:ER.
  - assert (TH : threshold i d f) by (apply RW; reflexivity). intros o. split.
    + intros <-. apply rf_threshold; assumption.
    + intros H; inversion H; subst; try congruence; try (exfalso; eauto; fail).
      1: { apply RW; assumption. } exfalso. match goal with H : forall f, ~ threshold _ _ _ |- _ => exact (H f TH) end.
  - intros o. split.
    + intros <-. apply rf_none; try assumption. intros f TH. apply RW in TH. discriminate.
    + intros H; inversion H; subst; try congruence; try (exfalso; eauto; fail).
      match goal with H : threshold _ _ _ |- _ => apply RW in H; discriminate end.
Qed.

Lemma contains_designator_spec i L d : input_ok i -> tables i L ->
  contains_designator L d = true <-> exists f, resolves_fix i d (Some f).
Proof.
  intros OK T. pose proof (convert_fix_spec i L d OK T) as F.
  assert (E : contains_designator L d = match convert_fix L d with Some _ => true | None => false end).
  { unfold contains_designator, convert_fix. destruct T as [-> [-> [-> _]]].
    cbn [base_locations l_fixes l_vors l_ndbs]. rewrite !has_named, !mget_named. unfold has.
    destruct (first_named n_des d (i_vors i)); [reflexivity|].
    destruct (first_named n_des d (i_ndbs i)); [reflexivity|].
    destruct (first_named f_des d (i_fixes i)); [reflexivity|].
    destruct (get d (l_airports L)); [reflexivity|]. destruct (convert_rwy L d); reflexivity. }
  rewrite E. destruct (convert_fix L d) as [f|] eqn:C.
  - split; [|reflexivity]. intros _. exists f. apply F. reflexivity.
  - split; [discriminate|]. intros [f H]. apply F in H. discriminate.
Qed.

Lemma forallb_Forall {A} (p : A -> bool) (P : A -> Prop) l : (forall x, In x l -> p x = true <-> P x) ->
  forallb p l = true <-> Forall P l.
Proof.
  intros H. rewrite forallb_forall, Forall_forall. split; intros G x I.
  - apply H; auto.
  - apply H; auto.
Qed.

Lemma ascii_nd s : ascii s -> forallb is_nd s = true <-> Forall digit s.
Proof.
  intros A. apply forallb_Forall. intros x I. unfold ascii in A. rewrite Forall_forall in A.
  rewrite is_nd_ascii by auto. apply is_digit_spec.
Qed.

Lemma rb_captures_spec d : ascii d -> forall f b r, rb_captures d = Some (f, b, r) <->
  d = f ++ b ++ r /\ 2 <= List.length f <= 5 /\ Forall (fun c => digit c \/ (65 <= c <= 90)%N) f /\
  List.length b = 3 /\ List.length r = 3 /\ Forall digit b /\ Forall digit r.
Proof.
  intros A f b r. unfold rb_captures. set (n := List.length d).
  assert (SP : d = firstn (n - 6) d ++ firstn 3 (skipn (n - 6) d) ++ skipn 3 (skipn (n - 6) d)).
  { rewrite !firstn_skipn. reflexivity. }
  assert (A1 : ascii (firstn 3 (skipn (n - 6) d))) by (apply Forall_firstn, Forall_skipn, A).
  assert (A2 : ascii (skipn 3 (skipn (n - 6) d))) by (apply Forall_skipn, Forall_skipn, A).
  assert (AL : forall s, forallb (fun c => is_digit c || is_upper c) s = true <->
                 Forall (fun c => digit c \/ (65 <= c <= 90)%N) s).
  { intros s. apply forallb_Forall. intros x _. rewrite orb_true_iff, is_digit_spec. unfold is_upper, digit. lia. }
  split.
  - assert (Lx : List.length (firstn (n - 6) d) = min (n - 6) n) by apply firstn_length.
    assert (Ly : List.length (firstn 3 (skipn (n - 6) d)) = min 3 (n - (n - 6))).
    { rewrite firstn_length, skipn_length. reflexivity. }
    assert (Lz : List.length (skipn 3 (skipn (n - 6) d)) = n - (n - 6) - 3).
    { rewrite !skipn_length. reflexivity. }
    remember (firstn (n - 6) d) as x. remember (firstn 3 (skipn (n - 6) d)) as y.
    remember (skipn 3 (skipn (n - 6) d)) as z.
    destruct (_ && _) eqn:C; [|discriminate]. rewrite !andb_true_iff in C.
    destruct C as [[[[C1 C2] C3] C4] C5]. intros X; injection X as <- <- <-.
    apply ascii_nd in C4; [|exact A1]. apply ascii_nd in C5; [|exact A2]. apply AL in C3.
    split; [exact SP|].
    repeat split; try assumption; lia.
  - intros [-> [L [F [L1 [L2 [D1 D2]]]]]].
    assert (EN : n = List.length f + 6) by (unfold n; rewrite !app_length; lia).
    replace (n - 6) with (List.length f) by lia.
    rewrite firstn_app, Nat.sub_diag, firstn_all, firstn_O, app_nil_r.
    rewrite skipn_app, Nat.sub_diag, skipn_all, skipn_O. cbn [app].
    destruct b as [|b1 [|b2 [|b3 [|? ?]]]]; try discriminate. cbn [app firstn skipn].
    apply ascii_app in A. destruct A as [_ A]. apply ascii_app in A. destruct A as [Ab Ar].
    replace (forallb _ f) with true by (symmetry; apply AL; exact F).
    replace (forallb is_nd [b1; b2; b3]) with true by (symmetry; apply ascii_nd; assumption).
    replace (forallb is_nd r) with true by (symmetry; apply ascii_nd; assumption).
    replace (Nat.leb 8 n) with true by lia. replace (Nat.leb n 11) with true by lia. reflexivity.
Qed.

Lemma convert_range_bearing_spec dest i L d : input_ok i -> tables i L -> ascii d ->
  exists o, convert_range_bearing dest L d = Ret o /\ forall f, o = Some f <-> range_bearing dest i d f.
Proof.
  intros OK T A. unfold convert_range_bearing.
  destruct (rb_captures d) as [[[n b] r]|] eqn:E.
  - pose proof (rb_captures_spec d A) as RS.
    destruct (proj1 (RS _ _ _) E) as [-> [Lf [F [L1 [L2 [D1 D2]]]]]].
    rewrite !parse_digits_number by (try assumption; intros ->; discriminate).
    eexists. split; [reflexivity|]. intros f. split.
    + destruct (convert_fix L n) as [x|] eqn:C; [|discriminate]. intros X; injection X as <-.
      apply (convert_fix_spec i L n OK T) in C. exists n, b, r, x. auto 10.
    + intros [n' [b' [r' [x [E' [L' [F' [L1' [L2' [D1' [D2' [C ->]]]]]]]]]]]].
      assert (E2 : rb_captures (n ++ b ++ r) = Some (n', b', r')) by (apply RS; auto 10).
      rewrite E in E2. injection E2 as <- <- <-.
      apply (convert_fix_spec i L n OK T) in C. rewrite C. reflexivity.
  - exists None. split; [reflexivity|]. intros f. split; [discriminate|].
    intros [n' [b' [r' [x [E' [L' [F' [L1' [L2' [D1' [D2' _]]]]]]]]]]].
    assert (E2 : rb_captures d = Some (n', b', r')) by (apply rb_captures_spec; auto 10). congruence.
Qed.

Lemma convert_designator_spec dest i L d : input_ok i -> tables i L -> ascii d -> forall o,
  convert_designator dest L d = Ret o <-> resolves dest i d o.
Proof.
  intros OK T A. unfold convert_designator.
  pose proof (convert_fix_spec i L d OK T) as CF.
  destruct (convert_coordinate_spec d A) as [oc [-> CC]].
  destruct (convert_range_bearing_spec dest i L d OK T A) as [ob [-> CB]].
  destruct (convert_fix L d) as [f|] eqn:EF.
  - assert (R : resolves_fix i d (Some f)) by (apply CF; reflexivity). intros o. cbn [conv_or]. split.
    + intros X; injection X as <-. apply rs_fix, R.
    + intros H; inversion H as [? G|? G|? G|G]; subst; apply CF in G; congruence.
  - assert (R : resolves_fix i d None) by (apply CF; reflexivity).
    destruct oc as [c|]; cbn [conv_or].
    + assert (C : coordinate_waypoint d c) by (apply CC; reflexivity). intros o. split.
      * intros X; injection X as <-. apply rs_coord; assumption.
      * intros H; inversion H as [? G|? G G2|? G G2 G3|G G2 G3]; subst.
        -- apply CF in G; congruence.
        -- apply CC in G2. congruence.
        -- exfalso. eapply G2; eassumption.
        -- exfalso. eapply G2; eassumption.
    + assert (NC : forall g, ~ coordinate_waypoint d g) by (intros g G; apply CC in G; discriminate).
      intros o. split.
      * intros X; injection X as <-. destruct ob as [b|].
        -- apply rs_rb; try assumption. apply CB; reflexivity.
        -- apply rs_none; try assumption. intros g G. apply CB in G; discriminate.
      * intros H; inversion H as [? G|? G G2|? G G2 G3|G G2 G3]; subst.
        -- apply CF in G; congruence.
        -- exfalso. eapply NC; eassumption.
        -- apply CB in G3. congruence.
        -- destruct ob as [b|]; [|reflexivity]. exfalso. apply (G3 b). apply CB; reflexivity.
Qed.

(** Panics need a decimal digit outside ASCII. *)
Lemma span_nd_app s : forall a b, span_nd s = (a, b) -> s = a ++ b /\ forallb is_nd a = true.
Proof.
  induction s as [|c s IH]; intros a b; cbn [span_nd].
  - intros E; injection E as <- <-. auto.
  - destruct (is_nd c) eqn:E.
    + destruct (span_nd s) as [a' b']. destruct (IH a' b' eq_refl) as [-> F].
      intros X; injection X as <- <-. cbn [forallb]. rewrite E, F. auto.
    + intros X; injection X as <- <-. auto.
Qed.

Lemma nd_ascii s d : plain_digits d -> (forall c, In c s -> In c d) -> forallb is_nd s = true -> ascii s.
Proof.
  intros P I F. apply Forall_forall. intros c H. apply P; [auto|]. rewrite forallb_forall in F. auto.
Qed.

Lemma coord_captures_ascii d x : plain_digits d -> coord_captures d = Some x -> ascii d.
Proof.
  intros P. unfold coord_captures. destruct (span_nd d) as [lat r] eqn:E.
  apply span_nd_app in E. destruct E as [-> F1]. destruct r as [|ns r]; [discriminate|].
  destruct (span_nd r) as [lng r'] eqn:E. apply span_nd_app in E. destruct E as [-> F2].
  destruct r' as [|ew [|? ?]]; try discriminate. destruct (_ && _) eqn:C; [|discriminate]. intros _.
  apply ascii_app. split; [eapply nd_ascii; eauto; intros; apply in_app_iff; auto|].
  constructor; [lia|]. apply ascii_app. split; [|constructor; [lia | constructor]].
  eapply nd_ascii; [exact P| |exact F2]. intros c I. rewrite in_app_iff. right. right. apply in_app_iff. auto.
Qed.

Lemma rb_captures_ascii d x : plain_digits d -> rb_captures d = Some x -> ascii d.
Proof.
  intros P. unfold rb_captures. set (n := List.length d).
  assert (SP : d = firstn (n - 6) d ++ firstn 3 (skipn (n - 6) d) ++ skipn 3 (skipn (n - 6) d)).
  { rewrite !firstn_skipn. reflexivity. }
  remember (firstn (n - 6) d) as x1. remember (firstn 3 (skipn (n - 6) d)) as y.
  remember (skipn 3 (skipn (n - 6) d)) as z.
  destruct (_ && _) eqn:C; [|discriminate]. intros _. rewrite !andb_true_iff in C.
  destruct C as [[[_ C3] C4] C5].
  assert (I : forall c, In c x1 \/ In c y \/ In c z -> In c d) by (intros c; rewrite SP, !in_app_iff; tauto).
  rewrite SP. apply ascii_app. split; [|apply ascii_app; split].
  - apply Forall_forall. intros c H. rewrite forallb_forall in C3. specialize (C3 c H).
    unfold is_digit, is_upper in C3. lia.
  - eapply nd_ascii; eauto.
  - eapply nd_ascii; eauto.
Qed.

Lemma parse_digits_Some s : s <> [] -> forallb is_nd s = true -> ascii s -> exists x, parse_digits s = Some x.
Proof. intros NE F A. exists (number s). apply parse_digits_number; [apply ascii_nd; assumption | exact NE]. Qed.

Lemma convert_plain dest L d : plain_digits d -> exists o, convert_designator dest L d = Ret o.
Proof.
  intros P. unfold convert_designator.
  assert (E1 : exists o, convert_coordinate d = Ret o).
  { destruct (coord_captures d) as [x|] eqn:E.
    - destruct (convert_coordinate_spec d (coord_captures_ascii d x P E)) as [o [H _]]. eauto.
    - unfold convert_coordinate. rewrite E. eauto. }
  assert (E2 : exists o, convert_range_bearing dest L d = Ret o).
  { unfold convert_range_bearing. destruct (rb_captures d) as [[[f b] r]|] eqn:E; [|eauto].
    pose proof (rb_captures_ascii d _ P E) as A.
    apply rb_captures_spec in E; [|exact A]. destruct E as [_ [_ [_ [L1 [L2 [D1 D2]]]]]].
    rewrite !parse_digits_number by (try assumption; intros ->; discriminate). eauto. }
  destruct E1 as [o1 ->], E2 as [o2 ->]. destruct (convert_fix L d), o1, o2; cbn; eauto.
Qed.

Lemma coordinate_waypoint_ascii d f : coordinate_waypoint d f -> ascii d.
Proof.
  intros [wl [l [n [wg [g [e [k [-> [N1 [N2 [F1 [F2 [W1 [W2 _]]]]]]]]]]]]]].
  assert (D1 : Forall digit wl) by (destruct W1 as [->|[-> _]]; [exact F1 | inversion F1; assumption]).
  assert (D2 : Forall digit wg) by (destruct W2 as [->|[-> _]]; [exact F2 | inversion F2; assumption]).
  apply ascii_app. split; [apply digits_ascii, D1|]. constructor; [lia|].
  apply ascii_app. split; [apply digits_ascii, D2|]. constructor; [lia | constructor].
Qed.
Lemma range_bearing_ascii dest i d f : range_bearing dest i d f -> ascii d.
Proof.
  intros [n [b [r [x [-> [L [F [L1 [L2 [D1 [D2 _]]]]]]]]]]].
  apply ascii_app. split; [revert F; apply Forall_impl; unfold digit; intros; lia|].
  apply ascii_app. split; apply digits_ascii; assumption.
Qed.

Lemma ascii_dec d : {ascii d} + {~ ascii d}.
Proof. apply Forall_dec. intros c. destruct (c <? 128)%N eqn:E; [left; lia | right; lia]. Qed.

Lemma designator_spec dest i L d : input_ok i -> tables i L -> plain_digits d -> forall o,
  convert_designator dest L d = Ret o <-> resolves dest i d o.
Proof.
  intros OK E P. destruct (ascii_dec d) as [A|NA].
  - apply convert_designator_spec; assumption.
  - assert (NC : forall g, ~ coordinate_waypoint d g) by (intros g G; apply coordinate_waypoint_ascii in G; contradiction).
    assert (NR : forall g, ~ range_bearing dest i d g) by (intros g G; apply range_bearing_ascii in G; contradiction).
    pose proof (convert_fix_spec i L d OK E) as CF. unfold convert_designator.
    replace (convert_coordinate d) with (Ret (A := option fix_) None).
    2:{ unfold convert_coordinate. destruct (coord_captures d) eqn:C; [|reflexivity].
        apply coord_captures_ascii in C; [contradiction | exact P]. }
    replace (convert_range_bearing dest L d) with (Ret (A := option fix_) None).
    2:{ unfold convert_range_bearing. destruct (rb_captures d) eqn:C; [|reflexivity].
        apply rb_captures_ascii in C; [contradiction | exact P]. }
    intros o. destruct (convert_fix L d) as [f|] eqn:EF; cbn [conv_or]; split.
    + intros X; injection X as <-. apply rs_fix, CF. reflexivity.
    + intros H; inversion H as [? G|? G G2|? G G2 G3|G G2 G3]; subst; apply CF in G; congruence.
    + intros X; injection X as <-. apply rs_none; try assumption. apply CF. reflexivity.
    + intros H; inversion H as [? G|? G G2|? G G2 G3|G G2 G3]; subst; apply CF in G; try congruence.
      * exfalso. eapply NC; eassumption.
      * exfalso. eapply NR; eassumption.
Qed.

(** * SIDs and STARs *)

Lemma resolve_wpts_spec dest i L l : input_ok i -> tables i L -> Forall plain_digits l ->
  exists os, Forall2 (resolves dest i) l os /\
    resolve_wpts dest L l = Ret (flat_map (fun o => match o with Some f => [f] | None => [] end) os).
Proof.
  intros OK T. induction 1 as [|d l A _ [os [H1 H2]]]; cbn [resolve_wpts].
  - exists []. split; [constructor | reflexivity].
  - destruct (convert_plain dest L d A) as [o E]. rewrite E, H2.
    exists (o :: os). split; [constructor; [|exact H1]; eapply designator_spec; eauto|].
    destruct o; reflexivity.
Qed.

Lemma conv_proc_spec dest i L p : input_ok i -> tables i L -> Forall plain_digits (ep_wpts p) ->
  exists q, conv_proc dest L p = Ret q /\ converted dest i p q.
Proof.
  intros OK T A. unfold conv_proc. destruct (resolve_wpts_spec dest i L _ OK T A) as [os [H1 H2]].
  rewrite H2. eexists. split; [reflexivity|]. unfold converted. cbn. eauto 10.
Qed.

Lemma stored_add q m ad name :
  stored (add_proc q m) ad name =
  stored m ad name ++ (if eqb (pr_airport q) ad && eqb (pr_name q) name then [q] else []).
Proof.
  unfold stored, add_proc. destruct (get (pr_airport q) m) as [names|] eqn:E; rewrite get_put;
    destruct (eq_dec ad (pr_airport q)) as [->|ne].
  - rewrite E, eqb_refl, mget_vec_push. cbn [andb]. unfold eqb.
    destruct (eq_dec name (pr_name q)) as [e|], (eq_dec (pr_name q) name) as [|]; try rewrite e;
      try congruence; try reflexivity. rewrite app_nil_r. reflexivity.
  - unfold eqb. destruct (eq_dec (pr_airport q) ad); [congruence|]. cbn. rewrite app_nil_r. reflexivity.
  - rewrite E, eqb_refl, mget_vec_push. cbn [andb app]. unfold eqb.
    destruct (eq_dec name (pr_name q)) as [e|], (eq_dec (pr_name q) name) as [|]; try rewrite e;
      try congruence; reflexivity.
  - unfold eqb. destruct (eq_dec (pr_airport q) ad); [congruence|]. cbn. rewrite app_nil_r. reflexivity.
Qed.

(** The procedures [ps] of a file as stored in [m] *)
Definition stored_ok dest i (ps : list ese_proc) m : Prop := forall ad name,
  Forall2 (converted dest i)
    (filter (fun p => eqb (ep_airport p) ad && eqb (ep_name p) name) ps) (stored m ad name).

Lemma stored_ok_add dest i ps m p q : stored_ok dest i ps m -> converted dest i p q ->
  stored_ok dest i (ps ++ [p]) (add_proc q m).
Proof.
  intros H C ad name. rewrite filter_app, stored_add. apply Forall2_app; [apply H|]. cbn [filter].
  destruct C as [C1 [C2 C3]]. rewrite C1, C2.
  destruct (eqb (ep_airport p) ad && eqb (ep_name p) name); constructor; [|constructor].
  unfold converted. auto.
Qed.

Lemma sids_app a b : sids_of (a ++ b) = sids_of a ++ sids_of b.
Proof. apply flat_map_app. Qed.
Lemma stars_app a b : stars_of (a ++ b) = stars_of a ++ stars_of b.
Proof. apply flat_map_app. Qed.

Lemma from_euroscope_spec dest i : input_ok i ->
  Forall plain_digits (flat_map wpts_of (i_procs i)) ->
  exists L, from_euroscope dest i = Ret L /\ tables i L /\
    stored_ok dest i (sids_of (i_procs i)) (l_sids L) /\
    stored_ok dest i (stars_of (i_procs i)) (l_stars L).
Proof.
  intros OK. unfold from_euroscope.
  generalize (i_procs i). intros l. induction l as [|x l IH] using rev_ind.
  - intros _. exists (base_locations i). cbn. repeat split; intros ad name; constructor.
  - rewrite flat_map_app. intros A. apply Forall_app in A. destruct A as [A1 A2].
    destruct (IH A1) as [L [E [T [S1 S2]]]]. rewrite fold_left_app, E. cbn [fold_left add_sid_star].
    cbn [flat_map] in A2. rewrite app_nil_r in A2.
    rewrite sids_app, stars_app.
    destruct x as [p|p]; cbn [wpts_of] in A2; destruct (conv_proc_spec dest i L p OK T A2) as [q [-> C]];
      (eexists; split; [reflexivity|]; split; [exact T|]; cbn [l_sids l_stars sids_of stars_of flat_map app];
       rewrite app_nil_r; split; try assumption; apply stored_ok_add; assumption).
Qed.

Lemma from_euroscope_tables dest i L : from_euroscope dest i = Ret L -> tables i L.
Proof.
  unfold from_euroscope. generalize (i_procs i). intros l. revert L.
  induction l as [|x l IH] using rev_ind; intros L.
  - cbn [fold_left]. intros E; injection E as <-. repeat split.
  - rewrite fold_left_app. cbn [fold_left].
    destruct (fold_left (add_sid_star dest) l (Ret (base_locations i))) as [L'| |]; cbn [add_sid_star]; try discriminate.
    specialize (IH L' eq_refl). destruct x as [p|p]; destruct (conv_proc dest L' p); try discriminate;
      intros E; injection E as <-; exact IH.
Qed.

(** * Positions *)
Lemma contains_nav_spec i L d p : tables i L -> contains_nav_element L d p = true <->
  (exists v, first_named n_des d (i_vors i) = Some v /\ quantize (n_pos v) = quantize p) \/
  (exists v, first_named n_des d (i_ndbs i) = Some v /\ quantize (n_pos v) = quantize p) \/
  (exists v, first_named f_des d (i_fixes i) = Some v /\ quantize (f_pos v) = quantize p).
Proof.
  intros T. destruct T as [T1 [T2 [T3 _]]].
  unfold contains_nav_element. rewrite T1, T2, T3. cbn [base_locations l_fixes l_vors l_ndbs].
  rewrite !mget_named, !orb_true_iff.
  assert (X : forall A (pos : A -> point) (o : option A),
    (match o with Some x => eqb (quantize (pos x)) (quantize p) | None => false end) = true <->
    exists v, o = Some v /\ quantize (pos v) = quantize p).
  { intros A pos [x|].
    - rewrite eqb_true. split; [eauto|]. intros [v [E H]]. injection E as ->. exact H.
    - split; [discriminate|]. intros [v [E _]]. discriminate. }
  rewrite !X. tauto.
Qed.

Lemma coordinate_waypoint_stable d f : coordinate_waypoint d f -> coordinate_waypoint (f_des f) f.
Proof.
  intros [wl [l [n [wg [g [e [k [-> [N1 [N2 [F1 [F2 [W1 [W2 [K [L1 [L2 ->]]]]]]]]]]]]]]]]].
  exists l, l, n, g, g, e, k. cbn [f_des]. repeat split; try assumption; try (left; reflexivity); lia.
Qed.

Lemma named_or_panic dest i L d f : input_ok i -> from_euroscope dest i = Ret L -> resolves_fix i d (Some f) ->
  convert_designator dest L d = Ret (Some f) \/ convert_designator dest L d = Panic.
Proof.
  intros OK E R. apply from_euroscope_tables in E. apply (convert_fix_spec i L d OK E) in R.
  unfold convert_designator. rewrite R.
  assert (NE1 : convert_coordinate d <> Err).
  { unfold convert_coordinate. repeat match goal with |- context [match ?x with _ => _ end] => destruct x end; discriminate. }
  assert (NE2 : convert_range_bearing dest L d <> Err).
  { unfold convert_range_bearing. repeat match goal with |- context [match ?x with _ => _ end] => destruct x end; discriminate. }
  destruct (convert_coordinate d) as [[]| |], (convert_range_bearing dest L d) as [[]| |]; cbn; auto; congruence.
Qed.

Lemma airport_keys dest i L : from_euroscope dest i = Ret L -> NoDup (keys (l_airports L)).
Proof.
  intros E. apply from_euroscope_tables in E. destruct E as [_ [_ [_ ->]]].
  cbn [base_locations l_airports]. unfold airport_table.
  assert (H1 : forall nv t, NoDup (keys t) -> NoDup (keys (fold_left add_icao nv t))).
  { induction nv as [|[k n] nv IH]; intros t H; cbn [fold_left]; [exact H|]. apply IH. unfold add_icao.
    destruct (get k t); [apply NoDup_put, H | exact H]. }
  assert (H2 : forall nv t, NoDup (keys t) -> NoDup (keys (fold_left add_navdata nv t))).
  { induction nv as [|[k n] nv IH]; intros t H; cbn [fold_left]; [exact H|]. apply IH. unfold add_navdata.
    destruct (get k t); apply NoDup_put, H. }
  apply H1, H2. unfold from_sct_airports. apply NoDup_of_list.
Qed.

Lemma airport_order dest i i' L L' d : input_ok i -> reordered i i' ->
  from_euroscope dest i = Ret L -> from_euroscope dest i' = Ret L' ->
  get d (l_airports L) = get d (l_airports L').
Proof.
  intros OK [_ [_ [_ [EA [ER [_ [P1 P2]]]]]]] E E'. apply from_euroscope_tables in E, E'.
  assert (OK' : input_ok i').
  { destruct OK as [O1 O2]. split.
    - eapply Permutation_NoDup; [apply Permutation_map, P1 | exact O1].
    - eapply Permutation_NoDup; [apply Permutation_map, P2 | exact O2]. }
  apply (get_airport i L d OK E).
  assert (H : airport_entry i' d (get d (l_airports L'))) by (apply (get_airport i' L' d OK' E'); reflexivity).
  destruct OK as [O1 O2].
  unfold airport_entry, last_sct, in_sct in *. rewrite EA, ER in H.
  destruct (get d (l_airports L')) as [a|].
  - rewrite (get_perm d _ _ O1 P1), (get_perm d _ _ O2 P2). exact H.
  - rewrite <- !get_None in *. rewrite (get_perm d _ _ O1 P1). exact H.
Qed.
