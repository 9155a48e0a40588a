From Coq Require Import ZifyBool ZifyN.
From Verif Require Import Base Num NumProofs Colours SpecColours.
Ltac Zify.zify_post_hook ::= Z.quot_rem_to_equations.

Lemma from_euroscope_spec n :
  match from_euroscope n with
  | Some c => (0 <= n < 2 ^ 24)%Z /\ wf_colour c /\ ca c = 255%N /\ rgb_number (cr c) (cg c) (cb c) = n
  | None => ~ (0 <= n < 2 ^ 24)%Z
  end.
Proof.
  unfold from_euroscope, u8_try_from, wf_colour, rgb_number.
  destruct ((0 <=? Z.rem n 256)%Z && (Z.rem n 256 <=? 255)%Z) eqn:E1; [|lia].
  destruct ((0 <=? Z.rem (Z.quot n 256) 256)%Z && (Z.rem (Z.quot n 256) 256 <=? 255)%Z) eqn:E2; [|lia].
  destruct ((0 <=? Z.quot (Z.quot n 256) 256)%Z && (Z.quot (Z.quot n 256) 256 <=? 255)%Z) eqn:E3; [|lia].
  cbn [cr cg cb ca from_rgb]. lia.
Qed.

Lemma to_euroscope_number c : to_euroscope c = rgb_number (cr c) (cg c) (cb c).
Proof. unfold to_euroscope, rgb_number; lia. Qed.

Lemma rgb_number_inj r g b r' g' b' :
  (r < 256)%N -> (g < 256)%N -> (b < 256)%N -> (r' < 256)%N -> (g' < 256)%N -> (b' < 256)%N ->
  rgb_number r g b = rgb_number r' g' b' -> r = r' /\ g = g' /\ b = b'.
Proof. unfold rgb_number; intros. lia. Qed.

Lemma to_from_euroscope c :
  wf_colour c -> ca c = 255%N ->
  (0 <= to_euroscope c < 2 ^ 24)%Z /\ from_euroscope (to_euroscope c) = Some c.
Proof.
  intros [Hr [Hg [Hb Ha]]] A. rewrite to_euroscope_number.
  assert (R : (0 <= rgb_number (cr c) (cg c) (cb c) < 2 ^ 24)%Z) by (unfold rgb_number; lia).
  split; [exact R|].
  pose proof (from_euroscope_spec (rgb_number (cr c) (cg c) (cb c))) as S.
  destruct (from_euroscope _) as [c'|]; [|contradiction].
  destruct S as [_ [[Wr [Wg [Wb _]]] [A' E]]].
  apply rgb_number_inj in E; try assumption. destruct c, c'; cbn in *; f_equal.
  destruct E as [-> [-> ->]]; congruence.
Qed.

Lemma from_to_euroscope n c : from_euroscope n = Some c -> to_euroscope c = n.
Proof.
  intros E. pose proof (from_euroscope_spec n) as S; rewrite E in S.
  rewrite to_euroscope_number. tauto.
Qed.

(** hexadecimal *)
Ltac Zify.zify_post_hook ::= Z.div_mod_to_equations.

Lemma byte_cases (P : N -> Prop) :
  (forall k : nat, k < 256 -> P (N.of_nat k)) -> forall n, (n < 256)%N -> P n.
Proof. intros H n Hn. rewrite <- (Nnat.N2Nat.id n). apply H. lia. Qed.

Definition hex2 (n : N) : text := pad_left 48 2 (fmt_uint 16 n).

Definition hex2_ok (n : N) : bool :=
  match hex2 n with
  | [a; b] => is_hex a && is_hex b && (match parse_uint 16 u8_max [a; b] with Some m => (m =? n)%N | None => false end)
  | _ => false
  end.

Lemma hex2_ok_all n : (n < 256)%N -> hex2_ok n = true.
Proof.
  intros H. assert (A : forallb hex2_ok (map N.of_nat (seq 0 256)) = true) by (vm_compute; reflexivity).
  rewrite forallb_forall in A. apply A. apply in_map_iff. exists (N.to_nat n).
  split; [lia | apply in_seq; lia].
Qed.

Lemma hex2_shape n : (n < 256)%N ->
  exists a b, hex2 n = [a; b] /\ is_hex a = true /\ is_hex b = true /\ parse_uint 16 u8_max [a; b] = Some n.
Proof.
  intros H; pose proof (hex2_ok_all n H) as O. unfold hex2_ok in O.
  destruct (hex2 n) as [|a [|b [|c l]]]; try discriminate.
  exists a, b. split; [reflexivity|].
  destruct (is_hex a), (is_hex b); try discriminate. cbn [andb] in O.
  destruct (parse_uint 16 u8_max [a; b]) as [m|]; [|discriminate].
  apply N.eqb_eq in O; subst; auto.
Qed.

Lemma visit_serialize c : wf_colour c ->
  visit_str (serialize_colour c) = Some (mkColour (cr c) (cg c) (cb c) 255).
Proof.
  intros [Hr [Hg [Hb _]]]. unfold serialize_colour.
  fold (hex2 (cr c)) (hex2 (cg c)) (hex2 (cb c)).
  destruct (hex2_shape _ Hr) as [r1 [r2 [-> [Hr1 [Hr2 Er]]]]].
  destruct (hex2_shape _ Hg) as [g1 [g2 [-> [Hg1 [Hg2 Eg]]]]].
  destruct (hex2_shape _ Hb) as [b1 [b2 [-> [Hb1 [Hb2 Eb]]]]].
  cbn [app visit_str]. rewrite Hr1, Hr2, Hg1, Hg2, Hb1, Hb2, Er, Eg, Eb. reflexivity.
Qed.

Lemma is_hex_spec c : is_hex c = true <-> exists v, hex_digit c v.
Proof.
  unfold is_hex, hex_digit, is_digit. split.
  - intros H.
    destruct ((48 <=? c)%N && (c <=? 57)%N) eqn:E1; [exists (c - 48)%N; lia|].
    destruct ((97 <=? c)%N && (c <=? 102)%N) eqn:E2; [exists (c - 87)%N; lia|].
    exists (c - 55)%N; lia.
  - intros [v H]; lia.
Qed.

Lemma hex_digit_val c v : hex_digit c v -> digit_val 16 c = Some v.
Proof.
  unfold hex_digit, digit_val, is_digit, is_upper, is_lower. intros H.
  destruct ((48 <=? c)%N && (c <=? 57)%N) eqn:E1.
  - replace (c - 48)%N with v by lia. replace (v <? 16)%N with true by lia; reflexivity.
  - destruct ((65 <=? c)%N && (c <=? 90)%N) eqn:E2.
    + replace (c - 55)%N with v by lia. replace (v <? 16)%N with true by lia; reflexivity.
    + replace ((97 <=? c)%N && (c <=? 122)%N) with true by lia.
      replace (c - 87)%N with v by lia. replace (v <? 16)%N with true by lia; reflexivity.
Qed.

Lemma hex_pair a b x y : hex_digit a x -> hex_digit b y ->
  parse_uint 16 u8_max [a; b] = Some (16 * x + y)%N.
Proof.
  intros Ha Hb. unfold parse_uint.
  replace (a =? 43)%N with false by (unfold hex_digit in Ha; lia).
  unfold digits1_val; cbn [digits_val].
  rewrite (hex_digit_val _ _ Ha), (hex_digit_val _ _ Hb).
  replace ((0 * 16 + x) * 16 + y)%N with (16 * x + y)%N by lia.
  unfold u8_max. replace (16 * x + y <=? 255)%N with true; [reflexivity|].
  unfold hex_digit in *; lia.
Qed.

Definition colour_text (s : text) (c : colour) : Prop :=
  exists r1 r2 g1 g2 b1 b2 vr1 vr2 vg1 vg2 vb1 vb2,
    s = [35%N; r1; r2; g1; g2; b1; b2] /\
    hex_digit r1 vr1 /\ hex_digit r2 vr2 /\ hex_digit g1 vg1 /\ hex_digit g2 vg2 /\
    hex_digit b1 vb1 /\ hex_digit b2 vb2 /\
    c = mkColour (16 * vr1 + vr2) (16 * vg1 + vg2) (16 * vb1 + vb2) 255.

Lemma visit_str_spec s c : visit_str s = Some c <-> colour_text s c.
Proof.
  split.
  - unfold visit_str.
    destruct s as [|h [|r1 [|r2 [|g1 [|g2 [|b1 [|b2 [|x l]]]]]]]]; try discriminate.
    destruct (N.eqb_spec h 35) as [->|]; [|discriminate].
    destruct (is_hex r1) eqn:Hr1; [|discriminate]. destruct (is_hex r2) eqn:Hr2; [|discriminate].
    destruct (is_hex g1) eqn:Hg1; [|discriminate]. destruct (is_hex g2) eqn:Hg2; [|discriminate].
    destruct (is_hex b1) eqn:Hb1; [|discriminate]. destruct (is_hex b2) eqn:Hb2; [|discriminate].
    apply is_hex_spec in Hr1, Hr2, Hg1, Hg2, Hb1, Hb2.
    destruct Hr1 as [vr1 Hr1], Hr2 as [vr2 Hr2], Hg1 as [vg1 Hg1], Hg2 as [vg2 Hg2],
      Hb1 as [vb1 Hb1], Hb2 as [vb2 Hb2].
    rewrite (hex_pair _ _ _ _ Hr1 Hr2), (hex_pair _ _ _ _ Hg1 Hg2), (hex_pair _ _ _ _ Hb1 Hb2).
    cbn [andb]. intros E; injection E as <-.
    exists r1, r2, g1, g2, b1, b2, vr1, vr2, vg1, vg2, vb1, vb2. repeat (split; [assumption || reflexivity|]).
    reflexivity.
  - intros (r1 & r2 & g1 & g2 & b1 & b2 & vr1 & vr2 & vg1 & vg2 & vb1 & vb2 & -> & Hr1 & Hr2 & Hg1 & Hg2 & Hb1 & Hb2 & ->).
    unfold visit_str.
    rewrite (proj2 (is_hex_spec r1)), (proj2 (is_hex_spec r2)), (proj2 (is_hex_spec g1)),
      (proj2 (is_hex_spec g2)), (proj2 (is_hex_spec b1)), (proj2 (is_hex_spec b2)) by eauto.
    rewrite (hex_pair _ _ _ _ Hr1 Hr2), (hex_pair _ _ _ _ Hg1 Hg2), (hex_pair _ _ _ _ Hb1 Hb2).
    reflexivity.
Qed.

(** lookup *)
Lemma s2t_inj a b : s2t a = s2t b -> a = b.
Proof.
  revert b; induction a as [|c a IH]; intros [|d b]; cbn; try discriminate; [reflexivity|].
  intros E; injection E as E1 E2. f_equal; [|auto].
  rewrite <- (ascii_N_embedding c), <- (ascii_N_embedding d). congruence.
Qed.

Lemma default_keys_nodup : NoDup (map fst default_colours).
Proof.
  apply nodupb_NoDup. vm_compute. reflexivity.
Qed.

Lemma default_colours_get coopans name : builtin_default coopans name (from_topsky_default coopans name).
Proof.
  unfold builtin_default, from_topsky_default.
  set (m := map _ _).
  destruct (get name m) as [[p q]|] eqn:E.
  - left. apply get_In in E. unfold m in E. apply in_map_iff in E.
    destruct E as [[n [p' q']] [E I]]. cbn in E. injection E as E1 -> ->.
    exists n, p, q. repeat split; try assumption.
  - right. split; [|reflexivity]. intros n pq I Hn.
    apply get_None in E. apply E. unfold keys, m. rewrite map_map.
    apply in_map_iff. exists (n, pq). split; assumption.
Qed.

Lemma colours_lookup items sct sct_order ts ts_order coopans name :
  NoDup (keys sct) -> iteration_of sct sct_order ->
  NoDup (keys ts) -> iteration_of ts ts_order ->
  exists d, builtin_default coopans name d /\
    colours_get (colours_from_euroscope items sct_order (Some ts_order) coopans) name coopans
    = first_some [get name ts; get name sct; d].
Proof.
  intros N1 P1 N2 P2. exists (from_topsky_default coopans name).
  split; [apply default_colours_get|].
  unfold colours_get, colours_from_euroscope; cbn [col_other].
  rewrite get_of_list, rev_app_distr, get_app.
  assert (G1 : get name (rev (of_list ts_order)) = get name ts).
  { assert (NO : NoDup (keys ts_order)).
    { eapply Permutation_NoDup; [apply Permutation_map, P2 | exact N2]. }
    rewrite <- (get_perm name (of_list ts_order)); [|apply NoDup_of_list | apply Permutation_rev].
    rewrite get_of_list. rewrite <- (get_perm name ts_order); [|exact NO | apply Permutation_rev].
    symmetry; apply get_perm; assumption. }
  assert (G2 : get name (rev sct_order) = get name sct).
  { symmetry; apply get_perm; [assumption|]. eapply Permutation_trans; [exact P1 | apply Permutation_rev]. }
  rewrite G1, G2. destruct (get name ts); [reflexivity|].
  destruct (get name sct); [reflexivity|].
  cbn [first_some]. destruct (from_topsky_default coopans name); reflexivity.
Qed.

Lemma colours_lookup_no_topsky items sct sct_order coopans name :
  NoDup (keys sct) -> iteration_of sct sct_order ->
  exists d, builtin_default coopans name d /\
    colours_get (colours_from_euroscope items sct_order None coopans) name coopans
    = first_some [get name sct; d].
Proof.
  intros N1 P1. exists (from_topsky_default coopans name). split; [apply default_colours_get|].
  unfold colours_get, colours_from_euroscope; cbn [col_other]. rewrite app_nil_r, get_of_list.
  assert (G2 : get name (rev sct_order) = get name sct).
  { symmetry; apply get_perm; [assumption|]. eapply Permutation_trans; [exact P1 | apply Permutation_rev]. }
  rewrite G2. destruct (get name sct); [reflexivity|].
  cbn [first_some]. destruct (from_topsky_default coopans name); reflexivity.
Qed.

Lemma topsky_or_spec tc coopans k d :
  topsky_or tc coopans k k d =
  match first_some [get k tc; from_topsky_default coopans k] with Some c => c | None => d end.
Proof.
  unfold topsky_or; cbn [first_some].
  destruct (get k tc); [reflexivity|]. destruct (from_topsky_default coopans k); reflexivity.
Qed.

Lemma get_of_list_perm {K V} `{EqDec K} (k : K) (m o : list (K * V)) :
  NoDup (keys m) -> Permutation m o -> get k (of_list o) = get k m.
Proof.
  intros ND P. rewrite get_of_list. symmetry. apply get_perm; [assumption|].
  eapply Permutation_trans; [exact P | apply Permutation_rev].
Qed.

Lemma fields_topsky (fields : list (text * colour) -> bool -> list (string * colour)) names :
  (forall tc coopans, fields tc coopans =
     map (fun '(f, (n, (r, g, b))) => (f, topsky_or tc coopans (s2t n) (s2t n) (from_rgb r g b))) names) ->
  NoDup (map fst names) ->
  forall tc coopans f n r g b, In (f, (n, (r, g, b))) names ->
  exists d, builtin_default coopans (s2t n) d /\
  get f (fields tc coopans) =
    Some (match first_some [get (s2t n) tc; d] with Some c => c | None => mkColour r g b 255 end).
Proof.
  intros F ND tc coopans f n r g b I.
  exists (from_topsky_default coopans (s2t n)). split; [apply default_colours_get|].
  rewrite F. rewrite <- topsky_or_spec. apply In_get.
  - unfold keys. rewrite map_map. erewrite map_ext; [exact ND|]. intros [f' [n' [[r' g'] b']]]; reflexivity.
  - apply in_map_iff. exists (f, (n, (r, g, b))). split; [reflexivity | exact I].
Qed.

Lemma track_fields items sct_order ts ts_order coopans f n r g b :
  NoDup (keys ts) -> iteration_of ts ts_order ->
  In (f, (n, (r, g, b))) track_names ->
  exists d, builtin_default coopans (s2t n) d /\
  get f (col_track (colours_from_euroscope items sct_order (Some ts_order) coopans)) =
    Some (match first_some [get (s2t n) ts; d] with Some c => c | None => mkColour r g b 255 end).
Proof.
  intros ND P I. cbn [col_track colours_from_euroscope].
  destruct (fields_topsky track_colours track_names) with (tc := of_list ts_order) (coopans := coopans)
    (f := f) (n := n) (r := r) (g := g) (b := b) as [d [D E]].
  - intros; reflexivity.
  - repeat (constructor; [cbn; intuition discriminate|]). constructor.
  - exact I.
  - exists d. split; [exact D|]. rewrite E, (get_of_list_perm _ _ _ ND P). reflexivity.
Qed.

Lemma ui_fields items sct_order ts ts_order coopans f n r g b :
  NoDup (keys ts) -> iteration_of ts ts_order ->
  In (f, (n, (r, g, b))) ui_names ->
  exists d, builtin_default coopans (s2t n) d /\
  get f (col_ui (colours_from_euroscope items sct_order (Some ts_order) coopans)) =
    Some (match first_some [get (s2t n) ts; d] with Some c => c | None => mkColour r g b 255 end).
Proof.
  intros ND P I. cbn [col_ui colours_from_euroscope].
  destruct (fields_topsky ui_colours ui_names) with (tc := of_list ts_order) (coopans := coopans)
    (f := f) (n := n) (r := r) (g := g) (b := b) as [d [D E]].
  - intros; reflexivity.
  - repeat (constructor; [cbn; intuition discriminate|]). constructor.
  - exact I.
  - exists d. split; [exact D|]. rewrite E, (get_of_list_perm _ _ _ ND P). reflexivity.
Qed.

Lemma map_colour_own items f k1 k2 :
  In (f, (k1, k2)) own_map_key -> f <> "high_airway_name"%string ->
  get f (map_colours items) =
  Some (match get (s2t k1, s2t k2) items with Some c => c | None => black end).
Proof.
  intros I NE. unfold own_map_key in I. cbn [In] in I.
  repeat (destruct I as [I|I]; [injection I as <- <- <-; first [reflexivity | contradiction]|]).
  destruct I.
Qed.

Lemma map_colour_complete items : map fst (map_colours items) = map fst own_map_key.
Proof. reflexivity. Qed.

Lemma high_airway_name_wrong items :
  get "high_airway_name"%string (map_colours items) =
  Some (match get (s2t "High airways", s2t "line") items with Some c => c | None => black end).
Proof. reflexivity. Qed.
