(** Quantised coordinates over the reals. *)
From Coq Require Import Reals Psatz ZifyBool ZifyN ZifyNat.
From Flocq Require Import Core BinarySingleNaN.
From Verif Require Import Base Num NumProofs Float FloatParse FloatReal Dms SpecDms DmsReal DmsProofs Fixed Sectors SpecSectors Places SpecPlaces.
Open Scope Z_scope.

Lemma round_away_near s m e : Zpos m < 2 ^ 53 ->
  (Rabs (IZR (round_away s m e) - real_value (S754_finite s m e)) <= 1 / 2)%R.
Proof.
  intros B. unfold real_value, SF2R, F2R. cbn [Fnum Fexp].
  assert (G : (Rabs (IZR (match e with
           | Z0 => Zpos m
           | Zpos p => Zpos m * 2 ^ Zpos p
           | Zneg p => (Zpos m + 2 ^ (Zpos p - 1)) / 2 ^ Zpos p
           end%Z) - IZR (Zpos m) * bpow radix2 e) <= 1 / 2)%R).
  { destruct e as [|p|p].
    - cbn [bpow]. rewrite Rmult_1_r, Rminus_diag_eq by reflexivity. rewrite Rabs_R0. lra.
    - rewrite <- (IZR_Zpower radix2) by lia. rewrite <- mult_IZR, Rminus_diag_eq by reflexivity. rewrite Rabs_R0. lra.
    - rewrite bpow_neg_div. assert (E : 2 ^ Zpos p = 2 * 2 ^ (Zpos p - 1)).
      { replace (Zpos p) with (Z.succ (Zpos p - 1)) at 1 by lia. rewrite Z.pow_succ_r by lia. reflexivity. }
      rewrite E. assert (H : 0 < 2 ^ (Zpos p - 1)) by (apply Z.pow_pos_nonneg; lia). set (h := 2 ^ (Zpos p - 1)) in *. clearbody h.
      pose proof (Z.div_mod (Zpos m + h) (2 * h) ltac:(lia)) as DM. pose proof (Z.mod_pos_bound (Zpos m + h) (2 * h) ltac:(lia)) as MB.
      set (v := (Zpos m + h) / (2 * h)) in *. set (r := (Zpos m + h) mod (2 * h)) in *. clearbody v r.
      assert (HR : (0 < IZR h)%R) by (apply IZR_lt; exact H).
      assert (K : (Rabs (IZR (v * (2 * h) - Zpos m)) <= IZR h)%R) by (rewrite <- abs_IZR; apply IZR_le; lia).
      rewrite minus_IZR, !mult_IZR in K. rewrite mult_IZR.
      replace (IZR v - IZR (Zpos m) / (2 * IZR h))%R with ((IZR v * (2 * IZR h) - IZR (Zpos m)) * / (2 * IZR h))%R by (field; lra).
      rewrite Rabs_mult, (Rabs_pos_eq (/ _)) by (apply Rlt_le, Rinv_0_lt_compat; lra).
      apply Rmult_le_reg_r with (2 * IZR h)%R; [lra|]. rewrite Rmult_assoc, Rinv_l by lra. lra. }
  unfold round_away. destruct s; cbn [cond_Zopp]; [|exact G].
  rewrite !opp_IZR. rewrite <- Rabs_Ropp. match goal with |- (Rabs ?a <= _)%R => match type of G with (Rabs ?b <= _)%R => replace a with b by ring end end. exact G.
Qed.

Lemma round_i64_near x : finite x -> (Rabs (real_value x) <= bpow radix2 60)%R ->
  (Rabs (IZR (round_i64 x) - real_value x) <= 1 / 2)%R.
Proof.
  intros [F V] L. destruct x as [s|s| |s m e]; try discriminate.
  - cbn. rewrite Rminus_diag_eq by reflexivity. rewrite Rabs_R0. lra.
  - assert (B : Zpos m < 2 ^ 53).
    { cbn in V. unfold SpecFloat.bounded in V. apply andb_true_iff in V. destruct V as [B _]. unfold SpecFloat.canonical_mantissa in B.
      apply Zeq_bool_eq in B. unfold SpecFloat.fexp, SpecFloat.emin in B. rewrite Zpos_digits2_pos in B.
      assert (D : Zdigits radix2 (Zpos m) <= 53) by lia. apply Zpower_gt_Zdigits in D. cbn [Z.abs] in D. exact D. }
    pose proof (round_away_near s m e B) as N. cbn [round_i64]. set (z := round_away s m e) in *. clearbody z.
    assert (ZB : Z.abs z <= 2 ^ 60).
    { assert (IZR (Z.abs z) < IZR (2 ^ 60 + 1))%R; [|apply lt_IZR in H; lia]. rewrite abs_IZR, plus_IZR.
      replace (IZR (2 ^ 60)) with (bpow radix2 60) by (rewrite <- (IZR_Zpower radix2) by lia; reflexivity).
      apply Rabs_le_inv in N. apply Rabs_le_inv in L. apply Rabs_lt. lra. }
    replace (clamp i64_min i64_max z) with z by (unfold clamp, i64_min, i64_max; lia). exact N.
Qed.

Lemma finite_of x r s : is x r s -> finite x /\ real_value x = r.
Proof.
  intros [b [-> [<- [F _]]]]. split; [split|].
  - rewrite is_finite_SF_B2SF. exact F.
  - apply valid_binary_B2SF.
  - apply SF2R_B2SF.
Qed.

Lemma million : is (f64_of_Z 1000000) 1000000 false.
Proof. apply of_Z_is. lia. Qed.

(** The product with 1e6, and its rounding to an integer *)
Lemma q_near x : finite x -> (Rabs (real_value x) <= 1000)%R -> (Rabs (IZR (q x) - real_value x * 1000000) <= 5000001 / 10000000)%R.
Proof.
  intros F L. pose proof (finite_is x F) as I. set (r := real_value x) in *.
  assert (LB : (Rabs (r * 1000000) < bpow radix2 30)%R).
  { rewrite Rabs_mult, (Rabs_pos_eq 1000000) by lra. change (bpow radix2 30) with 1073741824%R. lra. }
  pose proof (is_mul _ _ _ _ _ _ I million) as M. destruct (finite_of _ _ _ (M ltac:(eapply Rle_trans; [apply Rlt_le, LB | apply bpow_le; lia]))) as [F' V].
  change (SFmul 53 1024) with fmul in *. unfold q.
  pose proof (rnd_err (r * 1000000) 30 ltac:(lia) LB) as ER. change (bpow radix2 (30 - 54)) with (/ 16777216)%R in ER.
  pose proof (round_i64_near _ F') as N. rewrite V in N.
  assert (NB : (Rabs (rnd (r * 1000000)) <= bpow radix2 60)%R) by (apply rnd_bound; [lia|]; eapply Rle_trans; [apply Rlt_le, LB | apply bpow_le; lia]).
  specialize (N NB). apply Rabs_le_inv in N. apply Rabs_le_inv in ER. apply Rabs_le. lra.
Qed.

Lemma q_unique x z : finite x -> (Rabs (real_value x) <= 1000)%R -> (Rabs (real_value x - IZR z / 1000000) <= 4 / 10000000)%R -> q x = z.
Proof.
  intros F L H. pose proof (q_near x F L) as N. apply Rabs_le_inv in N. apply Rabs_le_inv in H.
  assert (A : (Rabs (IZR (q x) - IZR z) < 1)%R) by (apply Rabs_lt; lra).
  rewrite <- minus_IZR, <- abs_IZR in A. apply (lt_IZR _ 1) in A. lia.
Qed.

Lemma normalize_signed z : Z.abs z < 2 ^ 53 -> is (f64_of_Z z) (IZR z) (z <? 0).
Proof.
  intros B. destruct (Z.ltb_spec z 0) as [N|N]; [|apply normalize_is; lia].
  assert (P : is (f64_of_Z (- z)) (IZR (- z)) false) by (apply normalize_is; lia).
  destruct P as [b [E [V [F S]]]]. exists (Bopp b). destruct z as [|p|p]; try lia. cbn [Z.opp] in *.
  split.
  - assert (X : B2SF (Bopp b) = SFopp (B2SF b)) by (destruct b; reflexivity). rewrite X, <- E. unfold f64_of_Z, SpecFloat.binary_normalize.
    unfold SpecFloat.binary_round. destruct (shl_align p 0 _) as [mz ez]. unfold SpecFloat.binary_round_aux.
    destruct (shr_fexp 53 1024 (Zpos mz) ez loc_Exact) as [mrs' e']. destruct (shr_fexp 53 1024 (round_nearest_even (shr_m mrs') (loc_of_shr_record mrs')) e' loc_Exact) as [mrs'' e''].
    destruct (shr_m mrs''); [reflexivity| |reflexivity]. destruct (Z.leb _ _); reflexivity.
  - split; [rewrite B2R_Bopp, V; rewrite <- opp_IZR; reflexivity|]. split; [rewrite is_finite_Bopp; exact F|].
    destruct b; cbn in *; try discriminate; rewrite S; reflexivity.
Qed.

Lemma div_million z : Z.abs z <= 1000000000 -> let d := fdiv (f64_of_Z z) (f64_of_Z 1000000) in
  finite d /\ (Rabs (real_value d - IZR z / 1000000) <= / 10000000000000)%R.
Proof.
  intros B d. pose proof (normalize_signed z ltac:(lia)) as I.
  assert (ZB : (Rabs (IZR z / 1000000) < bpow radix2 10)%R).
  { unfold Rdiv. rewrite Rabs_mult, (Rabs_pos_eq (/ 1000000)) by lra. rewrite <- abs_IZR. apply IZR_le in B. change (bpow radix2 10) with 1024%R. lra. }
  pose proof (is_div _ _ _ _ _ _ I million ltac:(lra) ltac:(eapply Rle_trans; [apply Rlt_le, ZB | apply bpow_le; lia])) as D.
  destruct (finite_of _ _ _ D) as [F V]. change (SFdiv 53 1024) with fdiv in *. split; [exact F|]. subst d. rewrite V.
  eapply Rle_trans; [apply (rnd_err _ 10); [lia | exact ZB]|]. change (bpow radix2 (10 - 54)) with (/ 17592186044416)%R. lra.
Qed.

Lemma q_div_million z : Z.abs z <= 999999999 -> q (fdiv (f64_of_Z z) (f64_of_Z 1000000)) = z.
Proof.
  intros B. destruct (div_million z ltac:(lia)) as [F C]. apply q_unique; [exact F| |].
  - assert (Rabs (IZR z) <= 999999999)%R by (rewrite <- abs_IZR; apply IZR_le; lia).
    apply Rabs_le_inv in C. apply Rabs_le_inv in H. apply Rabs_le. lra.
  - eapply Rle_trans; [exact C|]. lra.
Qed.

(** * Equality and hashing *)
Lemma fix_eqb_spec a b : fix_eqb a b = true <-> fx_name a = fx_name b /\ quantize (fx_pos a) = quantize (fx_pos b).
Proof. unfold fix_eqb. rewrite andb_true_iff. rewrite !eqb_true. reflexivity. Qed.
Lemma fix_hash_eq {H} (feed : H -> fed -> H) a b st : fix_eqb a b = true -> fix_hash feed a st = fix_hash feed b st.
Proof. rewrite fix_eqb_spec. intros [A B]. unfold fix_hash. rewrite A, B. reflexivity. Qed.

Lemma six_text s n : six_decimals s n = fixed_text s 6 n.
Proof.
  unfold six_decimals, fixed_text, fixed_body, digits. change (10 ^ N.of_nat 6)%N with 1000000%N.
  assert (P : pad_left 48 1 (fmt_uint 10 (n / 1000000)) = fmt_uint 10 (n / 1000000)).
  { pose proof (fmt_uint_nonnil 10 (n / 1000000)) as N. unfold pad_left. destruct (fmt_uint 10 (n / 1000000)); [congruence|]. reflexivity. }
  rewrite P. destruct s; reflexivity.
Qed.
Lemma q_six s n : (n < 999000000)%N -> exists x, parse_f64 (six_decimals s n) = Some x /\ moderate x /\ q x = (if s then - Z.of_N n else Z.of_N n).
Proof.
  intros L. rewrite six_text, parse_fixed. eexists. split; [reflexivity|].
  pose proof (dec_float_signed s n 6 ltac:(lia) ltac:(lia)) as I. change (- Z.of_N 6) with (- Z.of_nat 6) in I.
  change (10 ^ Z.of_N 6) with 1000000 in I. destruct (finite_of _ _ _ I) as [F V]. set (x := dec_float _ _ _ _ _) in *. clearbody x.
  assert (NB : (0 <= IZR (Z.of_N n) <= 998999999)%R) by (split; apply IZR_le; lia).
  set (v := (IZR (Z.of_N n) / 1000000)%R) in *. assert (VB : (0 <= v <= 998999999 / 1000000)%R) by (unfold v; lra).
  assert (ER : (Rabs (rnd v - v) <= bpow radix2 (10 - 54))%R).
  { apply rnd_err; [lia|]. rewrite Rabs_pos_eq by lra. change (bpow radix2 10) with 1024%R. lra. }
  change (bpow radix2 (10 - 54)) with (/ 17592186044416)%R in ER. apply Rabs_le_inv in ER.
  assert (M : moderate x). { split; [exact F|]. rewrite V, signed_abs. apply Rabs_lt. lra. }
  split; [exact M|]. apply q_unique; [exact F | destruct M; lra|]. rewrite V. destruct s; cbn [signed].
  - rewrite opp_IZR. apply Rabs_le. unfold v in *. lra.
  - apply Rabs_le. unfold v in *. lra.
Qed.

Lemma q_apart x y : moderate x -> moderate y -> q x = q y -> (apart x y <= 10000002 / 10000000000000)%R.
Proof.
  intros [F L] [F' L'] E. pose proof (q_near x F ltac:(lra)) as A. pose proof (q_near y F' ltac:(lra)) as B. rewrite E in A.
  apply Rabs_le_inv in A. apply Rabs_le_inv in B. unfold apart. apply Rabs_le. lra.
Qed.
Lemma q_millionths x : moderate x -> millionths (q x) x (5000001 / 10000000000000) /\ Z.abs (q x) <= 999000000.
Proof.
  intros [F L]. pose proof (q_near x F ltac:(lra)) as A. unfold millionths. split.
  - apply Rabs_le_inv in A. apply Rabs_le. lra.
  - assert (Rabs (IZR (q x)) < IZR 999000001)%R.
    { apply Rabs_le_inv in A. apply Rabs_lt_inv in L. apply Rabs_lt. lra. }
    rewrite <- abs_IZR in H. apply lt_IZR in H. lia.
Qed.
Lemma q_of_millionths z x : moderate x -> millionths z x (4 / 10000000) -> q x = z.
Proof. intros [F L] H. apply q_unique; [exact F | lra | exact H]. Qed.
Lemma requantized p : somewhere p ->
  (apart (px (dequantize (quantize p))) (px p) <= 5000002 / 10000000000000)%R /\
  (apart (py (dequantize (quantize p))) (py p) <= 5000002 / 10000000000000)%R /\
  quantize (dequantize (quantize p)) = quantize p.
Proof.
  assert (G : forall x, moderate x -> let y := fdiv (f64_of_Z (q x)) (f64_of_Z 1000000) in
    (apart y x <= 5000002 / 10000000000000)%R /\ q y = q x).
  { intros x M y. destruct (q_millionths x M) as [A B]. destruct (div_million (q x) ltac:(lia)) as [F C]. fold y in F, C.
    split; [|apply q_div_million; lia]. unfold millionths in A. apply Rabs_le_inv in A. apply Rabs_le_inv in C. unfold apart. apply Rabs_le. lra. }
  intros [X Y]. destruct (G _ X) as [A B]. destruct (G _ Y) as [C D]. unfold dequantize, quantize, px, py in *. cbn [fst snd] in *.
  rewrite B, D. auto.
Qed.

(** * Borders *)
Lemma pairs_ends {A} (l : list A) a b : In (a, b) (pairs l) -> In a l /\ In b l.
Proof.
  unfold pairs. intros I. split; [eapply in_combine_l, I|]. apply in_combine_r in I. destruct l; [destruct I | right; exact I].
Qed.
Lemma pairs_all {A} (l : list A) a : (2 <= List.length l)%nat -> In a l -> exists b c, In (b, c) (pairs l) /\ (a = b \/ a = c).
Proof.
  unfold pairs. induction l as [|x [|y l] IH]; intros L I; cbn [List.length] in L; try lia.
  destruct I as [<-|I].
  - exists x, y. split; [left; reflexivity | left; reflexivity].
  - destruct l as [|z l].
    + destruct I as [<-|[]]. exists x, y. split; [left; reflexivity | right; reflexivity].
    + destruct (IH ltac:(cbn; lia) I) as [b [c [J K]]]. exists b, c. split; [right; exact J | exact K].
Qed.
Lemma same_ends {V} (l m : list (V * V)) a b : Forall2 same_segment l m -> In (a, b) l -> In (a, b) m \/ In (b, a) m.
Proof.
  intros F. induction F as [|x y l m S F IH]; intros I; [destruct I|]. destruct I as [->|I].
  - destruct S as [<-|E]; [left; left; reflexivity|]. right. left. destruct y as [c d]. cbn in E. injection E as -> ->. reflexivity.
  - destruct (IH I); [left | right]; right; assumption.
Qed.
Lemma same_ends' {V} (l m : list (V * V)) a b : Forall2 same_segment l m -> In (a, b) m -> In (a, b) l \/ In (b, a) l.
Proof.
  intros F. induction F as [|x y l m S F IH]; intros I; [destruct I|]. destruct I as [->|I].
  - destruct S as [->|E]; [left; left; reflexivity|]. right. left. exact E.
  - destruct (IH I); [left | right]; right; assumption.
Qed.
Lemma ring_corners s ring : closed ring -> border_segments s <> [] -> uses_each_once ring (border_segments s) ->
  forall c, In c ring <-> exists l p, In l (es_border s) /\ (2 <= List.length l)%nat /\ In p l /\ quantize p = c.
Proof.
  intros [v [mid ->]] N [lines [P F]] c. split.
  - intros I. assert (L : (2 <= List.length (v :: mid ++ [v]))%nat) by (cbn [List.length]; rewrite app_length; cbn; lia).
    destruct (pairs_all _ _ L I) as [a [b [J K]]]. apply (same_ends' _ _ _ _ F) in J.
    assert (J' : exists a' b', In (a', b') (border_segments s) /\ (c = a' \/ c = b')).
    { destruct J as [J|J]; [exists a, b | exists b, a]; (split; [eapply Permutation_in; [symmetry; exact P | exact J] | tauto]). }
    destruct J' as [a' [b' [J' K']]]. unfold border_segments in J'. apply in_flat_map in J'. destruct J' as [l [IL J']].
    assert (LL : (2 <= List.length l)%nat) by (destruct l as [|? [|? ?]]; cbn in J'; try contradiction; cbn; lia).
    apply pairs_ends in J'. destruct J' as [JA JB].
    assert (JC : In c (map quantize l)) by (destruct K' as [-> | ->]; assumption).
    apply in_map_iff in JC. destruct JC as [p [E IP]]. exists l, p. auto.
  - intros [l [p [IL [L [IP <-]]]]].
    destruct (pairs_all (map quantize l) (quantize p) ltac:(rewrite map_length; exact L) (in_map _ _ _ IP)) as [a [b [J K]]].
    assert (J' : In (a, b) (border_segments s)) by (apply in_flat_map; exists l; auto).
    eapply Permutation_in in J'; [|exact P]. apply (same_ends _ _ _ _ F) in J'.
    destruct J' as [J'|J']; apply pairs_ends in J'; destruct J', K as [-> | ->]; assumption.
Qed.
Lemma volume_corners entries ccw vols secs : sectors_ok entries ccw vols secs -> (forall l p, In p (ccw l) <-> In p l) ->
  (forall id s l p, In (id, s) entries -> In l (es_border s) -> In p l -> somewhere p) ->
  forall id v, get id vols = Some v -> exists s, In (id, s) entries /\
    (forall c, In c (v_border v) -> exists l p, In l (es_border s) /\ In p l /\ near p c) /\
    (forall l p, In l (es_border s) -> (2 <= List.length l)%nat -> In p l -> exists c, In c (v_border v) /\ near p c).
Proof.
  intros O C B id v G. pose proof (so_volumes _ _ _ _ O id) as V. rewrite G in V.
  destruct V as [s [ring [[I [N _]] [-> [U CL]]]]]. exists s. split; [exact I|]. cbn [v_border].
  assert (X : forall l p, In l (es_border s) -> In p l -> near p (dequantize (quantize p))).
  { intros l p IL IP. destruct (requantized p (B id s l p I IL IP)) as [A [A' _]]. split; assumption. }
  pose proof (ring_corners s ring CL N U) as R. split.
  - intros c J. apply (proj1 (C _ _)) in J. apply in_map_iff in J. destruct J as [z [<- J]]. apply R in J. destruct J as [l [p [IL [_ [IP <-]]]]].
    exists l, p. split; [exact IL|]. split; [exact IP | exact (X l p IL IP)].
  - intros l p IL L IP. exists (dequantize (quantize p)). split; [|exact (X l p IL IP)].
    apply (proj2 (C _ _)). apply in_map. apply R. exists l, p. auto.
Qed.
