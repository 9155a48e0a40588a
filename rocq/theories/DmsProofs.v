(** Proofs about coordinates in degrees, minutes and seconds. *)
From Coq Require Import Reals Psatz ZifyBool ZifyN ZifyNat.
From Flocq Require Import Core BinarySingleNaN.
From Verif Require Import Base Num NumProofs ColoursProofs Float FloatParse FloatReal Dms DmsReal SpecDms.
Open Scope Z_scope.

Ltac bp := repeat match goal with
  | H : context[bpow radix2 ?e] |- _ => progress (let v := eval cbv in (Z.pow 2 (Z.abs e)) in
      first [ change (bpow radix2 e) with (IZR v) in H | change (bpow radix2 e) with (/ IZR v)%R in H ])
  | |- context[bpow radix2 ?e] => progress (let v := eval cbv in (Z.pow 2 (Z.abs e)) in
      first [ change (bpow radix2 e) with (IZR v) | change (bpow radix2 e) with (/ IZR v)%R ])
  end.
Lemma err x e : -900 <= e -> (Rabs x < bpow radix2 e)%R -> (- bpow radix2 (e - 54) <= rnd x - x <= bpow radix2 (e - 54))%R.
Proof. intros E H. pose proof (rnd_err x e E H) as R. apply Rabs_le_inv, R. Qed.
Ltac err_for x e := let H := fresh "ERR" in
  assert (H : (- bpow radix2 (e - 54) <= rnd x - x <= bpow radix2 (e - 54))%R) by (apply err; [lia | apply Rabs_lt; bp; lra]);
  cbn [Z.sub Z.add Z.opp Z.pos_sub Pos.pred_double Pos.sub Pos.sub_mask] in H; vm_compute (e - 54) in H; bp.

Lemma small1000 x : (Rabs x <= 1000000)%R -> (Rabs x <= bpow radix2 1020)%R.
Proof. intros H. eapply Rle_trans; [exact H|]. apply Rle_trans with (bpow radix2 20); [bp; lra | apply bpow_le; lia]. Qed.

Lemma rnd_nonneg x : (0 <= x)%R -> (0 <= rnd x)%R.
Proof. intros H. apply rnd_ge; [apply generic_format_0 | exact H]. Qed.

(** ** Reading *)
Definition exact_value (D M T : Z) : R := (IZR D + IZR M / 60 + IZR T / 3600000)%R.

Lemma sum_is D M sec T : 0 <= D <= 65535 -> 0 <= M <= 255 -> 0 <= T <= 99999999 -> is sec (rnd (IZR T / 1000)) false ->
  is (fadd (fadd (f64_of_Z D) (fdiv (f64_of_Z M) (f64_of_Z 60))) (fdiv sec (f64_of_Z 3600)))
     (rnd (rnd (IZR D + rnd (IZR M / 60)) + rnd (rnd (IZR T / 1000) / 3600))) false.
Proof.
  intros HD HM HT S.
  assert (RD : (0 <= IZR D <= 65535)%R) by (split; apply IZR_le; lia).
  assert (RM : (0 <= IZR M <= 255)%R) by (split; apply IZR_le; lia).
  assert (RT : (0 <= IZR T <= 99999999)%R) by (split; apply IZR_le; lia).
  assert (I1 : is (fdiv (f64_of_Z M) (f64_of_Z 60)) (rnd (IZR M / 60)) false).
  { apply (is_div _ _ (IZR M) 60 false false); [apply of_Z_is; lia | apply (of_Z_is 60); lia | lra | apply small1000, Rabs_le; lra]. }
  assert (P1 : (0 <= rnd (IZR M / 60) <= 256)%R).
  { split; [apply rnd_nonneg; lra | apply rnd_le; [apply (format_IZR 256); lia | lra]]. }
  assert (I2 : is (fadd (f64_of_Z D) (fdiv (f64_of_Z M) (f64_of_Z 60))) (rnd (IZR D + rnd (IZR M / 60))) false).
  { pose proof (is_add _ _ _ _ _ _ (of_Z_is D ltac:(lia)) I1 ltac:(apply small1000, Rabs_le; lra)) as I.
    destruct (Rcompare_spec (IZR D + rnd (IZR M / 60)) 0); [lra | exact I | exact I]. }
  assert (P2 : (0 <= rnd (IZR D + rnd (IZR M / 60)) <= 70000)%R).
  { split; [apply rnd_nonneg; lra | apply rnd_le; [apply (format_IZR 70000); lia | lra]]. }
  assert (P3 : (0 <= rnd (IZR T / 1000) <= 100000)%R).
  { split; [apply rnd_nonneg; lra | apply rnd_le; [apply (format_IZR 100000); lia | lra]]. }
  assert (I3 : is (fdiv sec (f64_of_Z 3600)) (rnd (rnd (IZR T / 1000) / 3600)) false).
  { apply (is_div _ _ _ 3600 false false S); [apply (of_Z_is 3600); lia | lra | apply small1000, Rabs_le; lra]. }
  assert (P4 : (0 <= rnd (rnd (IZR T / 1000) / 3600) <= 100)%R).
  { split; [apply rnd_nonneg; lra | apply rnd_le; [apply (format_IZR 100); lia | lra]]. }
  pose proof (is_add _ _ _ _ _ _ I2 I3 ltac:(apply small1000, Rabs_le; lra)) as I.
  destruct (Rcompare_spec (rnd (IZR D + rnd (IZR M / 60)) + rnd (rnd (IZR T / 1000) / 3600)) 0); [lra | exact I | exact I].
Qed.

Lemma mul_sign x w h : is x w false -> (0 <= w <= 1000000)%R ->
  is (fmul x (sign_of h)) (match h with Pos => w | Neg => - w end)%R (match h with Pos => false | Neg => true end).
Proof.
  intros I B. pose proof (is_format _ _ _ I) as F. destruct h; cbn [sign_of].
  - pose proof (is_mul _ _ _ _ _ _ I (of_Z_is 1 ltac:(lia)) ltac:(apply small1000, Rabs_le; lra)) as R.
    rewrite Rmult_1_r, (rnd_id w) in R by exact F. exact R.
  - assert (M1 : is (f64_of_Z (-1)) (-1) true).
    { exists (Bopp (Bone : binary_float 53 1024)). split; [vm_compute; reflexivity|]. split; [|split; reflexivity].
      rewrite B2R_Bopp, Bone_correct. reflexivity. }
    pose proof (is_mul _ _ _ _ _ _ I M1 ltac:(apply small1000, Rabs_le; lra)) as R.
    replace (w * -1)%R with (- w)%R in R by ring. rewrite (rnd_id (- w)) in R by (apply generic_format_opp, F). exact R.
Qed.

Lemma value_is h D M sec T : (D <= 255)%N -> (M <= 59)%N -> (T <= 59999)%N -> is sec (rnd (IZR (Z.of_N T) / 1000)) false ->
  exists w, is (dms_value (h, D, M, sec)) (match h with Pos => w | Neg => - w end)%R (match h with Pos => false | Neg => true end) /\
    (0 <= w)%R /\ (Rabs (w - exact_value (Z.of_N D) (Z.of_N M) (Z.of_N T)) <= bpow radix2 (-44))%R /\
    (M = 0%N -> T = 0%N -> w = IZR (Z.of_N D)).
Proof.
  intros HD HM HT S. set (d := Z.of_N D). set (m := Z.of_N M). set (t := Z.of_N T).
  assert (RD : (0 <= IZR d <= 255)%R) by (split; apply IZR_le; lia).
  assert (RM : (0 <= IZR m <= 59)%R) by (split; apply IZR_le; lia).
  assert (RT : (0 <= IZR t <= 59999)%R) by (split; apply IZR_le; lia).
  pose proof (sum_is d m sec t ltac:(lia) ltac:(lia) ltac:(lia) S) as I.
  set (w := rnd (rnd (IZR d + rnd (IZR m / 60)) + rnd (rnd (IZR t / 1000) / 3600))) in *.
  assert (E1 := err (IZR m / 60) 0 ltac:(lia) ltac:(apply Rabs_lt; bp; lra)). vm_compute (0 - 54) in E1. bp.
  assert (E2 := err (IZR d + rnd (IZR m / 60)) 8 ltac:(lia) ltac:(apply Rabs_lt; bp; lra)). vm_compute (8 - 54) in E2. bp.
  assert (E3 := err (IZR t / 1000) 6 ltac:(lia) ltac:(apply Rabs_lt; bp; lra)). vm_compute (6 - 54) in E3. bp.
  assert (E4 := err (rnd (IZR t / 1000) / 3600) 0 ltac:(lia) ltac:(apply Rabs_lt; bp; lra)). vm_compute (0 - 54) in E4. bp.
  assert (E5 := err (rnd (IZR d + rnd (IZR m / 60)) + rnd (rnd (IZR t / 1000) / 3600)) 8 ltac:(lia) ltac:(apply Rabs_lt; bp; lra)).
  vm_compute (8 - 54) in E5. bp. fold w in E5.
  assert (P : (0 <= w)%R).
  { apply rnd_nonneg. apply Rplus_le_le_0_compat; apply rnd_nonneg.
    - pose proof (rnd_nonneg (IZR m / 60) ltac:(lra)). lra.
    - pose proof (rnd_nonneg (IZR t / 1000) ltac:(lra)). lra. }
  exists w. split; [|split; [exact P|split]].
  - unfold dms_value. apply mul_sign; [exact I | split; [exact P | lra]].
  - unfold exact_value. apply Rabs_le. bp. lra.
  - intros -> ->. subst w m t. cbn [Z.of_N]. unfold Rdiv. rewrite !Rmult_0_l. rewrite (rnd_id 0) by apply generic_format_0.
    rewrite Rmult_0_l, (rnd_id 0) by apply generic_format_0. rewrite !Rplus_0_r.
    rewrite (rnd_id (IZR d)) by (apply format_IZR; lia). apply rnd_id, format_IZR. lia.
Qed.

(** ** Writing *)
Definition dir_char (lat s : bool) : N :=
  match lat, s with true, false => 78 | true, true => 83 | false, false => 69 | false, true => 87 end%N.
Definition minutes_of (a : R) : R := rnd ((a - IZR (Zfloor a)) * 60).
Definition seconds_of (a : R) : R := rnd ((minutes_of a - IZR (Zfloor (minutes_of a))) * 60).

Lemma frac_bounds a : (0 <= a - IZR (Zfloor a) < 1)%R.
Proof. pose proof (Zfloor_lb a). pose proof (Zfloor_ub a). lra. Qed.
Lemma minutes_bounds a : (0 <= minutes_of a <= 60)%R.
Proof.
  pose proof (frac_bounds a). unfold minutes_of. split; [apply rnd_nonneg; lra | apply rnd_le; [apply (format_IZR 60); lia | lra]].
Qed.
Lemma seconds_bounds a : (0 <= seconds_of a <= 60)%R.
Proof.
  pose proof (frac_bounds (minutes_of a)). unfold seconds_of. split; [apply rnd_nonneg; lra | apply rnd_le; [apply (format_IZR 60); lia | lra]].
Qed.

Lemma parts_is x r s lat : is x r s -> (Rabs r < 256)%R -> exists sec,
  decimal_to_dms x lat = (Z.to_N (Zfloor (Rabs r)), Z.to_N (Zfloor (minutes_of (Rabs r))), sec, dir_char lat s) /\
  is sec (seconds_of (Rabs r)) false.
Proof.
  intros I B. pose proof (is_abs _ _ _ I) as A. set (a := Rabs r) in *.
  assert (A0 : (0 <= a)%R) by apply Rabs_pos.
  pose proof (is_fract _ _ A) as FR. pose proof (frac_bounds a) as FB.
  pose proof (is_mul _ _ _ _ _ _ FR (of_Z_is 60 ltac:(lia)) ltac:(apply small1000, Rabs_le; lra)) as G. cbn [xorb] in G.
  change (rnd ((a - IZR (Zfloor a)) * 60)) with (minutes_of a) in G.
  pose proof (is_fract _ _ G) as GF. pose proof (frac_bounds (minutes_of a)) as GB.
  pose proof (is_mul _ _ _ _ _ _ GF (of_Z_is 60 ltac:(lia)) ltac:(apply small1000, Rabs_le; lra)) as S. cbn [xorb] in S.
  eexists. split; [|exact S]. unfold decimal_to_dms. rewrite (is_neg _ _ _ I).
  rewrite (is_u8 _ _ (is_trunc _ _ A)), (is_u8 _ _ (is_trunc _ _ G)), !Zfloor_IZR.
  assert (F1 : 0 <= Zfloor a <= 255).
  { split; [apply Zfloor_lub; exact A0|]. assert (Zfloor a < 256); [|lia]. apply lt_IZR. pose proof (Zfloor_lb a). lra. }
  assert (F2 : 0 <= Zfloor (minutes_of a) <= 60).
  { pose proof (minutes_bounds a). split; [apply Zfloor_lub; lra|]. apply le_IZR. pose proof (Zfloor_lb (minutes_of a)). lra. }
  rewrite !N.min_r by lia. reflexivity.
Qed.

Definition limit : f64 := f64_of_dec false 1 6.
Lemma limit_is : exists l, is limit l false /\ (bpow radix2 (-20) <= l <= bpow radix2 (-19))%R.
Proof.
  assert (B : valid_binary 53 1024 limit = true) by (vm_compute; reflexivity).
  exists (B2R (SF2B limit B)). split.
  - exists (SF2B limit B). split; [symmetry; apply B2SF_SF2B|]. split; [reflexivity|].
    split; [rewrite is_finite_SF2B; vm_compute; reflexivity | rewrite Bsign_SF2B; vm_compute; reflexivity].
  - rewrite B2R_SF2B. assert (E : exists m e, limit = S754_finite false m e) by (vm_compute; eauto).
    replace limit with (S754_finite false 4722366482869645 (-72)) by (vm_compute; reflexivity). cbn [SF2R]. unfold F2R. cbn [Fnum Fexp cond_Zopp]. bp. lra.
Qed.

Lemma carry_iff sec r : is sec r false -> (0 <= r <= 60)%R ->
  ((60 - bpow radix2 (-21) <= r)%R -> SFltb (fabs (fsub sec (f64_of_Z 60))) limit = true) /\
  ((r <= 60 - bpow radix2 (-18))%R -> SFltb (fabs (fsub sec (f64_of_Z 60))) limit = false) /\
  (SFltb (fabs (fsub sec (f64_of_Z 60))) limit = true -> (60 - bpow radix2 (-18) < r)%R).
Proof.
  intros I B. pose proof (is_abs _ _ _ (is_sub _ _ _ _ _ _ I (of_Z_is 60 ltac:(lia)) ltac:(apply small1000, Rabs_le; lra))) as [c [-> [Ec [Fc _]]]].
  destruct limit_is as [l [[b [-> [El [Fl _]]]] L]].
  assert (W : forall k, -1000 <= k -> generic_format radix2 fexp64 (- bpow radix2 k)).
  { intros k K. apply generic_format_opp, generic_format_bpow. unfold SpecFloat.fexp, SpecFloat.emin. lia. }
  assert (A : (60 - bpow radix2 (-21) <= r)%R -> SFltb (B2SF c) (B2SF b) = true).
  { intros H. apply (SFltb_real 53 1024); [exact Fc | exact Fl |]. rewrite Ec, El. apply Rle_lt_trans with (bpow radix2 (-21)); [|bp; lra].
    apply Rabs_le. split; [apply rnd_ge; [apply W; lia | lra]|]. apply Rle_trans with 0%R; [|apply bpow_ge_0].
    apply rnd_le; [apply generic_format_0 | lra]. }
  assert (C : (r <= 60 - bpow radix2 (-18))%R -> SFltb (B2SF c) (B2SF b) = false).
  { intros H. destruct (SFltb (B2SF c) (B2SF b)) eqn:E; [|reflexivity]. exfalso.
    apply (SFltb_real 53 1024) in E; [|exact Fc|exact Fl]. rewrite Ec, El in E.
    assert (X : (rnd (r - IZR 60) <= - bpow radix2 (-18))%R) by (apply rnd_le; [apply W; lia | lra]).
    rewrite Rabs_left1 in E by (bp; lra). bp. lra. }
  split; [exact A|]. split; [exact C|]. intros E. destruct (Rlt_le_dec (60 - bpow radix2 (-18)) r) as [H|H]; [exact H|].
  rewrite (C H) in E. discriminate.
Qed.

Lemma fmt_uint_len2 n : (n < 100)%N -> (List.length (fmt_uint 10 n) <= 2)%nat.
Proof.
  intros H. assert (G : forallb (fun k => Nat.leb (List.length (fmt_uint 10 (N.of_nat k))) 2) (seq 0 100) = true) by (vm_compute; reflexivity).
  rewrite forallb_forall in G. specialize (G (N.to_nat n)). rewrite Nnat.N2Nat.id in G. apply Nat.leb_le, G, in_seq. lia.
Qed.
Lemma fmt_uint_len3 n : (n < 1000)%N -> (List.length (fmt_uint 10 n) <= 3)%nat.
Proof.
  intros H. assert (G : forallb (fun k => Nat.leb (List.length (fmt_uint 10 (N.of_nat k))) 3) (seq 0 1000) = true) by (vm_compute; reflexivity).
  rewrite forallb_forall in G. specialize (G (N.to_nat n)). rewrite Nnat.N2Nat.id in G. apply Nat.leb_le, G, in_seq. lia.
Qed.

Lemma pad_left_app c w a b : (List.length b <= w)%nat -> pad_left c w (a ++ b) = pad_left c (w - List.length b) a ++ b.
Proof.
  intros H. unfold pad_left. rewrite app_length, app_assoc. f_equal. f_equal. f_equal. lia.
Qed.
Lemma pad_left_len c w s : (List.length s <= w)%nat -> List.length (pad_left c w s) = w.
Proof. intros H. unfold pad_left. rewrite app_length, repeat_length. lia. Qed.

Lemma fmt_sec sec r ms : is sec r false -> (Rabs (r * 1000 - IZR (Z.of_N ms)) < 1 / 2)%R ->
  fmt_fixed 6 3 sec = Some (seconds_text ms).
Proof.
  intros I H. unfold fmt_fixed. change (Z.of_nat 3) with 3. rewrite (scaled_near _ _ (Z.of_N ms) I ltac:(lia) H). rewrite N2Z.id.
  rewrite (is_neg _ _ _ I). change (10 ^ N.of_nat 3)%N with 1000%N. f_equal. unfold seconds_text, digits.
  assert (L : List.length (pad_left 48 3 (fmt_uint 10 (ms mod 1000))) = 3%nat).
  { apply pad_left_len, fmt_uint_len3, N.mod_lt. lia. }
  rewrite pad_left_app by (rewrite app_length, L; cbn; lia). rewrite app_length, L. reflexivity.
Qed.

Lemma zero_is : is (S754_zero false) 0 false.
Proof. exists (B754_zero false). auto. Qed.

(** [x] close enough to a coordinate on the millisecond grid *)
Lemma fmt_grid x r s lat D M T : is x r s -> 0 <= D <= 255 -> 0 <= M <= 59 -> 0 <= T <= 59999 ->
  (Rabs (Rabs r - exact_value D M T) <= bpow radix2 (-44))%R -> (M = 0 -> T = 0 -> Rabs r = IZR D) ->
  dms_fmt x lat = Some (dir_char lat s :: digits 3 (Z.to_N D) ++ s2t "." ++ digits 2 (Z.to_N M) ++ s2t "." ++ seconds_text (Z.to_N T)).
Proof.
  intros I HD HM HT NEAR EXACT. set (a := Rabs r) in *.
  assert (RD : (0 <= IZR D <= 255)%R) by (split; apply IZR_le; lia).
  assert (RM : (0 <= IZR M <= 59)%R) by (split; apply IZR_le; lia).
  assert (RT : (0 <= IZR T <= 59999)%R) by (split; apply IZR_le; lia).
  apply Rabs_le_inv in NEAR. unfold exact_value in NEAR. bp.
  assert (FD : Zfloor a = D).
  { apply Zfloor_imp. rewrite plus_IZR. destruct (Z.eq_dec M 0) as [EM|NM]; [destruct (Z.eq_dec T 0) as [ET|NT]|].
    - rewrite (EXACT EM ET). lra.
    - assert (1 <= IZR T)%R by (apply IZR_le; lia). lra.
    - assert (1 <= IZR M)%R by (apply IZR_le; lia). lra. }
  destruct (parts_is x r s lat I) as [sec [P S]]; [fold a; lra|]. fold a in P, S. rewrite FD in P.
  assert (NEARM : (IZR M + IZR T / 60000 - bpow radix2 (-37) <= minutes_of a <= IZR M + IZR T / 60000 + bpow radix2 (-37))%R).
  { unfold minutes_of. rewrite FD. assert (E := err ((a - IZR D) * 60) 6 ltac:(lia) ltac:(apply Rabs_lt; bp; lra)). vm_compute (6 - 54) in E. bp. lra. }
  bp. unfold dms_fmt. rewrite P. fold limit.
  pose proof (seconds_bounds a) as SB. destruct (carry_iff sec _ S SB) as [C1 [C2 _]].
  assert (CASE : (Zfloor (minutes_of a) = M /\ (Rabs (seconds_of a * 1000 - IZR T) < 1 / 2)%R /\ (seconds_of a <= 60 - bpow radix2 (-18))%R) \/
                 (Zfloor (minutes_of a) = M - 1 /\ T = 0 /\ 1 <= M /\ (60 - bpow radix2 (-21) <= seconds_of a)%R)).
  { set (g := minutes_of a) in *. destruct (Rlt_le_dec g (IZR M)) as [LT|GE].
    - right. assert (T0 : T = 0).
      { destruct (Z.eq_dec T 0) as [|N]; [assumption|]. assert (1 <= IZR T)%R by (apply IZR_le; lia). exfalso. lra. }
      subst T. assert (M1 : 1 <= M).
      { destruct (Z.eq_dec M 0) as [E|N]; [|lia]. exfalso. pose proof (minutes_bounds a). fold g in H. subst M. lra. }
      assert (FG : Zfloor g = M - 1).
      { apply Zfloor_imp. rewrite plus_IZR, minus_IZR. lra. }
      split; [exact FG|]. split; [reflexivity|]. split; [exact M1|].
      unfold seconds_of. fold g. rewrite FG, minus_IZR.
      assert (E := err ((g - (IZR M - 1)) * 60) 6 ltac:(lia) ltac:(apply Rabs_lt; bp; lra)). vm_compute (6 - 54) in E. bp. lra.
    - left. assert (FG : Zfloor g = M). { apply Zfloor_imp. rewrite plus_IZR. lra. }
      split; [exact FG|]. unfold seconds_of. fold g. rewrite FG.
      assert (E := err ((g - IZR M) * 60) 6 ltac:(lia) ltac:(apply Rabs_lt; bp; lra)). vm_compute (6 - 54) in E. bp.
      split; [apply Rabs_lt; lra | lra]. }
  destruct CASE as [[FG [NS LE]]|[FG [T0 [M1 GE]]]].
  - rewrite FG. rewrite (C2 LE). rewrite (fmt_sec _ _ (Z.to_N T) S) by (rewrite Z2N.id by lia; exact NS). reflexivity.
  - rewrite FG. rewrite (C1 GE). rewrite (fmt_sec _ _ 0%N zero_is) by (cbn; rewrite Rmult_0_l, Rminus_0_r, Rabs_R0; lra).
    subst T. unfold digits. replace (Z.to_N (M - 1) + 1)%N with (Z.to_N M) by lia. reflexivity.
Qed.

(** ** Parsing the texts *)
Lemma take_digits_val s : forall acc k r, Forall (fun c => is_digit c = true) s -> (match r with c :: _ => is_digit c = false | [] => True end) ->
  exists v, digits_val 10 acc s = Some v /\ take_digits acc k (s ++ r) = (v, (k + List.length s)%nat, r).
Proof.
  induction s as [|c s IH]; intros acc k r F R; cbn [app digits_val List.length].
  - exists acc. split; [reflexivity|]. destruct r as [|c r]; cbn [take_digits]; [f_equal; f_equal; lia|]. rewrite R. f_equal. f_equal. lia.
  - inversion F as [|? ? D F']; subst. cbn [take_digits]. rewrite D. unfold digit_val. rewrite D.
    assert (X : (c - 48 <? 10)%N = true) by (unfold is_digit in D; lia). rewrite X.
    destruct (IH (acc * 10 + (c - 48))%N (S k) r F' R) as [v [V W]]. exists v. split; [exact V|]. rewrite W. f_equal. f_equal. lia.
Qed.
Lemma digits_chars w n : Forall (fun c => is_digit c = true) (digits w n).
Proof.
  apply pad_fmt_chars; [lia|]. intros d H. unfold digit_char, is_digit. destruct (d <? 10)%N eqn:E; lia.
Qed.
Lemma digits_nonnil w n : digits w n <> [].
Proof. unfold digits, pad_left. intros E. apply app_eq_nil in E. destruct E as [_ E]. revert E. apply fmt_uint_nonnil. Qed.

Lemma digits_val_acc s : forall acc v, digits_val 10 0 s = Some v -> digits_val 10 acc s = Some (acc * 10 ^ N.of_nat (List.length s) + v)%N.
Proof.
  assert (G : forall s acc v a, digits_val 10 a s = Some v -> digits_val 10 (acc + a) s = Some (acc * 10 ^ N.of_nat (List.length s) + v)%N).
  { induction s0 as [|c s0 IH]; intros acc v a E; cbn [digits_val List.length] in *.
    - injection E as <-. rewrite N.mul_1_r. reflexivity.
    - destruct (digit_val 10 c) as [d|]; [|discriminate].
      replace ((acc + a) * 10 + d)%N with (acc * 10 + (a * 10 + d))%N by lia. rewrite (IH _ _ _ E).
      rewrite Nnat.Nat2N.inj_succ, N.pow_succ_r'. f_equal. lia. }
  intros acc v E. replace acc with (acc + 0)%N at 1 by lia. apply G, E.
Qed.

Lemma parse_seconds ms : (ms <= 60000)%N -> exists sec, parse_f64 (seconds_text ms) = Some sec /\ is sec (rnd (IZR (Z.of_N ms) / 1000)) false.
Proof.
  intros H. exists (dec_float 53 1024 false ms (- Z.of_N 3)). split.
  2:{ apply (dec_float_is ms 3); [lia|]. change (10 ^ 15)%N with 1000000000000000%N. lia. }
  unfold parse_f64, parse_float. unfold seconds_text.
  set (A := digits 2 (ms / 1000)). set (B := digits 3 (ms mod 1000)).
  pose proof (digits_chars 2 (ms / 1000)) as FA. fold A in FA. pose proof (digits_chars 3 (ms mod 1000)) as FB. fold B in FB.
  pose proof (digits_nonnil 2 (ms / 1000)) as NA. fold A in NA.
  assert (VA : digits_val 10 0 A = Some (ms / 1000)%N) by (apply digits_pad_fmt; lia).
  assert (VB : digits_val 10 0 B = Some (ms mod 1000)%N) by (apply digits_pad_fmt; lia).
  assert (LB : List.length B = 3%nat) by (apply pad_left_len, fmt_uint_len3, N.mod_lt; lia).
  destruct A as [|c A]; [congruence|]. inversion FA as [|? ? DC FA']; subst.
  cbn [app]. assert (C45 : (c =? 45)%N = false) by (unfold is_digit in DC; lia). assert (C43 : (c =? 43)%N = false) by (unfold is_digit in DC; lia).
  rewrite C45, C43.
  assert (NI : forall t : text, match t with x :: _ => is_digit x = false | [] => True end ->
             eqb (map lower1 (c :: A ++ s2t "." ++ B)) t = false).
  { intros t Ht. rewrite eqb_false. intros E. destruct t as [|x t]; [discriminate|]. cbn [map] in E. injection E as E _.
    unfold lower1 in E. assert (is_upper c = false) as U by (unfold is_digit, is_upper in *; lia). rewrite U in E. subst x.
    rewrite DC in Ht. discriminate. }
  rewrite (NI (s2t "inf")) by reflexivity. rewrite (NI (s2t "infinity")) by reflexivity. rewrite (NI (s2t "nan")) by reflexivity. cbn [orb].
  destruct (take_digits_val (c :: A) 0 0 (s2t "." ++ B) FA) as [v [V W]]; [reflexivity|].
  rewrite VA in V. injection V as <-. cbn [app] in W. rewrite W. cbn [s2t app String.list_ascii_of_string map].
  change (s2t ".") with [46%N] in *. cbn [app].
  change ((46 =? 46)%N) with true. cbv iota.
  destruct (take_digits_val B (ms / 1000)%N 0 [] FB I) as [v' [V' W']]. rewrite app_nil_r in W'. rewrite W'.
  rewrite (digits_val_acc _ _ _ VB) in V'. injection V' as <-. rewrite LB. cbn [Nat.add List.length Nat.eqb parse_exp].
  replace (ms / 1000 * 10 ^ N.of_nat 3 + ms mod 1000)%N with ms; [reflexivity|].
  change (10 ^ N.of_nat 3)%N with 1000%N. pose proof (N.div_mod' ms 1000). lia.
Qed.

Lemma read_write_part lat (h : string) deg min ms : (if lat : bool then latitude_letter h else longitude_letter h) ->
  (deg <= 255)%N -> (min <= 59)%N -> (ms <= 59999)%N ->
  exists part, parse_part (s2t h) (digits 3 deg) (digits 2 min) (seconds_text ms) = Ret part /\
    dms_fmt (dms_value part) lat = Some (coordinate_text h deg min ms).
Proof.
  intros HL HD HM HT. destruct (parse_seconds ms ltac:(lia)) as [sec [PS IS]].
  assert (PD : parse_u16 (digits 3 deg) = Some deg) by (apply parse_uint_fmt; unfold u16_max; lia).
  assert (PM : parse_u8 (digits 2 min) = Some min) by (apply parse_uint_fmt; unfold u8_max; lia).
  assert (HH : exists sg, hemi_from (s2t h) = Ret sg /\
     s2t h = [dir_char lat (match sg with Pos => false | Neg => true end)]).
  { destruct lat; destruct HL as [-> | ->].
    - exists Pos. split; reflexivity.
    - exists Neg. split; reflexivity.
    - exists Pos. split; reflexivity.
    - exists Neg. split; reflexivity. }
  destruct HH as [sg [HE HC]]. exists (sg, deg, min, sec). unfold parse_part. rewrite HE, PD, PM, PS. split; [reflexivity|].
  destruct (value_is sg deg min sec ms HD HM HT IS) as [w [I [W0 [NE EX]]]].
  assert (RA : Rabs (match sg with Pos => w | Neg => - w end) = w) by (destruct sg; [|rewrite Rabs_Ropp]; rewrite Rabs_pos_eq; auto).
  eapply eq_trans; [apply (fmt_grid _ _ _ lat (Z.of_N deg) (Z.of_N min) (Z.of_N ms) I); [lia | lia | lia | rewrite RA; exact NE |]|].
  - intros E1 E2. rewrite RA. apply EX; lia.
  - rewrite !N2Z.id. unfold coordinate_text. rewrite HC. reflexivity.
Qed.

(** ** Any double *)
Lemma round_even_close n d : 0 < d -> 2 * Z.abs (n - round_even n d * d) <= d.
Proof.
  intros D. unfold round_even. pose proof (Z.div_mod n d ltac:(lia)) as DM. pose proof (Z.mod_pos_bound n d D) as MB.
  set (q := n / d) in *. set (r := n mod d) in *. clearbody q r.
  destruct (Z.compare_spec (2 * r) d) as [C|C|C]; [destruct (Z.even q)| |]; nia.
Qed.
Lemma round_even_nonneg n d : 0 < d -> 0 <= n -> 0 <= round_even n d.
Proof.
  intros D N. unfold round_even. pose proof (Z.div_pos n d N D). destruct (2 * (n mod d) ?= d); [destruct (Z.even (n / d))| |]; lia.
Qed.
Lemma scaled_close x r : is x r false -> exists n, scaled 3 x = Some n /\ (Rabs (r * 1000 - IZR (Z.of_N n)) <= 1 / 2)%R.
Proof.
  intros I. destruct (is_finite_cases x r I) as [[-> ->]|[m [e [-> [E [B _]]]]]].
  - exists 0%N. split; [reflexivity|]. cbn. rewrite Rmult_0_l, Rminus_0_r, Rabs_R0. lra.
  - cbn [scaled]. eexists. split; [reflexivity|]. rewrite E. change (10 ^ 3) with 1000. destruct e as [|p|p].
    + rewrite Z2N.id by (cbn; lia). cbn [bpow]. change (2 ^ 0) with 1. rewrite !mult_IZR. rewrite !Rmult_1_r, Rminus_diag_eq by reflexivity. rewrite Rabs_R0. lra.
    + rewrite Z2N.id by (pose proof (Z.pow_pos_nonneg 2 (Zpos p)); nia). rewrite <- (IZR_Zpower radix2) by lia. rewrite !mult_IZR.
      rewrite Rminus_diag_eq by reflexivity. rewrite Rabs_R0. lra.
    + rewrite bpow_neg_div. set (d := 2 ^ Zpos p) in *. assert (D : 0 < d) by (apply Z.pow_pos_nonneg; lia).
      rewrite Z2N.id by (apply round_even_nonneg; lia).
      pose proof (round_even_close (Zpos m * 1000) d D) as C. apply IZR_le in C. rewrite mult_IZR, abs_IZR, minus_IZR, !mult_IZR in C.
      assert (DR : (0 < IZR d)%R) by (apply IZR_lt; exact D). set (k := IZR (round_even (Zpos m * 1000) d)) in *.
      replace (IZR (Zpos m) * 1000 - k * IZR d)%R with ((IZR (Zpos m) / IZR d * 1000 - k) * IZR d)%R in C by (field; lra).
      rewrite Rabs_mult, (Rabs_pos_eq (IZR d)) in C by lra. nra.
Qed.
Lemma fmt_sec_any sec r : is sec r false -> exists ms, fmt_fixed 6 3 sec = Some (seconds_text ms) /\
  (Rabs (r * 1000 - IZR (Z.of_N ms)) <= 1 / 2)%R.
Proof.
  intros I. destruct (scaled_close _ _ I) as [n [E C]]. exists n. split; [|exact C].
  unfold fmt_fixed. change (Z.of_nat 3) with 3. rewrite E. rewrite (is_neg _ _ _ I). change (10 ^ N.of_nat 3)%N with 1000%N. f_equal. unfold seconds_text, digits.
  assert (L : List.length (pad_left 48 3 (fmt_uint 10 (n mod 1000))) = 3%nat).
  { apply pad_left_len, fmt_uint_len3, N.mod_lt. lia. }
  rewrite pad_left_app by (rewrite app_length, L; cbn; lia). rewrite app_length, L. reflexivity.
Qed.

Lemma finite_is x : finite x -> is x (real_value x) (is_sign_negative x).
Proof.
  intros [F V]. exists (SF2B x V). split; [symmetry; apply B2SF_SF2B|]. split; [apply B2R_SF2B|].
  split; [rewrite is_finite_SF2B; exact F|]. rewrite Bsign_SF2B. destruct x; reflexivity.
Qed.

Lemma fmt_close x lat : finite x -> (Rabs (real_value x) < 256)%R -> exists deg min ms,
  dms_fmt x lat = Some (dir_char lat (is_sign_negative x) :: digits 3 deg ++ s2t "." ++ digits 2 min ++ s2t "." ++ seconds_text ms) /\
  (deg <= 255)%N /\ (min <= 60)%N /\ (ms <= 60000)%N /\
  (Rabs (Rabs (real_value x) * 3600000 - (3600000 * IZR (Z.of_N deg) + 60000 * IZR (Z.of_N min) + IZR (Z.of_N ms))) <= 501 / 1000)%R.
Proof.
  intros F B. pose proof (finite_is x F) as I. destruct (parts_is x _ _ lat I B) as [sec [P S]].
  set (a := Rabs (real_value x)) in *. assert (A0 : (0 <= a)%R) by apply Rabs_pos.
  pose proof (frac_bounds a) as FB. pose proof (minutes_bounds a) as MB. pose proof (frac_bounds (minutes_of a)) as GB. pose proof (seconds_bounds a) as SB.
  assert (E1 := err ((a - IZR (Zfloor a)) * 60) 6 ltac:(lia) ltac:(apply Rabs_lt; bp; lra)). vm_compute (6 - 54) in E1. bp. fold (minutes_of a) in E1.
  assert (E2 := err ((minutes_of a - IZR (Zfloor (minutes_of a))) * 60) 6 ltac:(lia) ltac:(apply Rabs_lt; bp; lra)). vm_compute (6 - 54) in E2. bp. fold (seconds_of a) in E2.
  assert (F1 : 0 <= Zfloor a <= 255).
  { split; [apply Zfloor_lub; exact A0|]. assert (Zfloor a < 256); [|lia]. apply lt_IZR. lra. }
  assert (F2 : 0 <= Zfloor (minutes_of a) <= 60).
  { split; [apply Zfloor_lub; lra|]. apply le_IZR. lra. }
  destruct (carry_iff sec _ S SB) as [_ [_ CA]]. unfold dms_fmt. rewrite P. fold limit.
  assert (MIN59 : (60 - bpow radix2 (-18) < seconds_of a)%R -> Zfloor (minutes_of a) <= 59).
  { intros H. destruct (Z.eq_dec (Zfloor (minutes_of a)) 60) as [E|N]; [|lia]. exfalso.
    assert (G60 : minutes_of a = 60%R) by (rewrite E in GB; lra). unfold seconds_of in H. rewrite G60 in H.
    replace (Zfloor 60) with 60 in H by (symmetry; apply (Zfloor_IZR 60)).
    replace ((60 - 60) * 60)%R with 0%R in H by ring. rewrite (rnd_id 0) in H by apply generic_format_0. bp. lra. }
  destruct (SFltb (fabs (fsub sec (f64_of_Z 60))) limit) eqn:CE.
  - specialize (CA eq_refl). specialize (MIN59 CA). bp.
    rewrite (fmt_sec _ _ 0%N zero_is) by (cbn; rewrite Rmult_0_l, Rminus_0_r, Rabs_R0; lra).
    exists (Z.to_N (Zfloor a)), (Z.to_N (Zfloor (minutes_of a)) + 1)%N, 0%N. split; [reflexivity|]. split; [lia|]. split; [lia|]. split; [lia|].
    rewrite N2Z.inj_add, !Z2N.id by lia. rewrite plus_IZR. cbn [Z.of_N]. apply Rabs_le. lra.
  - destruct (fmt_sec_any _ _ S) as [ms [-> C]]. apply Rabs_le_inv in C.
    exists (Z.to_N (Zfloor a)), (Z.to_N (Zfloor (minutes_of a))), ms. split; [reflexivity|]. split; [lia|]. split; [lia|]. split.
    + assert (X : Z.of_N ms < 60001); [|lia]. apply lt_IZR. lra.
    + rewrite !Z2N.id by lia. apply Rabs_le. lra.
Qed.

(** ** Signs *)

Lemma is_nonneg_value x r : is x r false -> (0 <= r)%R.
Proof.
  intros I. destruct (is_finite_cases _ _ I) as [[_ ->]|[m [e [_ [-> _]]]]]; [lra|].
  apply Rmult_le_pos; [apply IZR_le; lia | apply bpow_ge_0].
Qed.
Lemma sign_ok h deg min sec : (deg <= 65535)%N -> (min <= 255)%N -> sec = S754_infinity false \/ (finite sec /\ is_sign_negative sec = false) ->
  (valid_binary 53 1024 (dms_value (h, deg, min, sec)) = true /\ dms_value (h, deg, min, sec) <> S754_nan) /\
  is_sign_negative (dms_value (h, deg, min, sec)) = match h with Pos => false | Neg => true end.
Proof.
  intros HD HM NS. set (d := Z.of_N deg). set (m := Z.of_N min).
  assert (RD : (0 <= IZR d <= 65535)%R) by (split; apply IZR_le; lia).
  assert (RM : (0 <= IZR m <= 255)%R) by (split; apply IZR_le; lia).
  assert (I1 : is (fdiv (f64_of_Z m) (f64_of_Z 60)) (rnd (IZR m / 60)) false).
  { apply (is_div _ _ (IZR m) 60 false false); [apply of_Z_is; lia | apply (of_Z_is 60); lia | lra | apply small1000, Rabs_le; lra]. }
  assert (P1 : (0 <= rnd (IZR m / 60) <= 256)%R).
  { split; [apply rnd_nonneg; lra | apply rnd_le; [apply (format_IZR 256); lia | lra]]. }
  assert (I2 : is (fadd (f64_of_Z d) (fdiv (f64_of_Z m) (f64_of_Z 60))) (rnd (IZR d + rnd (IZR m / 60))) false).
  { pose proof (is_add _ _ _ _ _ _ (of_Z_is d ltac:(lia)) I1 ltac:(apply small1000, Rabs_le; lra)) as I.
    destruct (Rcompare_spec (IZR d + rnd (IZR m / 60)) 0); [lra | exact I | exact I]. }
  assert (P2 : (0 <= rnd (IZR d + rnd (IZR m / 60)) <= 70000)%R).
  { split; [apply rnd_nonneg; lra | apply rnd_le; [apply (format_IZR 70000); lia | lra]]. }
  unfold dms_value. fold d m. destruct NS as [->|[F S]].
  - destruct I2 as [b [-> [_ [Fb _]]]].
    replace (fdiv (S754_infinity false) (f64_of_Z 3600)) with (S754_infinity false) by (vm_compute; reflexivity).
    assert (E : fadd (B2SF b) (S754_infinity false) = S754_infinity false) by (destruct b; try discriminate; reflexivity).
    rewrite E. destruct h; vm_compute; split; try split; congruence.
  - pose proof (finite_is _ F) as I. rewrite S in I. pose proof (is_nonneg_value _ _ I) as R0.
    assert (RB : (real_value sec / 3600 <= bpow radix2 1014)%R).
    { assert (X : (real_value sec <= bpow radix2 1024)%R).
      { destruct I as [b [_ [<- [_ _]]]]. pose proof (abs_B2R_lt_emax 53 1024 b) as L. apply Rabs_lt_inv in L. lra. }
      replace 1024 with (1014 + 10) in X by lia. rewrite bpow_plus in X. assert (0 <= bpow radix2 1014)%R by apply bpow_ge_0.
      change (bpow radix2 10) with 1024%R in X. lra. }
    assert (RBig : (bpow radix2 1014 + 70000 <= bpow radix2 1020)%R).
    { replace 1020 with (1014 + 6) by lia. rewrite bpow_plus. change (bpow radix2 6) with 64%R.
      assert (bpow radix2 17 <= bpow radix2 1014)%R by (apply bpow_le; lia). change (bpow radix2 17) with 131072%R in H. lra. }
    assert (I3 : is (fdiv sec (f64_of_Z 3600)) (rnd (real_value sec / 3600)) false).
    { apply (is_div _ _ _ 3600 false false I); [apply (of_Z_is 3600); lia | lra |].
      rewrite Rabs_pos_eq by lra. lra. }
    assert (P3 : (0 <= rnd (real_value sec / 3600) <= bpow radix2 1014)%R).
    { split; [apply rnd_nonneg; lra|]. apply rnd_le; [apply generic_format_bpow; unfold SpecFloat.fexp, SpecFloat.emin; lia | exact RB]. }
    assert (I4 : is (fadd (fadd (f64_of_Z d) (fdiv (f64_of_Z m) (f64_of_Z 60))) (fdiv sec (f64_of_Z 3600)))
              (rnd (rnd (IZR d + rnd (IZR m / 60)) + rnd (real_value sec / 3600))) false).
    { pose proof (is_add _ _ _ _ _ _ I2 I3) as I4.
      destruct (Rcompare_spec (rnd (IZR d + rnd (IZR m / 60)) + rnd (real_value sec / 3600)) 0); [lra | |];
        apply I4; rewrite Rabs_pos_eq; lra. }
    assert (P4 : (0 <= rnd (rnd (IZR d + rnd (IZR m / 60)) + rnd (real_value sec / 3600)) <= bpow radix2 1020)%R).
    { split; [apply rnd_nonneg; lra|]. apply rnd_le; [apply generic_format_bpow; unfold SpecFloat.fexp, SpecFloat.emin; lia | lra]. }
    set (w := rnd (rnd (IZR d + _) + _)) in *.
    assert (I5 : exists r, is (fmul (fadd (fadd (f64_of_Z d) (fdiv (f64_of_Z m) (f64_of_Z 60))) (fdiv sec (f64_of_Z 3600))) (sign_of h)) r
        (match h with Pos => false | Neg => true end)).
    { destruct h; cbn [sign_of].
      - eexists. apply (is_mul _ _ _ _ _ _ I4 (of_Z_is 1 ltac:(lia))). rewrite Rmult_1_r, Rabs_pos_eq; lra.
      - assert (M1 : is (f64_of_Z (-1)) (-1) true).
        { exists (Bopp (Bone : binary_float 53 1024)). split; [vm_compute; reflexivity|]. split; [|split; reflexivity].
          rewrite B2R_Bopp, Bone_correct. reflexivity. }
        eexists. apply (is_mul _ _ _ _ _ _ I4 M1). replace (w * -1)%R with (- w)%R by ring. rewrite Rabs_Ropp, Rabs_pos_eq; lra. }
    destruct I5 as [r I5]. split; [|apply (is_neg _ _ _ I5)].
    destruct I5 as [b [-> [_ [Fb _]]]]. split; [apply valid_binary_B2SF | destruct b; discriminate].
Qed.
Lemma sign_cases h deg min sec : (deg <= 65535)%N -> (min <= 255)%N -> nonneg sec ->
  match h with Pos => nonneg | Neg => nonpos end (dms_value (h, deg, min, sec)).
Proof.
  intros HD HM NS. destruct (sign_ok h deg min sec HD HM) as [[V NN] S].
  { destruct sec as [[|]|[|]| |[|] m e]; cbn in NS; try contradiction; [right | left | right]; try reflexivity; repeat split; assumption. }
  destruct (dms_value _) as [s|s| |s m e]; [| |congruence|]; cbn [is_sign_negative] in S; subst s; destruct h; cbn [nonneg nonpos]; auto.
Qed.

Lemma read_close (h : string) deg min ms : latitude_letter h \/ longitude_letter h -> (deg <= 255)%N -> (min <= 59)%N -> (ms <= 59999)%N ->
  exists part, parse_part (s2t h) (digits 3 deg) (digits 2 min) (seconds_text ms) = Ret part /\ finite (dms_value part) /\
    (Rabs (real_value (dms_value part) - hemisphere_sign h * (IZR (Z.of_N deg) + IZR (Z.of_N min) / 60 + IZR (Z.of_N ms) / 3600000)) <= / 10000000000000)%R.
Proof.
  intros HL HD HM HT. destruct (parse_seconds ms ltac:(lia)) as [sec [PS IS]].
  exists (match hemi_from (s2t h) with Ret g => g | _ => Pos end, deg, min, sec).
  destruct (value_is (match hemi_from (s2t h) with Ret g => g | _ => Pos end) deg min sec ms HD HM HT IS) as [w [I [_ [C _]]]].
  split.
  { assert (PD : parse_u16 (digits 3 deg) = Some deg) by (apply parse_uint_fmt; unfold u16_max; lia).
    assert (PM : parse_u8 (digits 2 min) = Some min) by (apply parse_uint_fmt; unfold u8_max; lia).
    unfold parse_part. rewrite PD, PM, PS. destruct HL as [[->| ->]|[->| ->]]; reflexivity. }
  destruct I as [b [EB [RB [FB _]]]].
  assert (EB' : dms_value (match hemi_from (s2t h) with Ret g => g | _ => Pos end, deg, min, sec) = B2SF b) by exact EB.
  rewrite EB'. split.
  { split; [rewrite is_finite_SF_B2SF; exact FB | apply valid_binary_B2SF]. }
  unfold real_value. rewrite SF2R_B2SF, RB. unfold exact_value in C. apply Rabs_le_inv in C. bp. apply Rabs_le.
  destruct HL as [[->| ->]|[->| ->]]; cbn [hemisphere_sign hemi_from s2t] in *; unfold hemisphere_sign in *; cbn in *; lra.
Qed.

Lemma coordinate_text_dir lat s deg min ms : exists h, (if lat : bool then latitude_letter h else longitude_letter h) /\
  hemisphere_sign h = (if s : bool then -1 else 1)%R /\
  dir_char lat s :: digits 3 deg ++ s2t "." ++ digits 2 min ++ s2t "." ++ seconds_text ms = coordinate_text h deg min ms.
Proof.
  destruct lat, s; [exists "S"%string | exists "N"%string | exists "W"%string | exists "E"%string];
    (split; [cbn; unfold latitude_letter, longitude_letter; auto | split; reflexivity]).
Qed.
Lemma write_close x (lat : bool) : finite x -> (Rabs (real_value x) < 256)%R -> exists h deg min ms,
  (if lat then latitude_letter h else longitude_letter h) /\
  dms_fmt x lat = Some (coordinate_text h deg min ms) /\ (deg <= 255 /\ min <= 60 /\ ms <= 60000)%N /\
  (Rabs (Rabs (real_value x) - (IZR (Z.of_N deg) + IZR (Z.of_N min) / 60 + IZR (Z.of_N ms) / 3600000)) <= 501 / 1000000 / 3600)%R /\
  (real_value x = hemisphere_sign h * Rabs (real_value x))%R.
Proof.
  intros F B. destruct (fmt_close x lat F B) as [deg [min [ms [E [A1 [A2 [A3 C]]]]]]].
  destruct (coordinate_text_dir lat (is_sign_negative x) deg min ms) as [h [L [S T]]].
  exists h, deg, min, ms. split; [exact L|]. split; [rewrite E, T; reflexivity|]. split; [auto|]. split.
  - apply Rabs_le_inv in C. apply Rabs_le. lra.
  - rewrite S. destruct x as [[|]| | |[|] m e]; cbn [is_sign_negative real_value SF2R]; unfold real_value; cbn [SF2R];
      rewrite ?Rabs_R0; try ring.
    + cbn [cond_Zopp]. unfold F2R. cbn [Fnum Fexp]. rewrite Rabs_left1; [ring|].
      assert (0 <= bpow radix2 e)%R by apply bpow_ge_0. assert (HN : (IZR (Zneg m) <= 0)%R) by (apply IZR_le; lia). change (Z.opp (Zpos m)) with (Zneg m). nra.
    + cbn [cond_Zopp]. unfold F2R. cbn [Fnum Fexp]. rewrite Rabs_pos_eq; [ring|].
      assert (0 <= bpow radix2 e)%R by apply bpow_ge_0. assert (HP : (0 <= IZR (Zpos m))%R) by (apply IZR_le; lia). nra.
Qed.
Lemma half_small : (Rabs (real_value (S754_finite true 4503599627370496 (-53))) < 256)%R.
Proof.
  unfold real_value, SF2R, F2R. cbn [cond_Zopp Fnum Fexp]. bp. apply Rabs_lt.
  rewrite opp_IZR. lra.
Qed.
Lemma part_letters h d m s part : parse_part (s2t h) d m s = Ret part ->
  (h = "N" \/ h = "E" \/ h = "n" \/ h = "e")%string /\ fst (fst (fst part)) = Pos \/
  (h = "S" \/ h = "W" \/ h = "s" \/ h = "w")%string /\ fst (fst (fst part)) = Neg.
Proof.
  unfold parse_part, hemi_from. intros H.
  assert (G : forall k, eqb (s2t h) (s2t k) = true -> h = k) by (intros k E; rewrite eqb_true in E; apply s2t_inj, E).
  destruct (eqb (s2t h) (s2t "N") || eqb (s2t h) (s2t "E") || eqb (s2t h) (s2t "n") || eqb (s2t h) (s2t "e")) eqn:E1.
  - left. destruct (parse_u16 d), (parse_u8 m), (parse_f64 s); try discriminate. injection H as <-. split; [|reflexivity].
    rewrite !Bool.orb_true_iff in E1. destruct E1 as [[[E|E]|E]|E]; apply G in E; auto.
  - right. destruct (eqb (s2t h) (s2t "S") || eqb (s2t h) (s2t "W") || eqb (s2t h) (s2t "s") || eqb (s2t h) (s2t "w")) eqn:E2; [|discriminate].
    destruct (parse_u16 d), (parse_u8 m), (parse_f64 s); try discriminate. injection H as <-. split; [|reflexivity].
    rewrite !Bool.orb_true_iff in E2. destruct E2 as [[[E|E]|E]|E]; apply G in E; auto.
Qed.
Lemma sixty_text h deg min ms : s2t "N048.40.60.000" = coordinate_text h deg min ms -> (min <= 59 /\ ms <= 59999)%N -> False.
Proof.
  intros E [_ B]. assert (L2 : List.length (digits 2 (ms / 1000)) = 2%nat).
  { apply pad_left_len, fmt_uint_len2. apply N.div_lt_upper_bound; lia. }
  assert (L3 : List.length (digits 3 (ms mod 1000)) = 3%nat) by (apply pad_left_len, fmt_uint_len3, N.mod_lt; lia).
  assert (L6 : List.length (seconds_text ms) = 6%nat) by (unfold seconds_text; rewrite !app_length, L2, L3; reflexivity).
  unfold coordinate_text in E. rewrite !app_assoc in E. set (a := ((((s2t h ++ digits 3 deg) ++ s2t ".") ++ digits 2 min) ++ s2t ".")) in E.
  assert (LA : List.length a = 8%nat) by (apply (f_equal (@List.length N)) in E; rewrite app_length, L6 in E; change (List.length (s2t "N048.40.60.000")) with 14%nat in E; lia).
  apply (f_equal (skipn 8)) in E. rewrite <- LA in E at 2. rewrite skipn_app, skipn_all, Nat.sub_diag in E. cbn [skipn app] in E.
  unfold seconds_text in E. apply (f_equal (firstn 2)) in E. rewrite <- L2 in E at 2. rewrite firstn_app, firstn_all, Nat.sub_diag in E. cbn [firstn] in E. rewrite app_nil_r in E.
  assert (G : forallb (fun k => negb (eqb (digits 2 (N.of_nat k)) (s2t "60"))) (seq 0 60) = true) by (vm_compute; reflexivity).
  rewrite forallb_forall in G. specialize (G (N.to_nat (ms / 1000))). rewrite Nnat.N2Nat.id, <- E in G.
  assert (I : In (N.to_nat (ms / 1000)) (seq 0 60)). { apply in_seq. assert (ms / 1000 < 60)%N by (apply N.div_lt_upper_bound; lia). lia. }
  specialize (G I). vm_compute in G. discriminate.
Qed.
