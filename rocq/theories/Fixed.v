(** Numbers with a fixed number of decimals, written and read back. *)
From Coq Require Import Reals Psatz ZifyBool ZifyN ZifyNat.
From Flocq Require Import Core BinarySingleNaN.
From Verif Require SpecText.
From Verif Require Import Base Num NumProofs Float FloatParse FloatReal Dms DmsReal SpecDms DmsProofs.
Open Scope Z_scope.

Lemma fmt_aux_length f : forall n k acc, (n < 10 ^ N.of_nat (S k))%N -> (List.length (fmt_aux f 10 n acc) <= S k + List.length acc)%nat.
Proof.
  induction f as [|f IH]; intros n k acc H; cbn [fmt_aux]; [lia|].
  destruct (n / 10 =? 0)%N eqn:E; [cbn [List.length]; lia|].
  destruct k as [|k].
  - change (10 ^ N.of_nat 1)%N with 10%N in H. rewrite N.div_small in E by exact H. discriminate.
  - specialize (IH (n / 10)%N k (digit_char (n mod 10) :: acc)). cbn [List.length] in IH.
    rewrite Nnat.Nat2N.inj_succ, N.pow_succ_r' in H. assert (n / 10 < 10 ^ N.of_nat (S k))%N by (apply N.div_lt_upper_bound; lia). lia.
Qed.
Lemma fmt_uint_length n k : (n < 10 ^ N.of_nat (S k))%N -> (List.length (fmt_uint 10 n) <= S k)%nat.
Proof. intros H. unfold fmt_uint. pose proof (fmt_aux_length (S (N.size_nat n)) n k [] H). cbn [List.length] in *. lia. Qed.

Lemma round_NE_opp x : rnd (- x) = (- rnd x)%R.
Proof. apply round_NE_opp. Qed.
Definition signed (s : bool) (r : R) : R := if s then (- r)%R else r.
Lemma signed_abs s r : Rabs (signed s r) = Rabs r.
Proof. destruct s; [apply Rabs_Ropp | reflexivity]. Qed.
Lemma dec_float_signed s n k : (0 < k)%N -> (n < 10 ^ 15)%N ->
  is (dec_float 53 1024 s n (- Z.of_N k)) (signed s (rnd (IZR (Z.of_N n) / IZR (10 ^ Z.of_N k)))) s.
Proof.
  intros K L. destruct s; [|apply dec_float_is; assumption]. destruct n as [|p].
  - exists (B754_zero true). split; [reflexivity|]. cbn. unfold Rdiv. rewrite Rmult_0_l, round_0 by typeclasses eauto. rewrite Ropp_0. auto.
  - destruct k as [|k]; [lia|]. cbn [Z.of_N Z.opp dec_float].
    assert (TP : exists d, 10 ^ Zpos k = Zpos d) by (pose proof (Z.pow_pos_nonneg 10 (Zpos k)); destruct (10 ^ Zpos k); [lia | eauto | lia]).
    destruct TP as [d D]. rewrite D.
    pose proof (Bdiv_correct_aux 53 1024 prec64 emax64 mode_NE true p 0 false d 0) as C. cbv zeta in C.
    cbn [cond_Zopp xorb round_mode] in C.
    assert (X : F2R (Float radix2 (- Zpos p) 0) = (- IZR (Zpos p))%R) by (unfold F2R; cbn [Fnum Fexp bpow]; rewrite opp_IZR; ring). rewrite X in C. clear X.
    assert (X : F2R (Float radix2 (Zpos d) 0) = IZR (Zpos d)) by (unfold F2R; cbn; ring). rewrite X in C. clear X.
    assert (DP : (1 <= IZR (Zpos d))%R) by (apply IZR_le; lia).
    replace (- IZR (Zpos p) / IZR (Zpos d))%R with (- (IZR (Zpos p) / IZR (Zpos d)))%R in C by (field; lra).
    rewrite rnd_small in C.
    + destruct (SFdiv_core_binary 53 1024 (Zpos p) 0 (Zpos d) 0) as [[mz ez] lz]. rewrite binary_round_aux_equiv.
      destruct C as [V [C1 [C2 C3]]]. exists (SF2B _ V). split; [symmetry; apply B2SF_SF2B|].
      split; [rewrite B2R_SF2B, C1; apply round_NE_opp|]. split; [rewrite is_finite_SF2B; exact C2|]. rewrite Bsign_SF2B. exact C3.
    + rewrite Rabs_Ropp. unfold Rdiv. rewrite Rabs_mult, (Rabs_pos_eq (IZR (Zpos p))) by (apply IZR_le; lia).
      rewrite Rabs_pos_eq by (apply Rlt_le, Rinv_0_lt_compat; lra).
      apply Rle_trans with (IZR (Zpos p)).
      * rewrite <- (Rmult_1_r (IZR (Zpos p))) at 2. apply Rmult_le_compat_l; [apply IZR_le; lia|].
        rewrite <- Rinv_1. apply Rinv_le; lra.
      * apply Rle_trans with (bpow radix2 50); [|apply bpow_le; lia]. rewrite <- (IZR_Zpower radix2) by lia. apply IZR_le.
        change (radix2 ^ 50) with (2 ^ 50). change (10 ^ 15)%N with 1000000000000000%N in L. lia.
Qed.

Lemma scaled_abs k x : scaled k (fabs x) = scaled k x.
Proof. destruct x; reflexivity. Qed.
Lemma scaled_near_k k x r s z : 0 <= k -> is x r s -> 0 <= z -> (Rabs (Rabs r * IZR (10 ^ k) - IZR z) < 1 / 2)%R -> scaled k x = Some (Z.to_N z).
Proof.
  intros K I Z0 H. rewrite <- scaled_abs. apply is_abs in I. set (r' := Rabs r) in *. clearbody r'. set (q := 10 ^ k) in *.
  assert (Q : 0 < q) by (apply Z.pow_pos_nonneg; lia).
  destruct (is_finite_cases _ r' I) as [[-> ->]|[m [e [-> [E [B _]]]]]].
  - cbn [scaled]. rewrite Rmult_0_l in H. unfold Rminus in H. rewrite Rplus_0_l, Rabs_Ropp, <- abs_IZR in H.
    assert (Z.abs z < 1) by (apply lt_IZR; lra). replace z with 0 by lia. reflexivity.
  - cbn [scaled]. fold q. f_equal. f_equal. destruct e as [|p|p].
    + rewrite E in H. cbn [bpow] in H. rewrite Rmult_1_r, <- mult_IZR, <- minus_IZR, <- abs_IZR in H.
      assert (Z.abs (Zpos m * q - z) < 1) by (apply lt_IZR; lra). change (2 ^ 0) with 1. lia.
    + rewrite E in H. rewrite <- (IZR_Zpower radix2), <- !mult_IZR, <- minus_IZR, <- abs_IZR in H by lia.
      change (radix2 ^ Zpos p) with (2 ^ Zpos p) in H.
      assert (Z.abs (Zpos m * 2 ^ Zpos p * q - z) < 1) by (apply lt_IZR; lra). lia.
    + rewrite E, bpow_neg_div in H. set (d := 2 ^ Zpos p) in *. assert (D : 0 < d) by (apply Z.pow_pos_nonneg; lia).
      apply round_even_near; [exact D|]. apply lt_IZR. rewrite mult_IZR, abs_IZR, minus_IZR, !mult_IZR.
      assert (DR : (0 < IZR d)%R) by (apply IZR_lt; exact D).
      replace (IZR (Zpos m) * IZR q - IZR z * IZR d)%R with ((IZR (Zpos m) / IZR d * IZR q - IZR z) * IZR d)%R by (field; lra).
      rewrite Rabs_mult, (Rabs_pos_eq (IZR d)) by lra. nra.
Qed.
Lemma scaled_close_k k x r s : 0 <= k -> is x r s -> exists n, scaled k x = Some n /\ (Rabs (Rabs r * IZR (10 ^ k) - IZR (Z.of_N n)) <= 1 / 2)%R.
Proof.
  intros K I. rewrite <- scaled_abs. apply is_abs in I. set (r' := Rabs r) in *. clearbody r'. set (q := 10 ^ k) in *.
  assert (Q : 0 < q) by (apply Z.pow_pos_nonneg; lia).
  destruct (is_finite_cases _ r' I) as [[-> ->]|[m [e [-> [E [B _]]]]]].
  - exists 0%N. split; [reflexivity|]. cbn. rewrite Rmult_0_l, Rminus_0_r, Rabs_R0. lra.
  - cbn [scaled]. fold q. eexists. split; [reflexivity|]. rewrite E. destruct e as [|p|p].
    + rewrite Z2N.id by (change (2 ^ 0) with 1; lia). cbn [bpow]. change (2 ^ 0) with 1. rewrite !mult_IZR. rewrite !Rmult_1_r, Rminus_diag_eq by reflexivity. rewrite Rabs_R0. lra.
    + rewrite Z2N.id by (pose proof (Z.pow_pos_nonneg 2 (Zpos p)); nia). rewrite <- (IZR_Zpower radix2) by lia. rewrite !mult_IZR.
      rewrite Rminus_diag_eq by reflexivity. rewrite Rabs_R0. lra.
    + rewrite bpow_neg_div. set (d := 2 ^ Zpos p) in *. assert (D : 0 < d) by (apply Z.pow_pos_nonneg; lia).
      rewrite Z2N.id by (apply round_even_nonneg; lia).
      pose proof (round_even_close (Zpos m * q) d D) as C. apply IZR_le in C. rewrite mult_IZR, abs_IZR, minus_IZR, !mult_IZR in C.
      assert (DR : (0 < IZR d)%R) by (apply IZR_lt; exact D). set (kk := IZR (round_even (Zpos m * q) d)) in *.
      replace (IZR (Zpos m) * IZR q - kk * IZR d)%R with ((IZR (Zpos m) / IZR d * IZR q - kk) * IZR d)%R in C by (field; lra).
      rewrite Rabs_mult, (Rabs_pos_eq (IZR d)) in C by lra. nra.
Qed.

(** The text of [n / 10^k] *)
Definition fixed_body (k : nat) (n : N) : text :=
  fmt_uint 10 (n / 10 ^ N.of_nat k) ++ s2t "." ++ pad_left 48 k (fmt_uint 10 (n mod 10 ^ N.of_nat k)).
Definition fixed_text (s : bool) (k : nat) (n : N) : text := if s then 45%N :: fixed_body k n else fixed_body k n.
Lemma fmt_fixed_text k x n : scaled (Z.of_nat k) x = Some n -> fmt_fixed 0 k x = Some (fixed_text (is_sign_negative x) k n).
Proof. intros E. unfold fmt_fixed. rewrite E. reflexivity. Qed.

Lemma digits0 n : Forall (fun c => is_digit c = true) (fmt_uint 10 n).
Proof. exact (digits_chars 0 n). Qed.
Lemma fixed_decimal s k n : SpecText.decimal (fixed_text s (S k) n).
Proof.
  assert (A : forall w m, SpecText.digits (pad_left 48 w (fmt_uint 10 m))) by (intros w m; split; [apply digits_nonnil | apply digits_chars]).
  unfold fixed_text, fixed_body. destruct s; [apply SpecText.decimal_neg | apply SpecText.decimal_pos]; try apply A; apply (A 0%nat).
Qed.
Lemma parse_fixed s k n : parse_f64 (fixed_text s (S k) n) = Some (dec_float 53 1024 s n (- Z.of_nat (S k))).
Proof.
  assert (P : parse_f64 (fixed_text s (S k) n) =
    let l := map lower1 (fixed_body (S k) n) in
    if eqb l (s2t "inf") || eqb l (s2t "infinity") then Some (S754_infinity s)
    else if eqb l (s2t "nan") then Some S754_nan
    else
    let '(a, i, r) := take_digits 0 0 (fixed_body (S k) n) in
    let '(b, j, r) := match r with
                      | c :: r' => if (c =? 46)%N then take_digits a 0 r' else (a, 0%nat, r)
                      | [] => (a, 0%nat, r)
                      end in
    if Nat.eqb (i + j) 0 then None
    else match parse_exp r with Some e => Some (dec_float 53 1024 s b (e - Z.of_nat j)) | None => None end).
  { unfold fixed_text. destruct s; [reflexivity|]. unfold parse_f64, parse_float, fixed_body.
    pose proof (digits0 (n / 10 ^ N.of_nat (S k))) as F. pose proof (fmt_uint_nonnil 10 (n / 10 ^ N.of_nat (S k))) as NN.
    destruct (fmt_uint 10 (n / 10 ^ N.of_nat (S k))) as [|c A]; [congruence|]. inversion F as [|? ? DC _]; subst. cbn [app].
    assert (C45 : (c =? 45)%N = false) by (unfold is_digit in DC; lia). assert (C43 : (c =? 43)%N = false) by (unfold is_digit in DC; lia).
    rewrite C45, C43. reflexivity. }
  rewrite P. clear P. unfold fixed_body. set (q := (10 ^ N.of_nat (S k))%N) in *. assert (Q : q <> 0%N) by (apply N.pow_nonzero; lia).
  set (A := fmt_uint 10 (n / q)). set (B := pad_left 48 (S k) (fmt_uint 10 (n mod q))).
  pose proof (digits0 (n / q)) as FA. fold A in FA. pose proof (digits_chars (S k) (n mod q)) as FB. unfold digits in FB. fold B in FB.
  pose proof (fmt_uint_nonnil 10 (n / q)) as NA. fold A in NA.
  assert (VA : digits_val 10 0 A = Some (n / q)%N) by (apply (digits_pad_fmt 10 0); lia).
  assert (VB : digits_val 10 0 B = Some (n mod q)%N) by (apply digits_pad_fmt; lia).
  assert (LB : List.length B = S k) by (apply pad_left_len, fmt_uint_length, N.mod_lt, Q).
  cbv zeta. destruct A as [|c A]; [congruence|]. inversion FA as [|? ? DC FA']; subst.
  assert (NI : forall t : text, match t with x :: _ => is_digit x = false | [] => True end ->
             eqb (map lower1 ((c :: A) ++ s2t "." ++ B)) t = false).
  { intros t Ht. rewrite eqb_false. intros E. destruct t as [|x t]; [discriminate|]. cbn [map app] in E. injection E as E _.
    unfold lower1 in E. assert (is_upper c = false) as U by (unfold is_digit, is_upper in *; lia). rewrite U in E. subst x.
    rewrite DC in Ht. discriminate. }
  rewrite (NI (s2t "inf")) by reflexivity. rewrite (NI (s2t "infinity")) by reflexivity. rewrite (NI (s2t "nan")) by reflexivity. cbn [orb].
  destruct (take_digits_val (c :: A) 0 0 (s2t "." ++ B) FA) as [v [V W]]; [reflexivity|].
  rewrite VA in V. injection V as <-. rewrite W. change (s2t ".") with [46%N] in *. cbn [app].
  change ((46 =? 46)%N) with true. cbv iota.
  destruct (take_digits_val B (n / q)%N 0 [] FB I) as [v' [V' W']]. rewrite app_nil_r in W'. rewrite W'.
  rewrite (digits_val_acc _ _ _ VB) in V'. injection V' as <-. rewrite LB. cbn [Nat.add List.length Nat.eqb parse_exp].
  fold q. replace (n / q * q + n mod q)%N with n; [reflexivity|]. pose proof (N.div_mod' n q). lia.
Qed.

(** Six decimals: what is written for a moderate number, what it is read as, and that it is written the same again. *)
Lemma fixed6 x : finite x -> (Rabs (real_value x) <= 1000)%R -> exists n x',
  fmt_fixed 0 6 x = Some (fixed_text (is_sign_negative x) 6 n) /\ parse_f64 (fixed_text (is_sign_negative x) 6 n) = Some x' /\
  finite x' /\ (Rabs (real_value x') <= 1001)%R /\
  (Rabs (real_value x' - real_value x) <= 501 / 1000000000)%R /\ fmt_fixed 0 6 x' = Some (fixed_text (is_sign_negative x) 6 n).
Proof.
  intros F L. pose proof (finite_is x F) as I. set (r := real_value x) in *. set (s := is_sign_negative x) in *.
  destruct (scaled_close_k 6 x r s ltac:(lia) I) as [n [E C]]. change (10 ^ 6) with 1000000 in C.
  assert (NB : (n < 2 * 10 ^ 9)%N).
  { assert (IZR (Z.of_N n) < IZR (2 * 10 ^ 9))%R; [|apply lt_IZR in H; lia]. change (2 * 10 ^ 9) with 2000000000.
    apply Rabs_le_inv in C. pose proof (Rabs_pos r). lra. }
  exists n, (dec_float 53 1024 s n (- Z.of_nat 6)). rewrite parse_fixed. split; [apply fmt_fixed_text, E|]. split; [reflexivity|].
  pose proof (dec_float_signed s n 6 ltac:(lia) ltac:(lia)) as I'. change (- Z.of_N 6) with (- Z.of_nat 6) in I'.
  change (10 ^ Z.of_N 6) with 1000000 in I'. set (x' := dec_float 53 1024 s n (- Z.of_nat 6)) in *. clearbody x'.
  set (v := (IZR (Z.of_N n) / 1000000)%R) in *.
  assert (V0 : (0 <= IZR (Z.of_N n))%R) by (apply IZR_le; lia).
  assert (VB : (0 <= v <= 1000 + 1/1000000)%R). { unfold v. apply Rabs_le_inv in C. pose proof (Rabs_pos r). split; lra. }
  assert (ER : (Rabs (rnd v - v) <= bpow radix2 (10 - 54))%R).
  { apply rnd_err; [lia|]. rewrite Rabs_pos_eq by lra. change (bpow radix2 10) with 1024%R. lra. }
  assert (BP : (bpow radix2 (10 - 54) < 1 / 10000000000000)%R).
  { change (bpow radix2 (10 - 54)) with (/ 17592186044416)%R. lra. }
  assert (RN : (0 <= rnd v)%R) by (apply rnd_nonneg; lra).
  assert (RV : real_value x' = signed s (rnd v)).
  { destruct I' as [b [-> [<- [_ _]]]]. unfold real_value. apply SF2R_B2SF. }
  assert (S : r = signed s (Rabs r)).
  { subst r s. destruct F as [_ V]. unfold real_value, signed in *. destruct x as [[]|[]| |[] m e]; cbn [SF2R is_sign_negative] in *; rewrite ?Rabs_R0, ?Ropp_0; try reflexivity.
    - cbn [cond_Zopp]. unfold F2R. cbn [Fnum Fexp]. rewrite Rabs_left1, Ropp_involutive; [reflexivity|].
      pose proof (bpow_gt_0 radix2 e) as H. assert (H1 : (0 < IZR (Zpos m))%R) by (apply IZR_lt; lia). rewrite opp_IZR. clear - H H1. nra.
    - cbn [cond_Zopp]. unfold F2R. cbn [Fnum Fexp]. rewrite Rabs_pos_eq; [reflexivity|].
      pose proof (bpow_gt_0 radix2 e) as H. assert (H1 : (0 < IZR (Zpos m))%R) by (apply IZR_lt; lia). clear - H H1. nra. }
  apply Rabs_le_inv in ER. apply Rabs_le_inv in C.
  split; [|split; [|split]].
  - destruct I' as [b [-> [_ [B _]]]]. split; [rewrite is_finite_SF_B2SF; exact B | apply valid_binary_B2SF].
  - rewrite RV, signed_abs, Rabs_pos_eq by exact RN. lra.
  - rewrite RV, S. replace (signed s (rnd v) - signed s (Rabs r))%R with (signed s (rnd v - Rabs r)) by (destruct s; cbn; ring).
    rewrite signed_abs. apply Rabs_le. unfold v in *. lra.
  - replace s with (is_sign_negative x') by exact (is_neg _ _ _ I'). apply fmt_fixed_text. change (Z.of_nat 6) with 6.
    rewrite (scaled_near_k 6 x' _ s (Z.of_N n) ltac:(lia) I' ltac:(lia)); [rewrite N2Z.id; reflexivity|].
    rewrite signed_abs, (Rabs_pos_eq (rnd v)) by exact RN. change (10 ^ 6) with 1000000. apply Rabs_def1; unfold v in *; lra.
Qed.
