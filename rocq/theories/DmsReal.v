(** The operations of Dms.v over the reals. *)
From Coq Require Import Reals Psatz ZifyBool ZifyN ZifyNat.
From Flocq Require Import Core BinarySingleNaN.
From Verif Require Import Base Num NumProofs Float FloatParse FloatReal Dms.
Open Scope Z_scope.

Notation fexp64 := (SpecFloat.fexp 53 1024).
Notation rnd := (round radix2 fexp64 ZnearestE).
Local Notation format := (generic_format radix2 fexp64).

(** [x] is a finite double with value [r] and sign bit [s]. *)
Definition is (x : f64) (r : R) (s : bool) : Prop :=
  exists b : binary_float 53 1024, x = B2SF b /\ B2R b = r /\ is_finite b = true /\ Bsign b = s.

#[export] Instance valid_fexp64 : Valid_exp fexp64 := FLT_exp_valid (3 - 1024 - 53) 53.

Lemma is_format x r s : is x r s -> format r.
Proof. intros [b [_ [<- _]]]. apply generic_format_B2R. Qed.

Lemma rnd_bound x e : -1000 <= e -> (Rabs x <= bpow radix2 e)%R -> (Rabs (rnd x) <= bpow radix2 e)%R.
Proof.
  intros E H. apply abs_round_le_generic; [typeclasses eauto|typeclasses eauto| |exact H].
  apply generic_format_bpow. unfold SpecFloat.fexp, SpecFloat.emin. lia.
Qed.
Lemma rnd_small x : (Rabs x <= bpow radix2 1020)%R -> Rlt_bool (Rabs (rnd x)) (bpow radix2 1024) = true.
Proof.
  intros H. apply Rlt_bool_true. eapply Rle_lt_trans; [apply rnd_bound; [|exact H]; lia|]. apply bpow_lt. lia.
Qed.

Lemma is_add x y r r' s s' : is x r s -> is y r' s' -> (Rabs (r + r') <= bpow radix2 1020)%R ->
  is (fadd x y) (rnd (r + r')) (match Rcompare (r + r') 0 with Eq => s && s' | Lt => true | Gt => false end).
Proof.
  intros [b [-> [<- [Fb <-]]]] [c [-> [<- [Fc <-]]]] H. unfold fadd. rewrite (SFadd_equiv 53 1024 prec64 emax64).
  pose proof (Bplus_correct 53 1024 prec64 emax64 mode_NE b c Fb Fc) as C. cbn [round_mode] in C. rewrite rnd_small in C by exact H.
  destruct C as [C1 [C2 C3]]. eexists. split; [reflexivity|]. auto.
Qed.
Lemma is_sub x y r r' s s' : is x r s -> is y r' s' -> (Rabs (r - r') <= bpow radix2 1020)%R ->
  is (fsub x y) (rnd (r - r')) (match Rcompare (r - r') 0 with Eq => s && negb s' | Lt => true | Gt => false end).
Proof.
  intros [b [-> [<- [Fb <-]]]] [c [-> [<- [Fc <-]]]] H. unfold fsub. rewrite (SFsub_equiv 53 1024 prec64 emax64).
  pose proof (Bminus_correct 53 1024 prec64 emax64 mode_NE b c Fb Fc) as C. cbn [round_mode] in C. rewrite rnd_small in C by exact H.
  destruct C as [C1 [C2 C3]]. eexists. split; [reflexivity|]. auto.
Qed.
Lemma is_finite_nan (b : binary_float 53 1024) : is_finite b = true -> is_nan b = false.
Proof. destruct b; cbn; congruence. Qed.
Lemma is_mul x y r r' s s' : is x r s -> is y r' s' -> (Rabs (r * r') <= bpow radix2 1020)%R ->
  is (fmul x y) (rnd (r * r')) (xorb s s').
Proof.
  intros [b [-> [<- [Fb <-]]]] [c [-> [<- [Fc <-]]]] H. unfold fmul. rewrite (SFmul_equiv 53 1024 prec64 emax64).
  pose proof (Bmult_correct 53 1024 prec64 emax64 mode_NE b c) as C. cbn [round_mode] in C. rewrite rnd_small in C by exact H.
  destruct C as [C1 [C2 C3]]. rewrite Fb, Fc in C2. eexists. split; [reflexivity|]. split; [exact C1|]. split; [exact C2|].
  apply C3, is_finite_nan, C2.
Qed.
Lemma is_div x y r r' s s' : is x r s -> is y r' s' -> r' <> 0%R -> (Rabs (r / r') <= bpow radix2 1020)%R ->
  is (fdiv x y) (rnd (r / r')) (xorb s s').
Proof.
  intros [b [-> [<- [Fb <-]]]] [c [-> [<- [Fc <-]]]] N H. unfold fdiv. rewrite (SFdiv_equiv 53 1024 prec64 emax64).
  pose proof (Bdiv_correct 53 1024 prec64 emax64 mode_NE b c N) as C. cbn [round_mode] in C. rewrite rnd_small in C by exact H.
  destruct C as [C1 [C2 C3]]. rewrite Fb in C2. eexists. split; [reflexivity|]. split; [exact C1|]. split; [exact C2|].
  apply C3, is_finite_nan, C2.
Qed.

Lemma normalize_sign (z : Z) : z <> 0 -> Z.abs z < 2 ^ 53 ->
  Bsign (BinarySingleNaN.binary_normalize 53 1024 prec64 emax64 mode_NE z 0 false) = (z <? 0).
Proof.
  intros N L. pose proof (binary_normalize_correct 53 1024 prec64 emax64 mode_NE z 0 false) as C. cbv zeta in C.
  assert (FR : F2R (Float radix2 z 0) = IZR z) by (unfold F2R; cbn; ring). rewrite FR in C. cbn [round_mode] in C.
  rewrite rnd_small in C.
  - destruct C as [_ [_ C]]. rewrite C. destruct (Z.ltb_spec z 0).
    + rewrite Rcompare_Lt; [reflexivity|]. apply IZR_lt. exact H.
    + rewrite Rcompare_Gt; [reflexivity|]. apply IZR_lt. lia.
  - rewrite <- abs_IZR. apply Rle_trans with (bpow radix2 53); [|apply bpow_le; lia].
    rewrite <- (IZR_Zpower radix2) by lia. apply IZR_le. change (Zpower radix2 53) with (2 ^ 53). lia.
Qed.
Lemma normalize_is z : 0 <= z < 2 ^ 53 -> is (SpecFloat.binary_normalize 53 1024 z 0 false) (IZR z) false.
Proof.
  intros L. destruct (of_Z_exact 53 1024 prec64 emax64 z) as [b [E [V F]]]; [lia|lia|].
  exists b. split; [exact E|]. split; [exact V|]. split; [exact F|].
  destruct (Z.eq_dec z 0) as [->|N].
  - cbn in E. destruct b; cbn in E; try discriminate. injection E as <-. reflexivity.
  - rewrite (binary_normalize_equiv 53 1024 prec64 emax64) in E. apply B2SF_inj in E. rewrite <- E.
    rewrite normalize_sign by lia. lia.
Qed.
Lemma of_Z_is z : 0 <= z < 2 ^ 53 -> is (f64_of_Z z) (IZR z) false.
Proof. apply normalize_is. Qed.

Lemma is_abs x r s : is x r s -> is (fabs x) (Rabs r) false.
Proof.
  intros [b [-> [<- [F <-]]]]. exists (Babs b). split; [destruct b; reflexivity|].
  split; [apply B2R_Babs|]. split; [rewrite is_finite_Babs; exact F|].
  destruct b; cbn in *; reflexivity || discriminate.
Qed.
Lemma is_neg x r s : is x r s -> is_sign_negative x = s.
Proof. intros [b [-> [_ [F <-]]]]. destruct b; cbn in *; try reflexivity; discriminate. Qed.

(** * Integral part and fraction *)
Lemma is_finite_cases x r : is x r false -> (x = S754_zero false /\ r = 0%R) \/
  exists m e, x = S754_finite false m e /\ r = (IZR (Zpos m) * bpow radix2 e)%R /\ Zpos m < 2 ^ 53 /\ SpecFloat.bounded 53 1024 m e = true.
Proof.
  intros [b [-> [<- [F S]]]]. destruct b as [s|s| |s m e B]; cbn in F, S; try discriminate.
  - left. subst s. split; reflexivity.
  - right. subst s. exists m, e. split; [reflexivity|]. split; [reflexivity|]. split; [|exact B].
    unfold SpecFloat.bounded in B. apply andb_true_iff in B. destruct B as [B _]. unfold SpecFloat.canonical_mantissa in B.
    apply Zeq_bool_eq in B. unfold SpecFloat.fexp, SpecFloat.emin in B.
    rewrite Zpos_digits2_pos in B.
    assert (D : Zdigits radix2 (Zpos m) <= 53) by lia. apply Zpower_gt_Zdigits in D. cbn [Z.abs] in D. exact D.
Qed.

Lemma bpow_neg_div m p : (IZR (Zpos m) * bpow radix2 (Zneg p))%R = (IZR (Zpos m) / IZR (2 ^ Zpos p))%R.
Proof.
  change (Zneg p) with (- Zpos p). rewrite bpow_opp, <- (IZR_Zpower radix2) by lia. reflexivity.
Qed.
Lemma floor_div m p : Zfloor (IZR (Zpos m) * bpow radix2 (Zneg p))%R = Zpos m / 2 ^ Zpos p.
Proof. rewrite bpow_neg_div. apply Zfloor_div. pose proof (Z.pow_pos_nonneg 2 (Zpos p)). lia. Qed.
Lemma floor_int m e : 0 <= e -> Zfloor (IZR (Zpos m) * bpow radix2 e)%R = Zpos m * 2 ^ e.
Proof. intros H. rewrite <- (IZR_Zpower radix2) by exact H. rewrite <- mult_IZR. apply Zfloor_IZR. Qed.

Lemma is_trunc x r : is x r false -> is (ftrunc x) (IZR (Zfloor r)) false.
Proof.
  intros I. destruct (is_finite_cases x r I) as [[-> ->]|[m [e [-> [E [B _]]]]]].
  - cbn. replace (Zfloor 0) with 0 by (symmetry; apply (Zfloor_IZR 0)). exact I.
  - destruct e as [|p|p]; cbn [ftrunc].
    + rewrite E, (floor_int m 0) by lia. rewrite E in I. replace (IZR (Zpos m * 2 ^ 0)) with (IZR (Zpos m) * bpow radix2 0)%R; [exact I|].
      rewrite mult_IZR. reflexivity.
    + rewrite E, (floor_int m (Zpos p)) by lia. rewrite E in I.
      replace (IZR (Zpos m * 2 ^ Zpos p)) with (IZR (Zpos m) * bpow radix2 (Zpos p))%R; [exact I|].
      rewrite mult_IZR, <- (IZR_Zpower radix2) by lia. reflexivity.
    + rewrite E, floor_div. apply normalize_is. split; [apply Z.div_pos; lia|].
      apply Z.le_lt_trans with (Zpos m); [|exact B]. apply Z.div_le_upper_bound; [lia|].
      pose proof (Z.pow_pos_nonneg 2 (Zpos p)). nia.
Qed.

Lemma is_u8 x r : is x r false -> to_u8 x = N.min 255 (Z.to_N (Zfloor r)).
Proof.
  intros I. destruct (is_finite_cases x r I) as [[-> ->]|[m [e [-> [E [B _]]]]]].
  - cbn [to_u8]. replace (Zfloor 0) with 0 by (symmetry; apply (Zfloor_IZR 0)). reflexivity.
  - cbn [to_u8]. rewrite E. destruct e as [|p|p].
    + rewrite floor_int by lia. f_equal. f_equal. cbn. lia.
    + rewrite floor_int by lia. reflexivity.
    + rewrite floor_div. reflexivity.
Qed.

Lemma fract_format m e : Zpos m < 2 ^ 53 -> SpecFloat.bounded 53 1024 m e = true ->
  format (IZR (Zpos m) * bpow radix2 e - IZR (Zfloor (IZR (Zpos m) * bpow radix2 e)))%R.
Proof.
  intros L B. destruct e as [|p|p].
  1,2: rewrite floor_int by lia; rewrite mult_IZR; rewrite <- (IZR_Zpower radix2) by lia;
    match goal with |- format (?a - ?b) => replace (a - b)%R with 0%R by (cbn; ring) end; apply generic_format_0.
  rewrite floor_div. set (d := 2 ^ Zpos p). assert (Hd : 0 < d) by (apply Z.pow_pos_nonneg; lia).
  assert (EQ : (IZR (Zpos m) * bpow radix2 (Zneg p) - IZR (Zpos m / d))%R = F2R (Float radix2 (Zpos m mod d) (Zneg p))).
  { unfold F2R. cbn [Fnum Fexp]. pose proof (Z.div_mod (Zpos m) d ltac:(lia)) as DM.
    assert (X : IZR (Zpos m) = (IZR d * IZR (Zpos m / d) + IZR (Zpos m mod d))%R) by (rewrite <- mult_IZR, <- plus_IZR, <- DM; reflexivity).
    rewrite X. assert (Y : (IZR d * bpow radix2 (Zneg p) = 1)%R).
    { change (Zneg p) with (- Zpos p). rewrite bpow_opp, <- (IZR_Zpower radix2) by lia. apply Rinv_r. apply IZR_neq. change (Zpower radix2 (Zpos p)) with d. lia. }
    rewrite Rmult_plus_distr_r. replace (IZR d * IZR (Zpos m / d) * bpow radix2 (Zneg p))%R with (IZR (Zpos m / d) * (IZR d * bpow radix2 (Zneg p)))%R by ring.
    rewrite Y. ring. }
  rewrite EQ. apply (generic_format_FLT radix2 (3 - 1024 - 53) 53).
  exists (Float radix2 (Zpos m mod d) (Zneg p)); cbn [Fnum Fexp]; [reflexivity| |].
  - pose proof (Z.mod_pos_bound (Zpos m) d Hd). pose proof (Z.mod_le (Zpos m) d ltac:(lia) Hd). change (radix2 ^ 53) with (2 ^ 53). lia.
  - unfold SpecFloat.bounded in B. apply andb_true_iff in B. destruct B as [B _]. unfold SpecFloat.canonical_mantissa in B.
    apply Zeq_bool_eq in B. unfold SpecFloat.fexp, SpecFloat.emin in B. lia.
Qed.
Lemma is_fract x r : is x r false -> is (ffract x) (r - IZR (Zfloor r)) false.
Proof.
  intros I. pose proof (Zfloor_lb r) as LB. pose proof (Zfloor_ub r) as UB.
  assert (FMT : format (r - IZR (Zfloor r))).
  { destruct (is_finite_cases x r I) as [[-> ->]|[m [e [-> [E [B B']]]]]].
    - replace (Zfloor 0) with 0 by (symmetry; apply (Zfloor_IZR 0)). rewrite Rminus_0_r. apply generic_format_0.
    - rewrite E. apply fract_format; assumption. }
  assert (SM : (Rabs (r - IZR (Zfloor r)) <= bpow radix2 1020)%R).
  { rewrite Rabs_pos_eq by lra. apply Rle_trans with (bpow radix2 0); [cbn; lra | apply bpow_le; lia]. }
  pose proof (is_sub x (ftrunc x) _ _ _ _ I (is_trunc _ _ I) SM) as R.
  rewrite round_generic in R by (typeclasses eauto || exact FMT). unfold ffract.
  destruct (Rcompare_spec (r - IZR (Zfloor r)) 0) as [H|H|H]; [lra|exact R|exact R].
Qed.

(** * Rounding errors *)
Lemma rnd_err x e : -900 <= e -> (Rabs x < bpow radix2 e)%R -> (Rabs (rnd x - x) <= bpow radix2 (e - 54))%R.
Proof.
  intros E H. destruct (Req_dec x 0) as [->|N].
  - rewrite round_0 by typeclasses eauto. rewrite Rminus_0_r, Rabs_R0. apply bpow_ge_0.
  - eapply Rle_trans; [apply error_le_half_ulp; typeclasses eauto|].
    rewrite ulp_neq_0 by exact N. unfold cexp.
    assert (M : mag radix2 x <= e) by (apply mag_le_bpow; assumption).
    replace (e - 54) with (-(1) + (e - 53)) by lia. rewrite bpow_plus. apply Rmult_le_compat.
    + lra.
    + apply bpow_ge_0.
    + cbn. lra.
    + apply bpow_le. unfold SpecFloat.fexp, SpecFloat.emin. lia.
Qed.
Lemma rnd_le x y : format y -> (x <= y)%R -> (rnd x <= y)%R.
Proof. intros F H. apply round_le_generic; [typeclasses eauto | typeclasses eauto | exact F | exact H]. Qed.
Lemma rnd_ge x y : format y -> (y <= x)%R -> (y <= rnd x)%R.
Proof. intros F H. apply round_ge_generic; [typeclasses eauto | typeclasses eauto | exact F | exact H]. Qed.
Lemma rnd_id x : format x -> rnd x = x.
Proof. intros F. apply round_generic; [typeclasses eauto | exact F]. Qed.
Lemma format_IZR z : Z.abs z < 2 ^ 53 -> format (IZR z).
Proof. intros H. apply (IZR_format 53 1024); [lia | exact H]. Qed.

(** * Decimal numbers *)
Lemma dec_float_is n k : (0 < k)%N -> (n < 10 ^ 15)%N ->
  is (dec_float 53 1024 false n (- Z.of_N k)) (rnd (IZR (Z.of_N n) / IZR (10 ^ Z.of_N k))) false.
Proof.
  intros K L. destruct n as [|p].
  - exists (B754_zero false). split; [reflexivity|]. cbn. unfold Rdiv. rewrite Rmult_0_l, round_0 by typeclasses eauto. auto.
  - destruct k as [|k]; [lia|]. cbn [Z.of_N Z.opp dec_float].
    assert (TP : exists d, 10 ^ Zpos k = Zpos d) by (pose proof (Z.pow_pos_nonneg 10 (Zpos k)); destruct (10 ^ Zpos k); [lia | eauto | lia]).
    destruct TP as [d D]. rewrite D.
    pose proof (Bdiv_correct_aux 53 1024 prec64 emax64 mode_NE false p 0 false d 0) as C. cbv zeta in C.
    cbn [cond_Zopp xorb round_mode] in C.
    assert (X : F2R (Float radix2 (Zpos p) 0) = IZR (Zpos p)) by (unfold F2R; cbn; ring). rewrite X in C. clear X.
    assert (X : F2R (Float radix2 (Zpos d) 0) = IZR (Zpos d)) by (unfold F2R; cbn; ring). rewrite X in C. clear X.
    assert (DP : (1 <= IZR (Zpos d))%R) by (apply IZR_le; lia).
    rewrite rnd_small in C.
    + destruct (SFdiv_core_binary 53 1024 (Zpos p) 0 (Zpos d) 0) as [[mz ez] lz]. rewrite binary_round_aux_equiv.
      destruct C as [V [C1 [C2 C3]]]. exists (SF2B _ V). split; [symmetry; apply B2SF_SF2B|].
      split; [rewrite B2R_SF2B; exact C1|]. split; [rewrite is_finite_SF2B; exact C2|]. rewrite Bsign_SF2B. exact C3.
    + unfold Rdiv. rewrite Rabs_mult, (Rabs_pos_eq (IZR (Zpos p))) by (apply IZR_le; lia).
      rewrite Rabs_pos_eq by (apply Rlt_le, Rinv_0_lt_compat; lra).
      apply Rle_trans with (IZR (Zpos p)).
      * rewrite <- (Rmult_1_r (IZR (Zpos p))) at 2. apply Rmult_le_compat_l; [apply IZR_le; lia|].
        rewrite <- Rinv_1. apply Rinv_le; lra.
      * apply Rle_trans with (bpow radix2 50); [|apply bpow_le; lia]. rewrite <- (IZR_Zpower radix2) by lia. apply IZR_le.
        change (radix2 ^ 50) with (2 ^ 50). change (10 ^ 15)%N with 1000000000000000%N in L. lia.
Qed.

(** * Formatting *)
Lemma round_even_near n d z : 0 < d -> 2 * Z.abs (n - z * d) < d -> round_even n d = z.
Proof.
  intros D H. unfold round_even. pose proof (Z.div_mod n d ltac:(lia)) as DM. pose proof (Z.mod_pos_bound n d D) as MB.
  set (q := n / d) in *. set (r := n mod d) in *. clearbody q r.
  assert (Q : q = z \/ q = z - 1).
  { assert (z - 1 <= q) by nia. assert (q <= z) by nia. lia. }
  destruct (Z.compare_spec (2 * r) d) as [C|C|C].
  - destruct Q as [-> | ->]; nia.
  - destruct Q as [-> | ->]; [reflexivity | nia].
  - destruct Q as [-> | ->]; [nia | lia].
Qed.
Lemma scaled_near x r z : is x r false -> 0 <= z -> (Rabs (r * 1000 - IZR z) < 1 / 2)%R -> scaled 3 x = Some (Z.to_N z).
Proof.
  intros I Z0 H. destruct (is_finite_cases x r I) as [[-> ->]|[m [e [-> [E [B _]]]]]].
  - cbn [scaled]. rewrite Rmult_0_l in H. unfold Rminus in H. rewrite Rplus_0_l, Rabs_Ropp, <- abs_IZR in H.
    assert (Z.abs z < 1) by (apply lt_IZR; lra). replace z with 0 by lia. reflexivity.
  - cbn [scaled]. f_equal. f_equal. destruct e as [|p|p].
    + rewrite E in H. cbn [bpow] in H. rewrite Rmult_1_r, <- mult_IZR, <- minus_IZR, <- abs_IZR in H.
      assert (Z.abs (Zpos m * 1000 - z) < 1) by (apply lt_IZR; lra). change (10 ^ 3) with 1000. lia.
    + rewrite E in H. rewrite <- (IZR_Zpower radix2), <- !mult_IZR, <- minus_IZR, <- abs_IZR in H by lia.
      change (radix2 ^ Zpos p) with (2 ^ Zpos p) in H. change (10 ^ 3) with 1000.
      assert (Z.abs (Zpos m * 2 ^ Zpos p * 1000 - z) < 1) by (apply lt_IZR; lra). lia.
    + rewrite E, bpow_neg_div in H. set (d := 2 ^ Zpos p) in *. assert (D : 0 < d) by (apply Z.pow_pos_nonneg; lia).
      apply round_even_near; [exact D|]. apply lt_IZR. rewrite mult_IZR, abs_IZR, minus_IZR, !mult_IZR.
      assert (DR : (0 < IZR d)%R) by (apply IZR_lt; exact D).
      replace (IZR (Zpos m) * IZR (10 ^ 3) - IZR z * IZR d)%R with ((IZR (Zpos m) / IZR d * 1000 - IZR z) * IZR d)%R by (change (10 ^ 3) with 1000; field; lra).
      rewrite Rabs_mult, (Rabs_pos_eq (IZR d)) by lra. nra.
Qed.
