(** Reading what was written of any coordinate: 60 minutes or seconds may be written. *)
From Coq Require Import Reals Lra ZifyBool ZifyN ZifyNat.
From Flocq Require Import Core BinarySingleNaN.
From Verif Require Import Base Float FloatParse FloatReal Num NumProofs Dms DmsReal SpecDms DmsProofs.
Local Open Scope Z_scope.

Lemma value_wide h D M sec T : (D <= 255)%N -> (M <= 60)%N -> (T <= 60000)%N -> is sec (rnd (IZR (Z.of_N T) / 1000)) false ->
  exists w, is (dms_value (h, D, M, sec)) (match h with Pos => w | Neg => - w end)%R (match h with Pos => false | Neg => true end) /\
    (0 <= w)%R /\ (Rabs (w - exact_value (Z.of_N D) (Z.of_N M) (Z.of_N T)) <= bpow radix2 (-43))%R.
Proof.
  intros HD HM HT S. set (d := Z.of_N D). set (m := Z.of_N M). set (t := Z.of_N T).
  assert (RD : (0 <= IZR d <= 255)%R) by (split; apply IZR_le; lia).
  assert (RM : (0 <= IZR m <= 60)%R) by (split; apply IZR_le; lia).
  assert (RT : (0 <= IZR t <= 60000)%R) by (split; apply IZR_le; lia).
  pose proof (sum_is d m sec t ltac:(lia) ltac:(lia) ltac:(lia) S) as I.
  set (w := rnd (rnd (IZR d + rnd (IZR m / 60)) + rnd (rnd (IZR t / 1000) / 3600))) in *.
  assert (E1 := err (IZR m / 60) 1 ltac:(lia) ltac:(apply Rabs_lt; bp; lra)). vm_compute (1 - 54) in E1. bp.
  assert (E2 := err (IZR d + rnd (IZR m / 60)) 9 ltac:(lia) ltac:(apply Rabs_lt; bp; lra)). vm_compute (9 - 54) in E2. bp.
  assert (E3 := err (IZR t / 1000) 6 ltac:(lia) ltac:(apply Rabs_lt; bp; lra)). vm_compute (6 - 54) in E3. bp.
  assert (E4 := err (rnd (IZR t / 1000) / 3600) 0 ltac:(lia) ltac:(apply Rabs_lt; bp; lra)). vm_compute (0 - 54) in E4. bp.
  assert (E5 := err (rnd (IZR d + rnd (IZR m / 60)) + rnd (rnd (IZR t / 1000) / 3600)) 9 ltac:(lia) ltac:(apply Rabs_lt; bp; lra)).
  vm_compute (9 - 54) in E5. bp. fold w in E5.
  assert (P : (0 <= w)%R).
  { apply rnd_nonneg. apply Rplus_le_le_0_compat; apply rnd_nonneg.
    - pose proof (rnd_nonneg (IZR m / 60) ltac:(lra)). lra.
    - pose proof (rnd_nonneg (IZR t / 1000) ltac:(lra)). lra. }
  exists w. split; [|split; [exact P|]].
  - unfold dms_value. apply mul_sign; [exact I | split; [exact P | lra]].
  - unfold exact_value. apply Rabs_le. bp. lra.
Qed.

Lemma read_wide (h : string) deg min ms : latitude_letter h \/ longitude_letter h -> (deg <= 255)%N -> (min <= 60)%N -> (ms <= 60000)%N ->
  exists part, parse_part (s2t h) (digits 3 deg) (digits 2 min) (seconds_text ms) = Ret part /\ finite (dms_value part) /\
    (Rabs (real_value (dms_value part) - hemisphere_sign h * (IZR (Z.of_N deg) + IZR (Z.of_N min) / 60 + IZR (Z.of_N ms) / 3600000)) <= / 5000000000000)%R.
Proof.
  intros HL HD HM HT. destruct (parse_seconds ms ltac:(lia)) as [sec [PS IS]].
  exists (match hemi_from (s2t h) with Ret g => g | _ => Pos end, deg, min, sec).
  destruct (value_wide (match hemi_from (s2t h) with Ret g => g | _ => Pos end) deg min sec ms HD HM HT IS) as [w [I [_ C]]].
  split.
  { assert (PD : parse_u16 (digits 3 deg) = Some deg) by (apply parse_uint_fmt; unfold u16_max; lia).
    assert (PM : parse_u8 (digits 2 min) = Some min) by (apply parse_uint_fmt; unfold u8_max; lia).
    unfold parse_part. rewrite PD, PM, PS. destruct HL as [[-> | ->]|[-> | ->]]; reflexivity. }
  destruct I as [b [EB [RB [FB _]]]].
  assert (EB' : dms_value (match hemi_from (s2t h) with Ret g => g | _ => Pos end, deg, min, sec) = B2SF b) by exact EB.
  rewrite EB'. split.
  { split; [rewrite is_finite_SF_B2SF; exact FB | apply valid_binary_B2SF]. }
  unfold real_value. rewrite SF2R_B2SF, RB. unfold exact_value in C. apply Rabs_le_inv in C. bp. apply Rabs_le.
  destruct HL as [[-> | ->]|[-> | ->]]; cbn [hemisphere_sign hemi_from s2t] in *; unfold hemisphere_sign in *; cbn in *; lra.
Qed.

(** A coordinate, its text and what is read from it *)
Lemma write_read x (lat : bool) : finite x -> (Rabs (real_value x) < 256)%R -> exists h deg min ms part,
  (if lat then latitude_letter h else longitude_letter h) /\ dms_fmt x lat = Some (coordinate_text h deg min ms) /\
  parse_part (s2t h) (digits 3 deg) (digits 2 min) (seconds_text ms) = Ret part /\
  (Rabs (real_value (dms_value part) - real_value x) <= 502 / 1000000 / 3600)%R.
Proof.
  intros F B. destruct (write_close x lat F B) as [h [deg [min [ms [L [W [[D [M S]] [C SG]]]]]]]].
  assert (LL : latitude_letter h \/ longitude_letter h) by (destruct lat; auto).
  destruct (read_wide h deg min ms LL D M S) as [part [P [_ C']]].
  exists h, deg, min, ms, part. split; [exact L|]. split; [exact W|]. split; [exact P|].
  apply Rabs_le_inv in C. apply Rabs_le_inv in C'. apply Rabs_le. rewrite SG.
  assert (Z : hemisphere_sign h = 1%R \/ hemisphere_sign h = (-1)%R) by (destruct LL as [[-> | ->]|[-> | ->]]; cbn; auto).
  set (A := Rabs (real_value x)) in *. set (E := (IZR (Z.of_N deg) + IZR (Z.of_N min) / 60 + IZR (Z.of_N ms) / 3600000)%R) in *.
  clearbody A E. destruct Z as [Z|Z]; rewrite Z in *; lra.
Qed.

(** A check that a value is finite and below 256, for examples *)
Definition globe_check (x : f64) : bool :=
  valid_binary 53 1024 x && match x with
  | S754_zero _ => true
  | S754_finite _ m e => (e <? 0)%Z && (Zpos m <? 256 * 2 ^ (- e))%Z
  | _ => false
  end.
Lemma globe_value x : globe_check x = true -> finite x /\ (Rabs (real_value x) < 256)%R.
Proof.
  intros H. apply andb_true_iff in H. destruct H as [V H]. unfold finite. rewrite V. destruct x as [s|s| |s m e]; try discriminate.
  - split; [auto|]. cbn. rewrite Rabs_R0. lra.
  - apply andb_true_iff in H. destruct H as [E M]. split; [auto|]. unfold real_value, SF2R. rewrite <- F2R_Zabs. rewrite abs_cond_Zopp. cbn [Z.abs].
    unfold F2R. cbn [Fnum Fexp]. apply (Rmult_lt_reg_r (bpow radix2 (- e))); [apply bpow_gt_0|]. rewrite Rmult_assoc, <- bpow_plus.
    replace (e + - e)%Z with 0%Z by lia. cbn [bpow]. rewrite Rmult_1_r. rewrite <- IZR_Zpower by lia. rewrite <- mult_IZR. apply IZR_lt. cbn [radix_val radix2]. lia.
Qed.
