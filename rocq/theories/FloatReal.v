(** The standard library's [SpecFloat] operations are Flocq's, so that their results can be
    related to real numbers. *)
From Coq Require Import Reals Psatz.
From Flocq Require Import Core BinarySingleNaN.
From Verif Require Import Base Float.
Open Scope Z_scope.

Section Equiv.
  Variables prec emax : Z.
  Context (Hp : Prec_gt_0 prec) (Hm : Prec_lt_emax prec emax).

  Lemma round_nearest_even_equiv s m l : round_nearest_even m l = choice_mode mode_NE s m l.
  Proof.
    case l; [reflexivity|intro c]. case c; [ | reflexivity..].
    now simpl; unfold Round.cond_incr; case Z.even.
  Qed.

  Lemma binary_round_aux_equiv sx mx ex lx :
    SpecFloat.binary_round_aux prec emax sx mx ex lx
    = BinarySingleNaN.binary_round_aux prec emax mode_NE sx mx ex lx.
  Proof.
    unfold SpecFloat.binary_round_aux, BinarySingleNaN.binary_round_aux.
    set (mrse' := shr_fexp _ _ _). case mrse'; intros mrs' e'; simpl.
    now rewrite (round_nearest_even_equiv sx).
  Qed.

  Lemma binary_round_equiv s m e :
    SpecFloat.binary_round prec emax s m e = BinarySingleNaN.binary_round prec emax mode_NE s m e.
  Proof.
    unfold SpecFloat.binary_round, BinarySingleNaN.binary_round, shl_align_fexp.
    set (mez := shl_align _ _ _); case mez as [mz ez]. apply binary_round_aux_equiv.
  Qed.

  Lemma binary_normalize_equiv m e szero :
    SpecFloat.binary_normalize prec emax m e szero
    = B2SF (BinarySingleNaN.binary_normalize prec emax Hp Hm mode_NE m e szero).
  Proof.
    case m as [ | p | p]; [now simpl | |]; simpl; rewrite B2SF_SF2B; apply binary_round_equiv.
  Qed.

  Lemma SFmul_equiv (x y : binary_float prec emax) :
    SFmul prec emax (B2SF x) (B2SF y) = B2SF (Bmult mode_NE x y).
  Proof.
    case x as [sx|sx| |sx mx ex Bx]; case y as [sy|sy| |sy my ey By]; [now trivial.. | ].
    simpl. rewrite B2SF_SF2B. apply binary_round_aux_equiv.
  Qed.

  Lemma SFadd_equiv (x y : binary_float prec emax) :
    SFadd prec emax (B2SF x) (B2SF y) = B2SF (Bplus mode_NE x y).
  Proof.
    case x as [sx|sx| |sx mx ex Bx]; case y as [sy|sy| |sy my ey By];
      [now (trivial || simpl; case Bool.eqb).. | ].
    apply binary_normalize_equiv.
  Qed.

  Lemma SFsub_equiv (x y : binary_float prec emax) :
    SFsub prec emax (B2SF x) (B2SF y) = B2SF (Bminus mode_NE x y).
  Proof.
    case x as [sx|sx| |sx mx ex Bx]; case y as [sy|sy| |sy my ey By];
      [now (trivial || simpl; case Bool.eqb).. | ].
    simpl. unfold Bminus. simpl.
    rewrite <- binary_normalize_equiv. f_equal. unfold Zminus. f_equal.
    destruct sy; reflexivity.
  Qed.

  Lemma SFdiv_equiv (x y : binary_float prec emax) :
    SFdiv prec emax (B2SF x) (B2SF y) = B2SF (Bdiv mode_NE x y).
  Proof.
    case x as [sx|sx| |sx mx ex Bx]; case y as [sy|sy| |sy my ey By]; [now (trivial || simpl; case Bool.eqb).. | ].
    simpl. rewrite B2SF_SF2B.
    set (melz := SFdiv_core_binary _ _ _ _ _ _). case melz as [[mz ez] lz].
    apply binary_round_aux_equiv.
  Qed.
End Equiv.

Section Exact.
  Variables prec emax : Z.
  Context (Hp : Prec_gt_0 prec) (Hm : Prec_lt_emax prec emax).
  Let fexp := SpecFloat.fexp prec emax.

  Lemma IZR_format z : 3 - emax - prec <= 0 -> Z.abs z < 2 ^ prec -> generic_format radix2 fexp (IZR z).
  Proof.
    intros E L. unfold fexp, SpecFloat.fexp, SpecFloat.emin.
    apply (generic_format_FLT radix2 (3 - emax - prec) prec).
    exists (Float radix2 z 0); cbn [Fnum Fexp]; [|exact L|exact E].
    unfold F2R; cbn. ring.
  Qed.

  Lemma of_Z_exact z : 3 - emax - prec <= 0 -> Z.abs z < 2 ^ prec ->
    exists b : binary_float prec emax, SpecFloat.binary_normalize prec emax z 0 false = B2SF b /\
      B2R b = IZR z /\ is_finite b = true.
  Proof.
    intros E L. exists (BinarySingleNaN.binary_normalize prec emax Hp Hm mode_NE z 0 false).
    split; [apply binary_normalize_equiv|].
    pose proof (binary_normalize_correct prec emax Hp Hm mode_NE z 0 false) as C.
    assert (FR : F2R (Float radix2 z 0) = IZR z) by (unfold F2R; cbn; ring).
    cbv zeta in C. rewrite FR in C. rewrite round_generic in C; [| typeclasses eauto | apply IZR_format; assumption].
    rewrite Rlt_bool_true in C; [tauto|].
    rewrite <- abs_IZR. apply Rlt_le_trans with (bpow radix2 prec).
    - rewrite <- (IZR_Zpower radix2) by (unfold Prec_gt_0 in Hp; lia). apply IZR_lt. exact L.
    - apply bpow_le. unfold Prec_lt_emax in Hm. lia.
  Qed.

  Lemma SFleb_real (x y : binary_float prec emax) : is_finite x = true -> is_finite y = true ->
    (SFleb (B2SF x) (B2SF y) = true <-> (B2R x <= B2R y)%R).
  Proof.
    intros A B. pose proof (Bcompare_correct prec emax x y A B) as C.
    unfold Bcompare in C. unfold SFleb. rewrite C.
    destruct (Rcompare_spec (B2R x) (B2R y)); split; intros; try reflexivity; try discriminate; lra.
  Qed.
  Lemma SFltb_real (x y : binary_float prec emax) : is_finite x = true -> is_finite y = true ->
    (SFltb (B2SF x) (B2SF y) = true <-> (B2R x < B2R y)%R).
  Proof.
    intros A B. pose proof (Bcompare_correct prec emax x y A B) as C.
    unfold Bcompare in C. unfold SFltb. rewrite C.
    destruct (Rcompare_spec (B2R x) (B2R y)); split; intros; try reflexivity; try discriminate; lra.
  Qed.
End Exact.

#[export] Instance prec32 : Prec_gt_0 24 := eq_refl.
#[export] Instance emax32 : Prec_lt_emax 24 128 := eq_refl.
#[export] Instance prec64 : Prec_gt_0 53 := eq_refl.
#[export] Instance emax64 : Prec_lt_emax 53 1024 := eq_refl.
