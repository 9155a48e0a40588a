(** Property theorems: writing isec.txt (C51). *)
From Coq Require Import Reals Permutation Lra.
From Verif Require Import Base Float FloatParse Locations Isec SpecDms SpecIsec SpecIsecWrite IsecProofs IsecWrite.

(** Writing a map, in any iteration order [it], and reading the text gives every designator its fixes, in order, within
    0.501 millionths of a degree; writing what was read, again in any order, gives the same text. *)
Theorem C51_round_trip : forall it : isec_map, isec_listing it -> exists t m,
  isec_fmt it = Some t /\ parse_isec_txt t = Ret m /\ NoDup (map fst m) /\
  (forall d, Forall2 near (mget_vec d it) (mget_vec d m)) /\
  forall it', Permutation it' m -> isec_fmt it' = Some t.
Proof. intros it [ND [H E]]. exact (round_trip it ND H E). Qed.
Print Assumptions C51_round_trip.

(** The text does not depend on the iteration order of the hash map. *)
Theorem C51_order : forall it it' : isec_map, NoDup (map fst it) -> Permutation it it' -> isec_fmt it = isec_fmt it'.
Proof.
  intros it it' N P. unfold isec_fmt. f_equal. apply sort_same; [exact N | |].
  - eapply Permutation_NoDup; [apply Permutation_map, P | exact N].
  - intros k. apply mget_Permutation; [|exact P]. eapply Permutation_NoDup; [apply Permutation_map, P | exact N].
Qed.
Print Assumptions C51_order.

(** An empty map is written as an empty text, which is not read back. *)
Theorem C51_empty_refuted : ~ (forall (it : isec_map) t, NoDup (map fst it) -> isec_fmt it = Some t -> exists m, parse_isec_txt t = Ret m).
Proof. intros H. destruct (H [] [] (NoDup_nil _) eq_refl) as [m E]. vm_compute in E. discriminate E. Qed.
Print Assumptions C51_empty_refuted.

Definition C51_fixes : isec_map :=
  [(s2t "XYZ", [mkFix (s2t "XYZ") (f64_of_dec true 5 1, f64_of_Z 48); mkFix (s2t "XYZ") (f64_of_Z 11, S754_zero true)]);
   (s2t "ABC", [mkFix (s2t "ABC") (f64_of_dec false 123456789 7, f64_of_Z 48)])].
Example C51_nonvacuous : isec_listing C51_fixes /\
  isec_fmt C51_fixes = Some (s2t "ABC	 48.000000	  12.345679	15" ++ [10]%N ++ s2t "XYZ	 48.000000	  -0.500000	15" ++ [10]%N ++
                             s2t "XYZ	 -0.000000	  11.000000	15" ++ [10]%N).
Proof.
  split; [|vm_compute; reflexivity]. split; [|split].
  - apply (nodupb_NoDup (map fst C51_fixes)). vm_compute. reflexivity.
  - pose proof moderate_check as M.
    assert (N : forall s, s <> [] -> forallb name_char s = true -> name s).
    { intros s NN F. split; [exact NN|]. apply Forall_forall. rewrite forallb_forall in F. exact F. }
    assert (Q : forall d x y, name d -> (finite y /\ (Rabs (real_value y) <= 1000)%R) -> (finite x /\ (Rabs (real_value x) <= 1000)%R) ->
      f_des (mkFix d (x, y)) = d /\ name d /\ moderate (mkFix d (x, y))) by (intros d x y D [A B] [A' B']; repeat split; try apply A; try apply A'; try apply D; assumption).
    intros k fs f I J. destruct I as [I|[I|[]]]; injection I as <- <-; cbn [In] in J;
      repeat match goal with H : _ \/ _ |- _ => destruct H end; try contradiction; subst f;
      apply Q; try (apply N; [discriminate | reflexivity]); apply M; vm_compute; reflexivity.
  - eexists _, _, _. split; [left; reflexivity | left; reflexivity].
Qed.
