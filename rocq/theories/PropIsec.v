(** Property theorems: isec.txt (C43, C47). *)
From Verif Require Import Base Float FloatParse Peg Isec Locations SpecText SpecIsec IsecProofs.

(** A file is read: each designator has the fixes of the lines with that name, in file order, and nothing else. *)
Theorem C43_reads : forall t es, isec_file t es -> es <> [] ->
  exists m, parse_isec_txt t = Ret m /\ NoDup (keys m) /\ forall d, Forall2 entry_fix (filter (named d) es) (mget_vec d m).
Proof.
  intros t es F NE. destruct (isec_reads t es F NE) as [l [FP E]]. exists (mpush_all l []). split; [exact E|].
  split; [apply NoDup_mpush_all; constructor|]. intros d. rewrite mget_vec_push_all. apply fix_pairs_values, FP.
Qed.
Print Assumptions C43_reads.

(** Any other text is rejected with an error, never read partly. *)
Theorem C43_rejects : forall t, (forall es, isec_file t es -> es = []) -> parse_isec_txt t = Err.
Proof.
  intros t N. destruct (isec_total t) as [[es [l [NE [F _]]]]|[E _]]; [|exact E]. contradiction (NE (N es F)).
Qed.
Print Assumptions C43_rejects.

Theorem C47_isec : forall t, parse_isec_txt t <> Panic.
Proof. intros t. destruct (isec_total t) as [[es [l [_ [_ [_ ->]]]]]|[-> _]]; discriminate. Qed.
Print Assumptions C47_isec.

(** The entries of a text are determined by it. *)
Theorem C43_unique : forall t es es', isec_file t es -> isec_file t es' -> es <> [] -> es' <> [] -> es' = es.
Proof. exact isec_unique. Qed.
Print Assumptions C43_unique.

Example C43_nonvacuous : exists t es, isec_file t es /\ es <> [] /\
  es = [mkEntry (s2t "ABC") (s2t "-1.5") (s2t "8.25"); mkEntry (s2t "X1") (s2t "0.0") (s2t "-0.5")].
Proof.
  exists (s2t "; waypoints" ++ [10]%N ++ (s2t "ABC-1.5  8.25	15 // x") ++ [13; 10]%N ++ (s2t " X1	0.0-0.5 15") ++ [10]%N ++ []),
    [mkEntry (s2t "ABC") (s2t "-1.5") (s2t "8.25"); mkEntry (s2t "X1") (s2t "0.0") (s2t "-0.5")].
  assert (D : forall a b, digits (s2t a) -> digits (s2t b) -> decimal (s2t a ++ s2t "." ++ s2t b)) by (intros; constructor; assumption).
  assert (G : forall s, s <> [] -> forallb is_digit s = true -> digits s).
  { intros s N F. split; [exact N|]. apply Forall_forall. rewrite forallb_forall in F. exact F. }
  split; [|split; [|reflexivity]; discriminate].
  apply file_void; [apply (void_semi []); [constructor|] | constructor|].
  { repeat constructor; discriminate. }
  apply file_entry; [| constructor|].
  { apply (entry_intro [] (s2t "ABC") [] (s2t "-1.5") (s2t "  ") (s2t "8.25") (s2t "	") (s2t " // x")).
    - constructor.
    - split; [discriminate | repeat constructor].
    - split; [constructor|]. right. exists (s2t "1.5"). reflexivity.
    - apply (decimal_neg (s2t "1") (s2t "5")); apply G; try discriminate; reflexivity.
    - split; [repeat constructor | left; discriminate].
    - apply (D "8"%string "25"%string); apply G; try discriminate; reflexivity.
    - repeat constructor.
    - discriminate.
    - apply (void_slashes (s2t " ") (s2t " x")); [repeat constructor|]. repeat constructor; discriminate. }
  apply file_entry; [| constructor|apply file_end, void_blank; constructor].
  apply (entry_intro (s2t " ") (s2t "X1") (s2t "	") (s2t "0.0") [] (s2t "-0.5") (s2t " ") []).
  - repeat constructor.
  - split; [discriminate | repeat constructor].
  - split; [repeat constructor | left; discriminate].
  - apply (D "0"%string "0"%string); apply G; try discriminate; reflexivity.
  - split; [constructor|]. right. exists (s2t "0.5"). reflexivity.
  - apply (decimal_neg (s2t "0") (s2t "5")); apply G; try discriminate; reflexivity.
  - repeat constructor.
  - discriminate.
  - apply void_blank. constructor.
Qed.
