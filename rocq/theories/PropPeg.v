(** Property theorems: parsing always finishes (C01). *)
From Verif Require Import Base Peg Grammars SpecPeg PegProofs.

(** Every format, every text: the run of the grammar is finite and comes to exactly one result, a list of pairs or
    a syntax error ([None]). *)
Theorem C01_total : forall name g start, In (name, g, start) formats -> forall t,
  exists o, matches g NonAtomic (Call start) true t [] o /\
    forall o', matches g NonAtomic (Call start) true t [] o' -> o' = o.
Proof.
  intros name g start I. apply checks_total. pose proof formats_checked as F. rewrite Forall_forall in F. exact (F _ I).
Qed.
Print Assumptions C01_total.

(** The evaluator used in the models of the parsers computes that result, within a nesting of calls bounded by the
    number of rules and as many repetitions as there are characters. *)
Theorem C01_computed : forall name g start, In (name, g, start) formats -> forall t,
  (exists c r k ts, parse g start t = Ok c r k ts /\ matches g NonAtomic (Call start) true t [] (Some (c, r, k, ts))) \/
  (parse g start t = Fail /\ matches g NonAtomic (Call start) true t [] None).
Proof.
  intros name g start I t. pose proof formats_checked as F. rewrite Forall_forall in F. specialize (F _ I).
  destruct (checks_returns g start F t) as [[c [r [k [ts E]]]]|E]; [left|right].
  - exists c, r, k, ts. split; [exact E|]. apply (run_sound g (S (List.length g))). unfold parse in E. rewrite E. reflexivity.
  - split; [exact E|]. apply (run_sound g (S (List.length g))). unfold parse in E. rewrite E. reflexivity.
Qed.
Print Assumptions C01_computed.

(** A text that is accepted is read to its end, and the pairs are pieces of it, in order. *)
Theorem C01_whole_text : forall name g start, In (name, g, start) formats -> forall t c r k ts,
  matches g NonAtomic (Call start) true t [] (Some (c, r, k, ts)) -> c = t /\ r = [] /\ within t ts.
Proof.
  intros name g start I t c r k ts M.
  assert (E : parse g start t = Ok c r k ts).
  { destruct (C01_computed name g start I t) as [[c' [r' [k' [ts' [E M']]]]]|[E M']]; pose proof (matches_det _ _ _ _ _ _ _ M _ M') as X.
    - injection X as <- <- <- <-. exact E.
    - discriminate X. }
  pose proof formats_whole as W. rewrite Forall_forall in W. specialize (W _ I).
  destruct (parse_whole g start t c r k ts W E) as [-> WT]. split; [reflexivity|]. split; [|exact WT].
  apply (run_splits g _ _ _ _ _ _ _ _ _ _) in E. rewrite <- (app_nil_r t) in E at 1. apply app_inv_head in E. auto.
Qed.
Print Assumptions C01_whole_text.

(** A file of each kind: accepted and rejected *)
Definition isec_text : text := s2t "AALLL	 50.123457	   8.500000	15" ++ [10]%N.
Example C01_nonvacuous :
  (exists ts, matches isec_grammar NonAtomic (Call "wpts") true isec_text [] (Some (isec_text, [], [], ts)) /\ ts <> []) /\
  matches isec_grammar NonAtomic (Call "wpts") true (s2t "aalll") [] None.
Proof.
  split.
  - destruct (C01_computed "isec" isec_grammar "wpts" ltac:(cbn; tauto) isec_text) as [[c [r [k [ts [E M]]]]]|[E _]]; vm_compute in E; [|discriminate].
    injection E as <- <- <- <-. eexists. split; [exact M | discriminate].
  - destruct (C01_computed "isec" isec_grammar "wpts" ltac:(cbn; tauto) (s2t "aalll")) as [[c [r [k [ts [E M]]]]]|[_ M]]; [vm_compute in E; discriminate|exact M].
Qed.
