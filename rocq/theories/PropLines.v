(** Property theorems: merged lines (C06, C07). *)
From Verif Require Import Base Float Colours Locations Maps SctData Lines SpecLines LinesProofs.

(** C06 *)
Theorem C06_same_drawing : forall xs, exists out, proper_entries xs out /\
  Forall2 stands_for_entry (drawn_entries (merge_groups xs)) out.
Proof. intros xs. destruct (merge_groups_ok xs) as [out [P [D _ _ _]]]. eauto. Qed.
Print Assumptions C06_same_drawing.

Theorem C06_no_empty_line_no_repeated_point : forall xs g, In g (merge_groups xs) ->
  lg_lines g <> [] /\
  (forall l, In l (lg_lines g) -> l <> [] /\ chained (fun a b => ~ same_place a b) l) /\
  chained gap (lg_lines g).
Proof.
  intros xs g I. destruct (merge_groups_ok xs) as [out [P [_ L _ _]]]. rewrite Forall_forall in L.
  destruct (L _ I) as [A [B C]]. rewrite Forall_forall in B. auto.
Qed.
Print Assumptions C06_no_empty_line_no_repeated_point.

Theorem C06_groups_by_colour : forall xs,
  chained (fun g g' => lg_colour g <> lg_colour g') (merge_groups xs) /\
  forall s e c, In (s, e, c) xs -> exists g, In g (merge_groups xs) /\ lg_colour g = c /\
    on_line s (lg_lines g) /\ on_line e (lg_lines g).
Proof. intros xs. destruct (merge_groups_ok xs) as [out [P [_ _ C V]]]. auto. Qed.
Print Assumptions C06_groups_by_colour.

(** C07 *)
Theorem C07_same_drawing : forall segs, exists out, proper segs out /\
  Forall2 stands_for_segment (drawn_segments (merge_lines segs)) out.
Proof. intros segs. destruct (merge_lines_ok segs) as [out [P [D _ _ _]]]. eauto. Qed.
Print Assumptions C07_same_drawing.

Theorem C07_no_empty_line_no_repeated_point : forall segs,
  (forall l, In l (merge_lines segs) -> l <> [] /\ chained (fun a b => ~ same_place a b) l) /\
  chained gap (merge_lines segs) /\
  forall s e, In (s, e) segs -> on_line s (merge_lines segs) /\ on_line e (merge_lines segs).
Proof. intros segs. destruct (merge_lines_ok segs) as [out [P [_ L G V]]]. rewrite Forall_forall in L. auto. Qed.
Print Assumptions C07_no_empty_line_no_repeated_point.

Definition fx (s : string) : location := LFix (s2t s).
(** A continued line, a degenerate entry on it, a jump, a change of colour and a degenerate entry of its own. *)
Example C06_nonvacuous : merge_groups
  [(fx "A", fx "B", None); (fx "B", fx "B", None); (fx "B", fx "C", None); (fx "A", fx "B", None);
   (fx "B", fx "C", Some (s2t "red")); (fx "D", fx "D", Some (s2t "red"))] =
  [mkLineGroup [[fx "A"; fx "B"; fx "C"]; [fx "A"; fx "B"]] None; mkLineGroup [[fx "B"; fx "C"]; [fx "D"]] (Some (s2t "red"))].
Proof. vm_compute. reflexivity. Qed.
Example C07_nonvacuous : merge_lines
  [(fx "A", fx "B"); (fx "B", fx "B"); (fx "B", fx "C"); (fx "A", fx "B"); (fx "D", fx "D")] =
  [[fx "A"; fx "B"; fx "C"]; [fx "A"; fx "B"]; [fx "D"]].
Proof. vm_compute. reflexivity. Qed.
