(** C85: airway.txt files are read as their lines are written. *)
From Verif Require Import Base Num Float FloatParse SpecText SpecFields Airways SpecAirways AirwaysProofs AirwaysExpand AirwayTxt SpecAirwayText AirwayText.
Local Open Scope string_scope.
Local Open Scope list_scope.

(** A file of one or more lines that are written as specified, with empty lines and remarks between them, is read: the graph's points, with their coordinates,
    and its airways are those of the written segments, and an edge is stored exactly for each neighbour, with the written flag and the least written level. *)
Theorem C85_airways ls segs t : ls <> [] -> Forall2 reads_line ls segs -> airway_layout (map line_text ls) t ->
  exists g, parse_airway_txt t = Ret g /\ let h := List.concat segs in
    (forall i, point_of_id g i = nth_error (points h) i) /\
    (forall i f p, nth_error (fixes g) i = Some f -> point_of_id g i = Some p -> is_position h p (g_pos f)) /\
    airway_name_by_id g = airways h /\
    forall a p q v m, stored g a p q v m <-> In q (neighbours h a p) /\ v = may_fly h a p q /\ least (levels h a p q) m.
Proof.
  intros N F L. destruct (airway_text_reads ls segs t N F L) as [g [E R]]. exists g. split; [exact R|]. cbv zeta.
  split; [exact (point_id _ g E)|]. split; [|split].
  - intros i f p Hf Hp. rewrite (point_id _ g E) in Hp. exact (positions _ g E i f p Hf Hp).
  - exact (rp_awys _ _ _ _ _ (built_rep _ g E)).
  - intros a p q v m. exact (stored_spec _ g E a p q v m).
Qed.
Print Assumptions C85_airways.
(** The graph is the one the written segments are inserted into, in order. *)
Theorem C85_graph ls segs t : ls <> [] -> Forall2 reads_line ls segs -> airway_layout (map line_text ls) t ->
  exists g, insert_all empty_graph (List.concat segs) = Some g /\ parse_airway_txt t = Ret g.
Proof. apply airway_text_reads. Qed.
Print Assumptions C85_graph.
(** Neither remarks and empty lines matter, nor whether a missing neighbour is written with zeros, nor the word for a missing level. *)
Theorem C85_layout_irrelevant ls ls' segs t t' : ls <> [] -> ls' <> [] -> Forall2 reads_line ls segs -> Forall2 reads_line ls' segs ->
  airway_layout (map line_text ls) t -> airway_layout (map line_text ls') t' -> parse_airway_txt t = parse_airway_txt t'.
Proof.
  intros N N' F F' L L'. destruct (airway_text_reads ls segs t N F L) as [g [E R]]. destruct (airway_text_reads ls' segs t' N' F' L') as [g' [E' R']]. congruence.
Qed.
Print Assumptions C85_layout_irrelevant.
(** The last line must end: a file that is cut off behind its last column is an error. *)
Theorem C85_last_end_refuted : ~ forall ls segs, ls <> [] -> Forall2 reads_line ls segs -> exists g, parse_airway_txt (List.concat (map line_text ls)) = Ret g.
Proof.
  intros H. destruct (H [mkLine (s2t "A") (s2t "1.0") (s2t "1.0") (s2t "L1") ABoth (Nobody [true; true; true; true; true]) (Nobody [true; true; true; true; true])] [[]]) as [g E].
  - discriminate.
  - assert (D : decimal (s2t "1.0")).
    { apply (decimal_pos (s2t "1") (s2t "0")); (split; [discriminate|]; apply Forall_cons; [reflexivity | apply Forall_nil]). }
    apply Forall2_cons; [|apply Forall2_nil]. split; [split; [discriminate|]; apply Forall_cons; [left; reflexivity | apply Forall_nil]|].
    split; [split; [discriminate|]; apply Forall_cons; [left; reflexivity | apply Forall_cons; [right; reflexivity | apply Forall_nil]]|].
    split; [exact D|]. split; [exact D|]. exists [], []. repeat split.
  - vm_compute in E. discriminate E.
Qed.
Print Assumptions C85_last_end_refuted.

Definition number (t : text) := match parse_f64 t with Some x => x | None => f64_of_Z 0 end.
Definition at_ (lat lng : string) : point := (number (s2t lng), number (s2t lat)).
Definition written : list line :=
  [mkLine (s2t "AKINI") (s2t "49.1") (s2t "-11.4") (s2t "L603") ABoth (Next (mkNeighbour (s2t "0") (s2t "0.2") (s2t "10.4") (Some (s2t "24500")) false true)) (Nobody [true; true; true; true; true]);
   mkLine (s2t "0") (s2t "0.2") (s2t "10.4") (s2t "L603") AUnknown (Nobody [false; false; true; false; false]) (Next (mkNeighbour (s2t "AKINI") (s2t "49.1") (s2t "-11.4") None true false))].
Definition written_segments : list (list segment) :=
  [[mkSeg (s2t "L603") (s2t "AKINI") (at_ "49.1" "-11.4") (s2t "0") (at_ "0.2" "10.4") true (Some 24500%N) ABoth];
   [mkSeg (s2t "L603") (s2t "0") (at_ "0.2" "10.4") (s2t "AKINI") (at_ "49.1" "-11.4") false None AUnknown]].
Definition file_start : text := s2t "; Airways" ++ [13; 10; 10]%N.
Definition written_file : text := file_start ++ List.concat (map (fun l => line_text l ++ s2t "// end" ++ [10; 13; 10]%N) written).

Lemma digits_yes w : w <> [] -> forallb is_digit w = true -> digits w.
Proof. intros N F. split; [exact N|]. rewrite forallb_forall in F. apply Forall_forall, F. Qed.
Lemma designator_yes w : w <> [] -> forallb (fun c => is_upper c || is_digit c) w = true -> designator w.
Proof. intros N F. split; [exact N|]. rewrite forallb_forall in F. apply Forall_forall. intros c I. apply orb_true_iff, F, I. Qed.
Lemma written_reads : Forall2 reads_line written written_segments.
Proof.
  assert (D1 : decimal (s2t "49.1")) by (apply (decimal_pos (s2t "49") (s2t "1")); apply digits_yes; (discriminate || reflexivity)).
  assert (D2 : decimal (s2t "-11.4")) by (apply (decimal_neg (s2t "11") (s2t "4")); apply digits_yes; (discriminate || reflexivity)).
  assert (D3 : decimal (s2t "0.2")) by (apply (decimal_pos (s2t "0") (s2t "2")); apply digits_yes; (discriminate || reflexivity)).
  assert (D4 : decimal (s2t "10.4")) by (apply (decimal_pos (s2t "10") (s2t "4")); apply digits_yes; (discriminate || reflexivity)).
  assert (S1 : spot (s2t "49.1") (s2t "-11.4") (at_ "49.1" "-11.4")) by (split; [exact D1 | split; [exact D2 | split; vm_compute; reflexivity]]).
  assert (S2 : spot (s2t "0.2") (s2t "10.4") (at_ "0.2" "10.4")) by (split; [exact D3 | split; [exact D4 | split; vm_compute; reflexivity]]).
  apply Forall2_cons; [|apply Forall2_cons; [|apply Forall2_nil]].
  - split; [apply designator_yes; [discriminate | reflexivity]|]. split; [apply designator_yes; [discriminate | reflexivity]|]. split; [exact D1|]. split; [exact D2|].
    eexists [_], []. split; [reflexivity|]. split; [|reflexivity].
    split; [apply designator_yes; [discriminate | reflexivity]|]. split; [reflexivity|]. split; [exact S2|]. split; [reflexivity|].
    split; [split; [apply digits_yes; [discriminate | reflexivity] | reflexivity]|]. split; [reflexivity|]. split; [exact S1|]. split; reflexivity.
  - split; [apply designator_yes; [discriminate | reflexivity]|]. split; [apply designator_yes; [discriminate | reflexivity]|]. split; [exact D3|]. split; [exact D4|].
    eexists [], [_]. split; [reflexivity|]. split; [reflexivity|].
    split; [apply designator_yes; [discriminate | reflexivity]|]. split; [reflexivity|]. split; [exact S1|]. split; [reflexivity|].
    split; [exact I|]. split; [reflexivity|]. split; [exact S2|]. split; reflexivity.
Qed.
Lemma remark_yes h c : In h remarks -> forallb (fun x => negb (x =? 10)%N && negb (x =? 13)%N) c = true -> idle no_space remarks (h ++ c).
Proof.
  intros H F. right. exists [], h, c. split; [reflexivity|]. split; [apply Forall_nil|]. split; [exact H|]. rewrite forallb_forall in F. apply Forall_forall. intros x I.
  apply F, andb_true_iff in I. destruct I as [A B]. apply negb_true_iff, N.eqb_neq in A. apply negb_true_iff, N.eqb_neq in B. split; assumption.
Qed.
Lemma written_laid : airway_layout (map line_text written) written_file.
Proof.
  assert (E : idle no_space remarks []) by (left; apply Forall_nil).
  exists file_start, (List.concat (map (fun l => line_text l ++ s2t "// end" ++ [10; 13; 10]%N) written)). split; [reflexivity|]. split.
  - apply (idles_cons _ _ (s2t ";" ++ s2t " Airways") [13; 10]%N [10]%N); [apply remark_yes; [left; reflexivity | reflexivity] | right; reflexivity|].
    apply (idles_cons _ _ [] [10]%N []); [exact E | left; reflexivity | apply idles_nil].
  - cbn [map List.concat written]. rewrite <- !app_assoc.
    apply (lines_more _ _ (s2t "//" ++ s2t " end") [10]%N [13; 10]%N); [apply remark_yes; [right; left; reflexivity | reflexivity] | left; reflexivity|
      apply (idles_cons _ _ [] [13; 10]%N []); [exact E | right; reflexivity | apply idles_nil]|].
    apply (lines_more _ _ (s2t "//" ++ s2t " end") [10]%N [13; 10]%N []); [apply remark_yes; [right; left; reflexivity | reflexivity] | left; reflexivity|
      apply (idles_cons _ _ [] [13; 10]%N []); [exact E | right; reflexivity | apply idles_nil] | apply lines_none].
Qed.
Example C85_nonvacuous : written <> [] /\ Forall2 reads_line written written_segments /\ airway_layout (map line_text written) written_file /\
  exists g, parse_airway_txt written_file = Ret g /\
    stored g (s2t "L603") (s2t "AKINI", quantize (at_ "49.1" "-11.4")) (s2t "0", quantize (at_ "0.2" "10.4")) true (Some 24500%N) /\
    stored g (s2t "L603") (s2t "0", quantize (at_ "0.2" "10.4")) (s2t "AKINI", quantize (at_ "49.1" "-11.4")) false (Some 24500%N).
Proof.
  assert (N : written <> []) by discriminate. split; [exact N|]. split; [exact written_reads|]. split; [exact written_laid|].
  destruct (C85_airways _ _ _ N written_reads written_laid) as [g [E [_ [_ [_ S]]]]]. exists g. split; [exact E|]. split; apply S.
  - split; [vm_compute; auto|]. split; [vm_compute; reflexivity|]. assert (E' : forall l, l = [24500]%N -> least l (Some 24500%N)) by (intros l ->; split; [left; reflexivity | intros y [<-|[]]; apply N.le_refl]).
    apply E'. vm_compute. reflexivity.
  - split; [vm_compute; auto|]. split; [vm_compute; reflexivity|]. assert (E' : forall l, l = [24500]%N -> least l (Some 24500%N)) by (intros l ->; split; [left; reflexivity | intros y [<-|[]]; apply N.le_refl]).
    apply E'. vm_compute. reflexivity.
Qed.
