(** Property theorems: the texts of airway points are neighbours in airway.txt (C74). *)
From Coq Require Import Reals Psatz.
From Verif Require Import Base Num Float FloatParse Dms SpecDms DmsWide Airways AirwaysProofs AirwayTxt Places SpecPlaces PlacesProofs SpecAirwayWrite AirwayWriteProofs.

(** A file of lines in which the types of airways and the neighbours are written by their text forms is read, and gives the
    graph of its segments: names, airways, types, levels and directions as written, coordinates to six decimals. *)
Theorem C74_read_back ls : ls <> [] -> Forall good_line ls ->
  exists ls' g, Forall2 line_read ls ls' /\ parse_airway_txt (airway_text ls) = Ret g /\ insert_all empty_graph (flat_map line_segments ls') = Some g.
Proof.
  intros N F. destruct (airway_text_read ls N F) as [ls' [R E]]. destruct (insert_all_rep (flat_map line_segments ls')) as [g [X _]].
  exists ls', g. rewrite X in E. auto.
Qed.
Print Assumptions C74_read_back.
(** Points of six decimals are read as the same points. *)
Theorem C74_same_point p p' x y : somewhere p -> nearest p p' ->
  millionths x (px p) (4 / 10000000) -> millionths y (py p) (4 / 10000000) -> quantize p' = quantize p /\ quantize p = (x, y).
Proof.
  intros [X Y] [NX NY] A B. unfold quantize. rewrite (q_of_millionths x _ X A), (q_of_millionths y _ Y B).
  split; [|reflexivity]. f_equal; [exact (nearest_q _ _ _ X NX A) | exact (nearest_q _ _ _ Y NY B)].
Qed.
Print Assumptions C74_same_point.

Definition ex_coord (z : Z) : f64 := fdiv (f64_of_Z z) (f64_of_Z 1000000).
Definition ex_lines : list line := [
  mkLine (s2t "DONAP") (ex_coord 48123456, ex_coord (-7654321)) (s2t "L603") ABoth None (Some (mkAfix (s2t "0") (ex_coord (-1), ex_coord 8500000) true (Some 24500%N)));
  mkLine (s2t "0") (ex_coord (-1), ex_coord 8500000) (s2t "L603") AUnknown (Some (mkAfix (s2t "DONAP") (ex_coord 48123456, ex_coord (-7654321)) false None)) None ].
Example C74_nonvacuous : Forall good_line ex_lines /\
  show_airway_fix (mkAfix (s2t "0") (ex_coord (-1), ex_coord 8500000) true (Some 4500%N)) =
    s2t "0" ++ [9%N] ++ s2t "8.500000" ++ [9%N] ++ s2t "-0.000001" ++ [9%N] ++ s2t "04500" ++ [9%N] ++ s2t "Y" /\
  exists g, parse_airway_txt (airway_text ex_lines) = Ret g /\ List.length (fixes g) = 2%nat.
Proof.
  assert (M : forall x, globe_check x = true -> moderate x).
  { intros x C. destruct (globe_value x C) as [F L]. split; [exact F | lra]. }
  assert (P : somewhere (ex_coord 48123456, ex_coord (-7654321))) by (split; apply M; vm_compute; reflexivity).
  assert (P' : somewhere (ex_coord (-1), ex_coord 8500000)) by (split; apply M; vm_compute; reflexivity).
  assert (NM : forall t, forallb name_char t = true -> t <> [] -> name t) by (intros t F N; split; [exact N | apply Forall_forall, forallb_forall, F]).
  split; [|split].
  - apply Forall_cons; [|apply Forall_cons; [|apply Forall_nil]]; (split; [apply NM; [reflexivity | discriminate]|]); (split; [assumption|]);
      (split; [apply NM; [reflexivity | discriminate]|]); split;
      intros a E; try discriminate E; injection E as <-; (split; [apply NM; [reflexivity | discriminate]|]); (split; [assumption|]); cbn [af_min]; intros l' E; try discriminate E; injection E as <-; reflexivity.
  - vm_compute. reflexivity.
  - eexists. split; [vm_compute; reflexivity | reflexivity].
Qed.
