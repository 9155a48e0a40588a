(** Property theorems: the text of a coordination point (C76). *)
From Verif Require Import Base Num Constraints ConstraintShow SpecConstraintShow ConstraintShowProofs.
Local Open Scope string_scope.
Local Open Scope list_scope.

(** Names that fit stand in columns: the point from character 0, the sector that is left from character 9,
    the sector that is entered from character 42, and the rest begins at character 72. *)
Theorem C76_columns c : (List.length (fix_shown c) <= 8)%nat -> (List.length (c_exit c) <= 30)%nat -> (List.length (c_entry c) <= 30)%nat ->
  let t := show_constraint c in
  column 8 (fix_shown c) (firstn 8 t) /\ column 30 (c_exit c) (firstn 30 (skipn 9 t)) /\ firstn 3 (skipn 39 t) = [32%N; 8594%N; 32%N] /\
  column 30 (c_entry c) (firstn 30 (skipn 42 t)).
Proof.
  intros A B C t. unfold t. rewrite show_tail. apply pad_column in A, B, C. set (R := levels_text _ ++ _). clearbody R.
  destruct A as [LA XA], B as [LB XB], C as [LC XC]. revert LA LB LC XA XB XC.
  set (a := SctWrite.pad_right 8 _). set (b := SctWrite.pad_right 30 (c_exit c)). set (d := SctWrite.pad_right 30 (c_entry c)). intros LA LB LC XA XB XC.
  assert (F : forall (u v : text) n, List.length u = n -> firstn n (u ++ v) = u).
  { intros u v n <-. rewrite firstn_app, Nat.sub_diag, firstn_all. apply app_nil_r. }
  assert (S : forall (u v : text) n k, List.length u = n -> skipn (n + k) (u ++ v) = skipn k v).
  { intros u v n k <-. rewrite skipn_app, skipn_all2 by apply Nat.le_add_r. rewrite Nat.add_comm, Nat.add_sub. reflexivity. }
  set (T := a ++ _).
  assert (T9 : skipn 9 T = b ++ [32%N; 8594%N; 32%N] ++ d ++ R) by exact (S a _ 8%nat 1%nat LA).
  assert (T39 : skipn 39 T = [32%N; 8594%N; 32%N] ++ d ++ R) by (transitivity (skipn 31 ([32%N] ++ b ++ [32%N; 8594%N; 32%N] ++ d ++ R)); [exact (S a _ 8%nat 31%nat LA) | exact (S b _ 30%nat 0%nat LB)]).
  assert (T42 : skipn 42 T = d ++ R) by (transitivity (skipn 34 ([32%N] ++ b ++ [32%N; 8594%N; 32%N] ++ d ++ R)); [exact (S a _ 8%nat 34%nat LA) | exact (S b _ 30%nat 3%nat LB)]).
  rewrite T9, T39, T42. unfold T. rewrite (F a), (F b), (F d) by assumption. repeat split; assumption.
Qed.
Print Assumptions C76_columns.
(** If the names are neat, the text tells the names, the levels in hundreds of feet in their order, and the runway. *)
Theorem C76_determined c c' : neat c -> neat c' -> show_constraint c = show_constraint c' ->
  fix_shown c = fix_shown c' /\ c_exit c = c_exit c' /\ c_entry c = c_entry c' /\ flight_levels c = flight_levels c' /\ runway_shown c = runway_shown c'.
Proof.
  intros [A [B C]] [A' [B' C']] E. rewrite !show_tail in E. apply (pad_unique _ _ _ _ _ A A') in E. destruct E as [-> E].
  apply app_inv_head in E. apply (pad_unique _ _ _ _ _ B B') in E. destruct E as [-> E].
  apply app_inv_head in E. apply (pad_unique _ _ _ _ _ C C') in E. destruct E as [-> E]. apply tail_unique in E. destruct E as [-> ->]. auto.
Qed.
Print Assumptions C76_determined.
(** It does not tell whether a single level is one to climb or one to descend to, nor of which end of the flight the runway is. *)
Theorem C76_direction_refuted : exists c c', neat c /\ neat c' /\ show_constraint c = show_constraint c' /\
  (c_climb c = Some 9000%N /\ c_descent c = None) /\ (c_climb c' = None /\ c_descent c' = Some 9000%N).
Proof.
  exists (mkConstraint None None None None (Some (s2t "BUREN")) (s2t "EDGG1") (s2t "EDDL") (Some 9000%N) None [] None),
         (mkConstraint None None None None (Some (s2t "BUREN")) (s2t "EDGG1") (s2t "EDDL") None (Some 9000%N) [] None).
  assert (N : forall cl d, neat (mkConstraint None None None None (Some (s2t "BUREN")) (s2t "EDGG1") (s2t "EDDL") cl d [] None)).
  { intros cl d. unfold neat, fits. cbn. repeat split; try (apply Nat.leb_le; reflexivity);
      intros l E; apply (f_equal (@rev N)) in E; rewrite rev_app_distr in E; discriminate E. }
  repeat split; try apply N. 
Qed.
Print Assumptions C76_direction_refuted.

Example C76_nonvacuous :
  let c := mkConstraint None (Some (s2t "25C")) None None (Some (s2t "BUREN")) (s2t "EDGG1") (s2t "EDDL") (Some 9000%N) (Some 12550%N) [] None in
  neat c /\ flight_levels c = [90%N; 125%N] /\ skipn 72 (show_constraint c) = s2t "  FL90  FL125  [25C]".
Proof.
  split; [|split; reflexivity]. unfold neat, fits. cbn. repeat split; try (apply Nat.leb_le; reflexivity);
    intros l E; apply (f_equal (@rev N)) in E; rewrite rev_app_distr in E; discriminate E.
Qed.
