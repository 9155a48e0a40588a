(** Property theorems: constraints (C27). *)
From Verif Require Import Base Constraints SpecConstraints ConstraintsProofs.

(** C27 *)
Theorem C27_departure_constraints : forall l k c,
  get k (fst (extract_constraints l)) = Some c <-> last_with departure k l c.
Proof. exact extract_departure. Qed.
Print Assumptions C27_departure_constraints.

Theorem C27_destination_constraints : forall l k c,
  get k (snd (extract_constraints l)) = Some c <-> last_with destination k l c.
Proof. exact extract_destination. Qed.
Print Assumptions C27_destination_constraints.

(** Without '#' in the fields, keys agree iff the fields do (an absent field being '*'). *)
Theorem C27_key_is_the_fields : forall c c', no_hash c -> no_hash c' ->
  (key c = key c' <-> key_fields c = key_fields c').
Proof. exact key_iff. Qed.
Print Assumptions C27_key_is_the_fields.

Definition ex_c (fix_ : option string) (exit entry : string) (cl de : option N) : constraint :=
  mkConstraint None None None None (option_map s2t fix_) (s2t exit) (s2t entry) cl de [] None.

(** With '#', different constraints share a key and one of them is lost. *)
Theorem C27_unique_keys_refuted : exists c c', c_exit c <> c_exit c' /\ key c = key c' /\
  departure c /\ departure c' /\ forall k, get k (fst (extract_constraints [c; c'])) <> Some c.
Proof.
  exists (ex_c None "A#B" "C" (Some 100%N) None), (ex_c None "A" "B#C" (Some 100%N) None).
  split; [discriminate|]. split; [reflexivity|]. split; [discriminate|]. split; [discriminate|].
  intros k E. apply extract_departure in E. destruct E as [pre [post [E [_ [K N]]]]].
  destruct pre as [|x [|y [|? ?]]]; try discriminate.
  cbn in E. injection E as <-. apply (N _ (or_introl eq_refl)); [discriminate|]. rewrite <- K. reflexivity.
Qed.
Print Assumptions C27_unique_keys_refuted.

Example C27_nonvacuous :
  let l := [ex_c (Some "ABC"%string) "X" "Y" (Some 100%N) None; ex_c None "X" "Y" None None;
            ex_c (Some "ABC"%string) "X" "Y" (Some 200%N) (Some 90%N); ex_c None "X" "Y" None (Some 80%N)] in
  fst (extract_constraints l) = [(s2t "*#*#*#*#ABC#X#Y", ex_c (Some "ABC"%string) "X" "Y" (Some 200%N) (Some 90%N))] /\
  snd (extract_constraints l) = [(s2t "*#*#*#*#*#X#Y", ex_c None "X" "Y" None (Some 80%N))] /\
  Forall no_hash l.
Proof.
  cbv zeta. split; [vm_compute; reflexivity|]. split; [vm_compute; reflexivity|].
  repeat constructor; cbn; intuition discriminate.
Qed.
