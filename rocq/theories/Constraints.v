(** Model of src/adaptation/constraints.rs and of [Constraint::key] (src/ese.rs). *)
From Verif Require Import Base Float.

(** settings/mod.rs:382-387 [CoordinationTiming]; [uom]'s [Time] is its f32 number of seconds. *)
Record timing := mkTiming { t_act : option spec_float; t_abi : option spec_float; t_rev : option spec_float }.

(** ese.rs:266-282 [Constraint] *)
Record constraint := mkConstraint {
  c_prev : option text; c_dep : option text; c_next : option text; c_arr : option text;
  c_fix : option text; c_exit : text; c_entry : text; c_climb : option N; c_descent : option N;
  c_desc : text; c_timing : option timing }.

(** ese.rs:337-355 [Constraint::key] *)
Definition opt_star (o : option text) : text := match o with Some s => s | None => s2t "*" end.
Definition key (c : constraint) : text :=
  opt_star (c_prev c) ++ 35%N :: opt_star (c_dep c) ++ 35%N :: opt_star (c_next c) ++ 35%N ::
  opt_star (c_arr c) ++ 35%N :: opt_star (c_fix c) ++ 35%N :: c_exit c ++ 35%N :: c_entry c.

Definition is_some {A} (o : option A) : bool := match o with Some _ => true | None => false end.

(** constraints.rs:7-26 [extract_constraints] *)
Definition extract_constraints (l : list constraint) : list (text * constraint) * list (text * constraint) :=
  let kept := filter (fun c => negb (negb (is_some (c_climb c)) && negb (is_some (c_descent c)))) l in
  let '(dep, dest) := partition (fun c => is_some (c_climb c)) kept in
  let keyed v := of_list (map (fun c => (key c, c)) v) in
  (keyed dep, keyed dest).
