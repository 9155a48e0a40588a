(** Walking parse trees: pest's [Pairs] and [unwrap]. *)
From Verif Require Import Base Peg.

Definition obind {A B} (x : outcome A) (f : A -> outcome B) : outcome B :=
  match x with Ret a => f a | Err => Err | Panic => Panic end.
Notation "'do' p <- x ; y" := (obind x (fun p => y)) (at level 200, p pattern, x at level 100, y at level 200, right associativity).
(** [Option::unwrap] and [Result::unwrap] *)
Definition unwrap {A} (o : option A) : outcome A := match o with Some a => Ret a | None => Panic end.
Fixpoint omap {A B} (f : A -> outcome B) (l : list A) : outcome (list B) :=
  match l with
  | [] => Ret []
  | x :: l => do y <- f x; do ys <- omap f l; Ret (y :: ys)
  end.
Fixpoint ofold {A B} (f : B -> A -> outcome B) (l : list A) (b : B) : outcome B :=
  match l with
  | [] => Ret b
  | x :: l => do b <- f b x; ofold f l b
  end.

(** [Pair::as_rule], [Pair::as_str], [Pair::into_inner] *)
Definition rule_of (t : tree) : string := match t with T n _ _ => n end.
Definition text_of (t : tree) : text := match t with T _ s _ => s end.
Definition kids_of (t : tree) : list tree := match t with T _ _ k => k end.
Definition is_rule (t : tree) (n : string) : bool := eqb (rule_of t) n.
(** [pairs.next().unwrap()] *)
Definition next (ts : list tree) : outcome (tree * list tree) :=
  match ts with t :: r => Ret (t, r) | [] => Panic end.
(** [Parser::parse(rule, text)]: the pairs, or the syntax error.  The other results of the evaluator are excluded
    by [C01_computed]; as a run that does not come back they count as a panic here. *)
Definition pairs (g : grammar) (start : string) (t : text) : outcome (list tree) :=
  match parse g start t with Ok _ _ _ ts => Ret ts | Fail => Err | _ => Panic end.
(** [pairs.next().unwrap().into_inner()] *)
Definition top (g : grammar) (start : string) (t : text) : outcome (list tree) :=
  do ts <- pairs g start t; do (x, _) <- next ts; Ret (kids_of x).
Ltac walk := cbv beta iota zeta delta [obind unwrap next kids_of text_of rule_of].
Ltac walk_in H := cbv beta iota zeta delta [obind unwrap next kids_of text_of rule_of] in H.
