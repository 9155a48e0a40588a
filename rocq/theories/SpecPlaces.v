(** Specification vocabulary for the identity of places (C72). *)
From Coq Require Import Reals.
From Verif Require Import Base Num Float SpecDms Places.
Local Open Scope string_scope.
Local Open Scope list_scope.

(** A coordinate that is a number of moderate size; degrees are *)
Definition moderate (x : f64) : Prop := finite x /\ (Rabs (real_value x) < 999)%R.
Definition somewhere (p : point) : Prop := moderate (px p) /\ moderate (py p).
(** How far apart two coordinates are *)
Definition apart (x y : f64) : R := Rabs (real_value x - real_value y).
(** [x] is [z] millionths of a degree, up to an error of [e] degrees *)
Definition millionths (z : Z) (x : f64) (e : R) : Prop := (Rabs (real_value x - IZR z / 1000000) <= e)%R.
(** A number with six decimals: [n] millionths *)
Definition six_decimals (negative : bool) (n : N) : text :=
  (if negative then s2t "-" else []) ++ digits 1 (n / 1000000) ++ s2t "." ++ digits 6 (n mod 1000000).
(** The point [c] is [p], up to half a millionth of a degree *)
Definition near (p c : point) : Prop := (apart (px c) (px p) <= 5000002 / 10000000000000)%R /\ (apart (py c) (py p) <= 5000002 / 10000000000000)%R.
