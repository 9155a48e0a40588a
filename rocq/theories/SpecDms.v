(** Specification vocabulary for coordinates in degrees, minutes and seconds (C09, C10). *)
From Verif Require Import Base Num Float.
From Coq Require Import Reals.
From Flocq Require Import Core BinarySingleNaN.

(** A decimal number with at least [w] digits *)
Definition digits (w : nat) (n : N) : text := pad_left 48 w (fmt_uint 10 n).
(** The texts of the four parts of a coordinate, [ms] in milliseconds, and the whole *)
Definition seconds_text (ms : N) : text := digits 2 (ms / 1000) ++ s2t "." ++ digits 3 (ms mod 1000).
Definition coordinate_text (h : string) (deg min ms : N) : text :=
  s2t h ++ digits 3 deg ++ s2t "." ++ digits 2 min ++ s2t "." ++ seconds_text ms.

Definition latitude_letter (h : string) : Prop := h = "N"%string \/ h = "S"%string.
Definition longitude_letter (h : string) : Prop := h = "E"%string \/ h = "W"%string.

(** The real value of a double *)
Definition real_value (x : f64) : R := SF2R radix2 x.
Definition finite (x : f64) : Prop := is_finite_SF x = true /\ valid_binary 53 1024 x = true.
(** A double which is positive, +0 or +infinity *)
Definition nonneg (x : f64) : Prop :=
  match x with S754_zero false | S754_infinity false => True | S754_finite false _ _ => valid_binary 53 1024 x = true | _ => False end.
Definition nonpos (x : f64) : Prop :=
  match x with S754_zero true | S754_infinity true => True | S754_finite true _ _ => valid_binary 53 1024 x = true | _ => False end.
(** North and east are positive *)
Definition hemisphere_sign (h : string) : R :=
  if string_dec h "N" then 1%R else if string_dec h "E" then 1%R else (-1)%R.
