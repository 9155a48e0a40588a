(** IEEE-754 numbers: Rust's f64 (and f32) are modelled by the standard library's
    [spec_float] with its correctly rounded (nearest, ties to even) operations. *)
From Coq Require Export SpecFloat.
From Verif Require Import Base.

Definition f64 := spec_float.
Definition fadd : f64 -> f64 -> f64 := SFadd 53 1024.
Definition fsub : f64 -> f64 -> f64 := SFsub 53 1024.
Definition fmul : f64 -> f64 -> f64 := SFmul 53 1024.
Definition fdiv : f64 -> f64 -> f64 := SFdiv 53 1024.
(** f64::from(integer), exact below 2^53 and correctly rounded in general *)
Definition f64_of_Z (z : Z) : f64 := binary_normalize 53 1024 z 0 false.

Definition f32_of_Z (z : Z) : spec_float := binary_normalize 24 128 z 0 false.

(** [x.round()] (ties away from zero) of a finite number, as an integer *)
Definition round_away (s : bool) (m : positive) (e : Z) : Z :=
  let v := match e with
           | Z0 => Zpos m
           | Zpos p => Zpos m * 2 ^ Zpos p
           | Zneg p => (Zpos m + 2 ^ (Zpos p - 1)) / 2 ^ Zpos p
           end%Z in
  if s then (- v)%Z else v.

Definition i64_min : Z := -9223372036854775808.
Definition i64_max : Z := 9223372036854775807.
Definition clamp (lo hi z : Z) : Z := Z.max lo (Z.min hi z).

(** [x.round() as i64]: the cast saturates and maps NaN to 0 *)
Definition round_i64 (x : f64) : Z :=
  match x with
  | S754_zero _ => 0
  | S754_infinity s => if s then i64_min else i64_max
  | S754_nan => 0
  | S754_finite s m e => clamp i64_min i64_max (round_away s m e)
  end.

(** adaptation/mod.rs:364-371 [Quantize::q], FACTOR = 1e6 *)
Definition q (x : f64) : Z := round_i64 (fmul x (f64_of_Z 1000000)).

(** A geo::Point / geo::Coord: x is the longitude, y the latitude. *)
Definition point := (f64 * f64)%type.
Definition px (p : point) : f64 := fst p.
Definition py (p : point) : f64 := snd p.

(** adaptation/mod.rs:373-385 [quantize] for Point and Coord *)
Definition quantize (p : point) : Z * Z := (q (px p), q (py p)).

(** Decimal literals: the nearest double of [n / 10^k]. *)
Definition f64_of_dec (neg : bool) (n : N) (k : N) : f64 :=
  match n with
  | N0 => S754_zero neg
  | Npos p =>
    let d := (10 ^ k)%N in
    match d with
    | Npos dp => let '(m, e, l) := SFdiv_core_binary 53 1024 (Zpos p) 0 (Zpos dp) 0 in
                 binary_round_aux 53 1024 neg m e l
    | N0 => S754_nan
    end
  end.
