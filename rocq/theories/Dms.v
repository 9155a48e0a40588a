(** Model of the degrees/minutes/seconds code of src/lib.rs and of Rust's formatting of floats with a precision. *)
From Verif Require Import Base Num Float FloatParse.

(** ** f64 operations used *)
Definition fabs : f64 -> f64 := SFabs.
(** [f64::is_sign_negative]; the sign of a NaN is not modelled *)
Definition is_sign_negative (x : f64) : bool :=
  match x with S754_zero s | S754_infinity s | S754_finite s _ _ => s | S754_nan => false end.
(** [f64::trunc]; on the non-negative numbers it is applied to here, [f64::floor] is the same function. *)
Definition ftrunc (x : f64) : f64 :=
  match x with
  | S754_finite s m (Zneg p) => let k := (Zpos m / 2 ^ Zpos p)%Z in binary_normalize 53 1024 (if s then - k else k)%Z 0 s
  | _ => x
  end.
(** [f64::fract]: [self - self.trunc()] *)
Definition ffract (x : f64) : f64 := fsub x (ftrunc x).
(** [x as u8]: truncated and saturating, NaN is 0 *)
Definition to_u8 (x : f64) : N :=
  match x with
  | S754_zero _ | S754_nan => 0
  | S754_infinity s => if s then 0 else 255
  | S754_finite true _ _ => 0
  | S754_finite false m e =>
    N.min 255 (Z.to_N match e with Z0 => Zpos m | Zpos p => Zpos m * 2 ^ Zpos p | Zneg p => Zpos m / 2 ^ Zpos p end)
  end%N.

(** [n / d] rounded to the nearest integer, ties to even *)
Definition round_even (n d : Z) : Z :=
  let q := (n / d)%Z in
  match (2 * (n mod d) ?= d)%Z with
  | Lt => q
  | Gt => q + 1
  | Eq => if Z.even q then q else q + 1
  end%Z.
(** [|x| * 10^k] rounded to an integer, ties to even *)
Definition scaled (k : Z) (x : f64) : option N :=
  match x with
  | S754_zero _ => Some 0%N
  | S754_finite _ m e => Some (Z.to_N match e with
      | Zneg p => round_even (Zpos m * 10 ^ k) (2 ^ Zpos p)
      | _ => Zpos m * 2 ^ e * 10 ^ k
      end)%Z
  | _ => None
  end.
(** [{:0w.k}] of a finite number (core::fmt::float, exact mode): the exact decimal value rounded half to even.
    [None] for infinities and NaN, which are not modelled; [k] is positive. *)
Definition fmt_fixed (w k : nat) (x : f64) : option text :=
  match scaled (Z.of_nat k) x with
  | None => None
  | Some n =>
    let d := (10 ^ N.of_nat k)%N in
    let body := fmt_uint 10 (n / d) ++ s2t "." ++ pad_left 48 k (fmt_uint 10 (n mod d)) in
    Some (if is_sign_negative x then 45%N :: pad_left 48 (w - 1) body else pad_left 48 w body)
  end.

(** ** lib.rs *)
(** lib.rs:36-50 [Sign] *)
Inductive hemi := Pos | Neg.
Definition sign_of (h : hemi) : f64 := match h with Pos => f64_of_Z 1 | Neg => f64_of_Z (-1) end.
(** lib.rs:52-60 [Sign::from]: anything else panics *)
Definition hemi_from (s : text) : outcome hemi :=
  if eqb s (s2t "N") || eqb s (s2t "E") || eqb s (s2t "n") || eqb s (s2t "e") then Ret Pos
  else if eqb s (s2t "S") || eqb s (s2t "W") || eqb s (s2t "s") || eqb s (s2t "w") then Ret Neg
  else Panic.
(** lib.rs:62 [DegMinSec] *)
Definition deg_min_sec := (hemi * N * N * f64)%type.

(** lib.rs:97-106 [Coord::from_deg_min_sec], one component and both *)
Definition dms_value (p : deg_min_sec) : f64 :=
  let '(h, deg, min, sec) := p in
  fmul (fadd (fadd (f64_of_Z (Z.of_N deg)) (fdiv (f64_of_Z (Z.of_N min)) (f64_of_Z 60))) (fdiv sec (f64_of_Z 3600))) (sign_of h).
Definition from_deg_min_sec (lat lng : deg_min_sec) : point := (dms_value lng, dms_value lat).

(** lib.rs:64-81 [decimal_to_dms] *)
Definition decimal_to_dms (x : f64) (is_latitude : bool) : N * N * f64 * N :=
  let is_negative := is_sign_negative x in
  let abs := fabs x in
  let degrees := to_u8 (ftrunc abs) in
  let minutes_f64 := fmul (ffract abs) (f64_of_Z 60) in
  let minutes := to_u8 (ftrunc minutes_f64) in
  let seconds := fmul (ffract minutes_f64) (f64_of_Z 60) in
  let direction := match is_latitude, is_negative with
                   | true, false => 78 | true, true => 83 | false, false => 69 | false, true => 87
                   end%N in
  (degrees, minutes, seconds, direction).

(** lib.rs:108-115 [lat_deg_min_sec_fmt] and 117-124 [lng_deg_min_sec_fmt] *)
Definition dms_fmt (x : f64) (is_latitude : bool) : option text :=
  let '(deg, min, sec, dir) := decimal_to_dms x is_latitude in
  let carry := SFltb (fabs (fsub sec (f64_of_Z 60))) (f64_of_dec false 1 6) in
  let min := if carry then (min + 1)%N else min in
  let sec := if carry then S754_zero false else sec in
  match fmt_fixed 6 3 sec with
  | Some s => Some (dir :: pad_left 48 3 (fmt_uint 10 deg) ++ s2t "." ++ pad_left 48 2 (fmt_uint 10 min) ++ s2t "." ++ s)
  | None => None
  end.
Definition lat_fmt (p : point) : option text := dms_fmt (py p) true.
Definition lng_fmt (p : point) : option text := dms_fmt (px p) false.
(** lib.rs:87-93 [deg_min_sec_fmt] *)
Definition deg_min_sec_fmt (p : point) : option text :=
  match lat_fmt p, lng_fmt p with
  | Some a, Some b => Some (a ++ s2t " " ++ b)
  | _, _ => None
  end.

(** sct.rs:528-541 [parse_coordinate_part] on the texts of its four children: the [unwrap]s panic. *)
Definition parse_part (h d m s : text) : outcome deg_min_sec :=
  match hemi_from h with
  | Ret sg =>
    match parse_u16 d, parse_u8 m, parse_f64 s with
    | Some deg, Some min, Some sec => Ret (sg, deg, min, sec)
    | _, _, _ => Panic
    end
  | _ => Panic
  end.

(** The repository's tests (lib.rs:209-245) *)
Example dms_tests :
  deg_min_sec_fmt (from_deg_min_sec (Pos, 48, 40, f64_of_Z 0)%N (Pos, 10, 58, f64_of_dec false 5 1)%N) =
    Some (s2t "N048.40.00.000 E010.58.00.500") /\
  lat_fmt (f64_of_Z 0, f64_of_dec true 5 1) = Some (s2t "S000.30.00.000").
Proof. vm_compute. split; reflexivity. Qed.
Example fmt_tests :
  map (fmt_fixed 0 1) [f64_of_dec false 25 2; f64_of_dec false 35 2; f64_of_dec true 75 2; f64_of_dec true 0 0] =
  [Some (s2t "0.2"); Some (s2t "0.3"); Some (s2t "-0.8"); Some (s2t "-0.0")] /\
  fmt_fixed 6 3 (f64_of_dec false 12345 1) = Some (s2t "1234.500") /\ fmt_fixed 0 6 (f64_of_Z 7) = Some (s2t "7.000000").
Proof. vm_compute. split; [|split]; reflexivity. Qed.
