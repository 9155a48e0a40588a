(** [str::parse::<f32>] and [str::parse::<f64>] (core::num::dec2flt): the correctly rounded value
    of a decimal number.  Simplification: the exponent is not saturated at 65536 digits-worth. *)
From Verif Require Import Base Num Float.

(** The float nearest to [n * 10^x] *)
Definition dec_float (prec emax : Z) (neg : bool) (n : N) (x : Z) : spec_float :=
  match n with
  | N0 => S754_zero neg
  | Npos p =>
    match x with
    | Zneg k => let '(m, e, l) := SFdiv_core_binary prec emax (Zpos p) 0 (10 ^ Zpos k) 0 in
                binary_round_aux prec emax neg m e l
    | _ => binary_normalize prec emax (if neg then - (Zpos p * 10 ^ x) else Zpos p * 10 ^ x) 0 neg
    end
  end.

(** Leading decimal digits with their value and number, and the rest *)
Fixpoint take_digits (acc : N) (k : nat) (s : text) : N * nat * text :=
  match s with
  | c :: s' => if is_digit c then take_digits (acc * 10 + (c - 48))%N (S k) s' else (acc, k, s)
  | [] => (acc, k, s)
  end.

(** Optional exponent; [None] = malformed *)
Definition parse_exp (s : text) : option Z :=
  match s with
  | [] => Some 0%Z
  | c :: s =>
    if ((c =? 101)%N || (c =? 69)%N)
    then
      let '(neg, s) := match s with
                       | c :: r => if (c =? 45)%N then (true, r) else if (c =? 43)%N then (false, r) else (false, s)
                       | [] => (false, s)
                       end in
      match take_digits 0 0 s with
      | (v, S _, []) => Some (if neg : bool then - Z.of_N v else Z.of_N v)%Z
      | _ => None
      end
    else None
  end.

Definition lower1 (c : N) : N := if is_upper c then (c + 32)%N else c.

Definition parse_float (prec emax : Z) (s : text) : option spec_float :=
  let '(neg, s) := match s with
                   | c :: r => if (c =? 45)%N then (true, r) else if (c =? 43)%N then (false, r) else (false, s)
                   | [] => (false, s)
                   end in
  let l := map lower1 s in
  if eqb l (s2t "inf") || eqb l (s2t "infinity") then Some (S754_infinity neg)
  else if eqb l (s2t "nan") then Some S754_nan
  else
    let '(a, i, s) := take_digits 0 0 s in
    let '(b, j, s) := match s with
                      | c :: r => if (c =? 46)%N then take_digits a 0 r else (a, 0, s)
                      | [] => (a, 0, s)
                      end in
    if Nat.eqb (i + j) 0 then None
    else match parse_exp s with
         | Some e => Some (dec_float prec emax neg b (e - Z.of_nat j))
         | None => None
         end.

Definition parse_f64 := parse_float 53 1024.
Definition parse_f32 := parse_float 24 128.

Example parse_f64_examples :
  parse_f64 (s2t "-12.50") = Some (fdiv (f64_of_Z (-25)) (f64_of_Z 2)) /\
  parse_f64 (s2t "1e3") = Some (f64_of_Z 1000) /\ parse_f64 (s2t ".5") = Some (fdiv (f64_of_Z 1) (f64_of_Z 2)) /\
  parse_f64 (s2t ".") = None /\ parse_f64 (s2t "") = None /\ parse_f64 (s2t "1.") = Some (f64_of_Z 1) /\
  parse_f64 (s2t "0.1") = Some (f64_of_dec false 1 1) /\ parse_f64 (s2t "-Inf") = Some (S754_infinity true) /\
  parse_f64 (s2t "1e") = None /\ parse_f64 (s2t "12a") = None.
Proof. vm_compute. repeat split. Qed.
