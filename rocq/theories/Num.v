(** Integer parsing and formatting as done by the Rust standard library. *)
From Verif Require Import Base.

(** Value of an ASCII digit or letter ([char::to_digit]). *)
Definition digit_val (radix c : N) : option N :=
  let v := if is_digit c then Some (c - 48)%N
           else if is_upper c then Some (c - 55)%N
           else if is_lower c then Some (c - 87)%N else None in
  match v with Some d => if (d <? radix)%N then Some d else None | None => None end.

Fixpoint digits_val (radix acc : N) (s : text) : option N :=
  match s with
  | [] => Some acc
  | c :: s => match digit_val radix c with
              | Some d => digits_val radix (acc * radix + d)%N s
              | None => None
              end
  end.

(** Non-empty digit string. *)
Definition digits1_val (radix : N) (s : text) : option N :=
  match s with [] => None | _ => digits_val radix 0 s end.

(** [uN::from_str_radix] / [str::parse::<uN>] with [max = 2^N - 1]: an optional '+',
    at least one digit, overflow is an error. *)
Definition parse_uint (radix max : N) (s : text) : option N :=
  let ds := match s with c :: r => if (c =? 43)%N then r else s | [] => [] end in
  match digits1_val radix ds with
  | Some v => if (v <=? max)%N then Some v else None
  | None => None
  end.

(** [str::parse::<iN>] for the range [lo, hi]: optional '+' or '-'. *)
Definition parse_int (lo hi : Z) (s : text) : option Z :=
  let '(neg, ds) :=
    match s with
    | c :: r => if (c =? 43)%N then (false, r) else if (c =? 45)%N then (true, r) else (false, s)
    | [] => (false, [])
    end in
  match digits1_val 10 ds with
  | Some v => let z := if neg : bool then (- Z.of_N v)%Z else Z.of_N v in
              if (lo <=? z)%Z && (z <=? hi)%Z then Some z else None
  | None => None
  end.

Definition u8_max : N := 255.
Definition u16_max : N := 65535.
Definition u32_max : N := 4294967295.
Definition u64_max : N := 18446744073709551615.
Definition i32_min : Z := -2147483648.
Definition i32_max : Z := 2147483647.
Definition parse_u8 := parse_uint 10 u8_max.
Definition parse_u16 := parse_uint 10 u16_max.
Definition parse_u32 := parse_uint 10 u32_max.
Definition parse_i32 := parse_int i32_min i32_max.
Definition parse_i64 := parse_int (-9223372036854775808) 9223372036854775807.
Definition parse_i8 := parse_int (-128) 127.

(** Digit character, lower case as in [{:x}]. *)
Definition digit_char (d : N) : N := if (d <? 10)%N then (48 + d)%N else (87 + d)%N.

(** Digits of [n] prepended to [acc]; [fuel] is at least the number of digits. *)
Fixpoint fmt_aux (fuel : nat) (radix n : N) (acc : text) : text :=
  match fuel with
  | O => acc
  | S f => let acc := digit_char (n mod radix) :: acc in
           if (n / radix =? 0)%N then acc else fmt_aux f radix (n / radix) acc
  end.
Definition fmt_uint (radix n : N) : text := fmt_aux (S (N.size_nat n)) radix n [].

(** Left padding to width [w] with character [c] ([{:0w$}]). *)
Definition pad_left (c : N) (w : nat) (s : text) : text := repeat c (w - List.length s) ++ s.

(** [{}] of a signed integer *)
Definition fmt_int (z : Z) : text :=
  if (z <? 0)%Z then 45%N :: fmt_uint 10 (Z.to_N (- z)) else fmt_uint 10 (Z.to_N z).
