(** Model of the identity of places: equality and hashing of [Fix] (src/adaptation/locations/mod.rs)
    and the texts of airway points (src/adaptation/locations/airways.rs). *)
From Verif Require Import Base Num Float Dms Airways.
Local Open Scope string_scope.
Local Open Scope list_scope.

(** locations/mod.rs:27-31 [Fix] *)
Record fix_ := mkFix { fx_name : text; fx_pos : point }.

(** locations/mod.rs:50-60 [PartialEq for Fix] *)
Definition fix_eqb (a b : fix_) : bool :=
  eqb (fx_name a) (fx_name b) && eqb (quantize (fx_pos a)) (quantize (fx_pos b)).

(** What a value hands to a [std::hash::Hasher]: a string or a 64-bit integer *)
Inductive fed := FedText (t : text) | FedInt (z : Z).

(** locations/mod.rs:33-48 [Hash for Fix]; [feed] is the hasher, the trace output is left out *)
Definition fix_hash {H} (feed : H -> fed -> H) (f : fix_) (state : H) : H :=
  let state := feed state (FedText (fx_name f)) in
  let '(x, y) := quantize (fx_pos f) in
  let state := feed state (FedInt x) in
  feed state (FedInt y).

(** airways.rs:311-320 [Display for AirwayType] *)
Definition show_type (t : airway_type) : text :=
  match t with AHigh => s2t "H" | ALow => s2t "L" | ABoth => s2t "B" | AUnknown => [] end.

(** [{:.6}] of a number *)
Definition show6 (x : f64) : text :=
  match fmt_fixed 0 6 x with
  | Some t => t
  | None => match x with S754_infinity true => s2t "-inf" | S754_infinity false => s2t "inf" | _ => s2t "NaN" end
  end.

(** airways.rs:322-335 [Display for AirwayFix] *)
Definition show_airway_fix (f : airway_fix) : text :=
  af_name f ++ [9%N] ++ show6 (py (af_pos f)) ++ [9%N] ++ show6 (px (af_pos f)) ++ [9%N] ++
  match af_min f with Some l => pad_left 48 5 (fmt_uint 10 l) | None => [] end ++ [9%N] ++
  (if af_valid f then s2t "Y" else s2t "N").
