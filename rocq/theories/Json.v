(** JSON values, and what serde's derives and serde_json make of Rust types.

    A Rust type is written and read by a [codec].  The combinators follow serde_derive (externally tagged enums, structs by field
    names, missing [Option] fields, duplicate fields) and serde_json (null for numbers that are not finite, integers as map keys). *)
From Verif Require Import Base Num Float Colours.

(** A JSON value; numbers are kept as they are written. *)
Inductive json := JNull | JBool (b : bool) | JNum (n : text) | JStr (s : text) | JArr (l : list json) | JObj (l : list (text * json)).

(** serde_json's numbers: how floats are written, and how a written number is read as a float or as an integer *)
Record numerals := mkNumerals {
  write64 : f64 -> text; write32 : spec_float -> text;
  read64 : text -> option f64; read32 : text -> option spec_float; read_int : text -> option Z }.

Definition bind {A B} (o : option A) (f : A -> option B) : option B := match o with Some a => f a | None => None end.
Fixpoint all_some {A B} (f : A -> option B) (l : list A) : option (list B) :=
  match l with
  | [] => Some []
  | x :: l => bind (f x) (fun y => bind (all_some f l) (fun ys => Some (y :: ys)))
  end.

Record codec (A : Type) := mkCodec { enc : A -> json; dec : json -> option A }.
Arguments mkCodec {A} enc dec. Arguments enc {A} c a. Arguments dec {A} c j.

(** A wrapped type, for instance a newtype struct *)
Definition iso {A B} (f : A -> B) (g : B -> A) (c : codec A) : codec B :=
  mkCodec (fun b => enc c (g b)) (fun j => option_map f (dec c j)).

(** ** Primitive types *)
Definition c_text : codec text := mkCodec JStr (fun j => match j with JStr s => Some s | _ => None end).
Definition c_bool : codec bool := mkCodec JBool (fun j => match j with JBool b => Some b | _ => None end).
(** [PhantomData] *)
Definition c_unit : codec unit := mkCodec (fun _ => JNull) (fun j => match j with JNull => Some tt | _ => None end).
(** integer types: a number without fraction or exponent in the range of the type *)
Definition c_int (nm : numerals) (lo hi : Z) : codec Z :=
  mkCodec (fun z => JNum (fmt_int z))
    (fun j => match j with
              | JNum n => bind (read_int nm n) (fun z => if (lo <=? z)%Z && (z <=? hi)%Z then Some z else None)
              | _ => None
              end).
Definition c_uint nm (max : N) : codec N := iso Z.to_N Z.of_N (c_int nm 0 (Z.of_N max)).
Definition c_usize nm : codec nat := iso N.to_nat N.of_nat (c_uint nm u64_max).
(** floats: NaN and infinities are written as null, which is no float *)
Definition finite (x : spec_float) : bool := match x with S754_zero _ | S754_finite _ _ _ => true | _ => false end.
Definition c_float (write : spec_float -> text) (read : text -> option spec_float) : codec spec_float :=
  mkCodec (fun x => if finite x then JNum (write x) else JNull) (fun j => match j with JNum n => read n | _ => None end).
Definition c_f64 nm := c_float (write64 nm) (read64 nm).
Definition c_f32 nm := c_float (write32 nm) (read32 nm).
(** adaptation/colours.rs:91-111 *)
Definition c_colour : codec colour :=
  mkCodec (fun c => JStr (serialize_colour c)) (fun j => match j with JStr s => visit_str s | _ => None end).

(** ** Containers *)
Definition c_option {A} (c : codec A) : codec (option A) :=
  mkCodec (fun o => match o with Some a => enc c a | None => JNull end)
    (fun j => match j with JNull => Some None | _ => option_map Some (dec c j) end).
Definition c_list {A} (c : codec A) : codec (list A) :=
  mkCodec (fun l => JArr (map (enc c) l)) (fun j => match j with JArr l => all_some (dec c) l | _ => None end).
(** [HashMap<String, _>]: the last of equal keys counts *)
Definition c_map {A} (c : codec A) : codec (list (text * A)) :=
  mkCodec (fun m => JObj (map (fun '(k, a) => (k, enc c a)) m))
    (fun j => match j with
              | JObj l => option_map of_list (all_some (fun '(k, j) => option_map (pair k) (dec c j)) l)
              | _ => None
              end).
(** [HashMap] with newtypes of [usize] as keys: they are written as strings *)
Definition key_of (nm : numerals) (k : text) : option nat :=
  bind (read_int nm k) (fun z => if (0 <=? z)%Z && (z <=? Z.of_N u64_max)%Z then Some (Z.to_nat z) else None).
Definition c_id_map {A} nm (c : codec A) : codec (list (nat * A)) :=
  mkCodec (fun m => JObj (map (fun '(k, a) => (fmt_int (Z.of_nat k), enc c a)) m))
    (fun j => match j with
              | JObj l => option_map of_list (all_some (fun '(k, j) => bind (key_of nm k) (fun k => option_map (pair k) (dec c j))) l)
              | _ => None
              end).
(** [HashSet<String>] *)
Definition insert (s : text) (l : list text) : list text := if existsb (eqb s) l then l else l ++ [s].
Definition c_set : codec (list text) := iso (fun l => fold_left (fun l s => insert s l) l []) (fun l => l) (c_list c_text).
(** [multimap::MultiMap] *)
Definition c_multi {A} (c : codec A) : codec (list (text * list A)) := c_map (c_list c).

(** Tuples, as arrays *)
Record tcodec (A : Type) := mkT { tenc : A -> list json; tdec : list json -> option A }.
Arguments mkT {A} tenc tdec. Arguments tenc {A} t a. Arguments tdec {A} t l.
Definition tnil : tcodec unit := mkT (fun _ => []) (fun l => match l with [] => Some tt | _ => None end).
Definition tcons {A B} (c : codec A) (t : tcodec B) : tcodec (A * B) :=
  mkT (fun p => enc c (fst p) :: tenc t (snd p))
    (fun l => match l with j :: l => bind (dec c j) (fun a => bind (tdec t l) (fun b => Some (a, b))) | [] => None end).
Definition c_tuple {A} (t : tcodec A) : codec A :=
  mkCodec (fun a => JArr (tenc t a)) (fun j => match j with JArr l => tdec t l | _ => None end).
Definition c_pair {A B} (c : codec A) (d : codec B) : codec (A * B) :=
  iso (fun '(a, (b, _)) => (a, b)) (fun '(a, b) => (a, (b, tt))) (c_tuple (tcons c (tcons d tnil))).

(** ** Structs *)

(** The values of a field in an object *)
Definition values (k : text) (o : list (text * json)) : list json := map snd (filter (fun e => eqb (fst e) k) o).
(** The fields of a struct: written in an object; read from an object, or from the elements of an array in their order *)
Record fcodec (A : Type) := mkF { fenc : A -> list (text * json); fobj : list (text * json) -> option A; farr : list json -> option A }.
Arguments mkF {A} fenc fobj farr. Arguments fenc {A} f a. Arguments fobj {A} f o. Arguments farr {A} f l.
Definition fnil : fcodec unit := mkF (fun _ => []) (fun _ => Some tt) (fun l => match l with [] => Some tt | _ => None end).
(** A field which may be absent in an object if there is a value [in_object] for it, and absent at the end of an array if there is a
    value [in_array]; it is an error if it is there twice *)
Definition fcons {A B} (k : string) (in_object in_array : option A) (c : codec A) (f : fcodec B) : fcodec (A * B) :=
  mkF (fun p => (s2t k, enc c (fst p)) :: fenc f (snd p))
    (fun o => bind match values (s2t k) o with [] => in_object | [j] => dec c j | _ => None end
                (fun a => bind (fobj f o) (fun b => Some (a, b))))
    (fun l => match l with
              | j :: l => bind (dec c j) (fun a => bind (farr f l) (fun b => Some (a, b)))
              | [] => bind in_array (fun a => bind (farr f []) (fun b => Some (a, b)))
              end).
(** A plain field *)
Definition field {A B} k (c : codec A) (f : fcodec B) := fcons k None None c f.
(** An [Option] field: None if it is absent *)
Definition field_option {A B} k (c : codec A) (f : fcodec B) := fcons k (Some None) None (c_option c) f.
(** A field with [serde(default)] *)
Definition field_default {A B} k (d : A) (c : codec A) (f : fcodec B) := fcons k (Some d) (Some d) c f.
Definition c_struct {A} (f : fcodec A) : codec A :=
  mkCodec (fun a => JObj (fenc f a)) (fun j => match j with JObj o => fobj f o | JArr l => farr f l | _ => None end).
(** Fields of the same type *)
Fixpoint same_fields {A} (ks : list string) (c : codec A) : fcodec (list (string * A)) :=
  match ks with
  | [] => mkF (fun _ => []) (fun _ => Some []) (fun l => match l with [] => Some [] | _ => None end)
  | k :: ks =>
    let f := field k c (same_fields ks c) in
    let cons_ (p : A * list (string * A)) := (k, fst p) :: snd p in
    mkF (fun l => match l with (_, a) :: l => fenc f (a, l) | [] => [] end)
      (fun o => option_map cons_ (fobj f o)) (fun l => option_map cons_ (farr f l))
  end.

(** ** Enums *)
Record ecodec (A : Type) := mkE { eenc : A -> json; estr : text -> option A; eobj : text -> json -> option A }.
Arguments mkE {A} eenc estr eobj. Arguments eenc {A} e a. Arguments estr {A} e s. Arguments eobj {A} e k j.
Definition enil : ecodec Empty_set := mkE (fun e : Empty_set => match e with end) (fun _ => None) (fun _ _ => None).
(** A variant without data: its name, or an object with its name and null *)
Definition variant0 {B} (k : string) (e : ecodec B) : ecodec (unit + B) :=
  mkE (fun x => match x with inl _ => JStr (s2t k) | inr b => eenc e b end)
    (fun s => if eq_dec s (s2t k) then Some (inl tt) else option_map inr (estr e s))
    (fun s j => if eq_dec s (s2t k) then match j with JNull => Some (inl tt) | _ => None end else option_map inr (eobj e s j)).
(** A variant with data: an object with its name *)
Definition variant {A B} (k : string) (c : codec A) (e : ecodec B) : ecodec (A + B) :=
  mkE (fun x => match x with inl a => JObj [(s2t k, enc c a)] | inr b => eenc e b end)
    (fun s => if eq_dec s (s2t k) then None else option_map inr (estr e s))
    (fun s j => if eq_dec s (s2t k) then option_map inl (dec c j) else option_map inr (eobj e s j)).
Definition c_enum {A} (e : ecodec A) : codec A :=
  mkCodec (eenc e) (fun j => match j with JStr s => estr e s | JObj [(k, j)] => eobj e k j | _ => None end).
