(** Model of [read_to_string] (src/lib.rs:25-33): decoding of file bytes.  Bytes are numbers below 256. *)
From Verif Require Import Base.
Open Scope N_scope.

Definition between (lo hi x : N) : bool := (lo <=? x) && (x <=? hi).
Definition cont (x : N) : bool := between 128 191 x.

(** UTF-8 decoding: [Some c] for every well-formed sequence and [None] for every malformed one (a maximal
    prefix of a well-formed sequence, or one byte), as in the Unicode standard, table 3-7. *)
Fixpoint utf8_items (l : list N) : list (option N) :=
  match l with
  | [] => []
  | b :: r =>
    if b <? 128 then Some b :: utf8_items r
    else if between 194 223 b then
      match r with
      | c1 :: r1 => if cont c1 then Some ((b - 192) * 64 + (c1 - 128)) :: utf8_items r1 else None :: utf8_items r
      | [] => [None]
      end
    else if between 224 239 b then
      let lo := if b =? 224 then 160 else 128 in
      let hi := if b =? 237 then 159 else 191 in
      match r with
      | c1 :: r1 =>
        if between lo hi c1 then
          match r1 with
          | c2 :: r2 => if cont c2 then Some ((b - 224) * 4096 + (c1 - 128) * 64 + (c2 - 128)) :: utf8_items r2
                        else None :: utf8_items r1
          | [] => [None]
          end
        else None :: utf8_items r
      | [] => [None]
      end
    else if between 240 244 b then
      let lo := if b =? 240 then 144 else 128 in
      let hi := if b =? 244 then 143 else 191 in
      match r with
      | c1 :: r1 =>
        if between lo hi c1 then
          match r1 with
          | c2 :: r2 =>
            if cont c2 then
              match r2 with
              | c3 :: r3 => if cont c3
                            then Some ((b - 240) * 262144 + (c1 - 128) * 4096 + (c2 - 128) * 64 + (c3 - 128)) :: utf8_items r3
                            else None :: utf8_items r2
              | [] => [None]
              end
            else None :: utf8_items r1
          | [] => [None]
          end
        else None :: utf8_items r
      | [] => [None]
      end
    else None :: utf8_items r
  end.

(** [String::from_utf8] *)
Fixpoint all_ok (l : list (option N)) : option text :=
  match l with
  | [] => Some []
  | Some c :: l => match all_ok l with Some t => Some (c :: t) | None => None end
  | None :: _ => None
  end.
Definition from_utf8 (l : list N) : option text := all_ok (utf8_items l).

(** encoding_rs: UTF-8 with replacement characters *)
Definition utf8_lossy (l : list N) : text := map (fun o => match o with Some c => c | None => 65533 end) (utf8_items l).

(** encoding_rs: UTF-16 with replacement characters *)
Definition unit_ (le : bool) (a b : N) : N := if le then a + 256 * b else 256 * a + b.
Fixpoint utf16 (le : bool) (l : list N) : text :=
  match l with
  | [] => []
  | [_] => [65533]
  | a :: b :: r =>
    let u := unit_ le a b in
    if between 55296 56319 u then
      match r with
      | c :: d :: r' => if between 56320 57343 (unit_ le c d)
                        then 65536 + (u - 55296) * 1024 + (unit_ le c d - 56320) :: utf16 le r'
                        else 65533 :: utf16 le r
      | _ => [65533]
      end
    else if between 56320 57343 u then 65533 :: utf16 le r
    else u :: utf16 le r
  end.

(** encoding_rs: windows-1252, the characters of the bytes 0x80..0x9F *)
Definition win1252_c1 : list N :=
  [8364; 129; 8218; 402; 8222; 8230; 8224; 8225; 710; 8240; 352; 8249; 338; 141; 381; 143;
   144; 8216; 8217; 8220; 8221; 8226; 8211; 8212; 732; 8482; 353; 8250; 339; 157; 382; 376].
Definition win1252 (b : N) : N := if between 128 159 b then nth (N.to_nat (b - 128)) win1252_c1 0 else b.

(** encoding_rs [Encoding::decode]: a byte order mark takes precedence over the encoding and is removed. *)
Definition decode_1252 (l : list N) : text :=
  match l with
  | 239 :: 187 :: 191 :: r => utf8_lossy r
  | 255 :: 254 :: r => utf16 true r
  | 254 :: 255 :: r => utf16 false r
  | _ => map win1252 l
  end.

(** lib.rs:25-33 [read_to_string]; it never returns an error. *)
Definition read_to_string (l : list N) : text :=
  match from_utf8 l with
  | Some t => t
  | None => decode_1252 l
  end.
