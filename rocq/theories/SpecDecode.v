(** Specification vocabulary for decoding (C02). *)
From Verif Require Import Base.
Open Scope N_scope.

(** A Unicode scalar value *)
Definition scalar (c : N) : Prop := c < 55296 \/ 57343 < c <= 1114111.
Definition byte (b : N) : Prop := b < 256.

(** The UTF-8 encoding *)
Definition utf8_char (c : N) : list N :=
  if c <? 128 then [c]
  else if c <? 2048 then [192 + c / 64; 128 + c mod 64]
  else if c <? 65536 then [224 + c / 4096; 128 + (c / 64) mod 64; 128 + c mod 64]
  else [240 + c / 262144; 128 + (c / 4096) mod 64; 128 + (c / 64) mod 64; 128 + c mod 64].
Definition utf8 (t : text) : list N := flat_map utf8_char t.
Definition is_utf8 (l : list N) : Prop := exists t, Forall scalar t /\ l = utf8 t.

(** UTF-16, [le]: little-endian *)
Definition unit_bytes (le : bool) (u : N) : list N := if le then [u mod 256; u / 256] else [u / 256; u mod 256].
Definition utf16_char (le : bool) (c : N) : list N :=
  if c <? 65536 then unit_bytes le c
  else unit_bytes le (55296 + (c - 65536) / 1024) ++ unit_bytes le (56320 + (c - 65536) mod 1024).
Definition utf16_bytes (le : bool) (t : text) : list N := flat_map (utf16_char le) t.

(** windows-1252: ASCII and Latin-1 except for the bytes 0x80..0x9F, of which 0x81, 0x8D, 0x8F, 0x90, 0x9D stay controls *)
Definition windows_1252_specials : list (N * N) :=
  [(128, 8364 (* euro sign *)); (130, 8218 (* single low quote *)); (131, 402 (* f with hook *)); (132, 8222 (* double low quote *));
   (133, 8230 (* ellipsis *)); (134, 8224 (* dagger *)); (135, 8225 (* double dagger *)); (136, 710 (* circumflex *));
   (137, 8240 (* per mille *)); (138, 352 (* S caron *)); (139, 8249 (* single left angle *)); (140, 338 (* OE *));
   (142, 381 (* Z caron *)); (145, 8216 (* left single quote *)); (146, 8217 (* right single quote *));
   (147, 8220 (* left double quote *)); (148, 8221 (* right double quote *)); (149, 8226 (* bullet *)); (150, 8211 (* en dash *));
   (151, 8212 (* em dash *)); (152, 732 (* tilde *)); (153, 8482 (* trade mark *)); (154, 353 (* s caron *));
   (155, 8250 (* single right angle *)); (156, 339 (* oe *)); (158, 382 (* z caron *)); (159, 376 (* Y diaeresis *))].
Definition windows_1252 (b c : N) : Prop :=
  In (b, c) windows_1252_specials \/ (~ In b (map fst windows_1252_specials) /\ c = b).

Definition has_bom (l : list N) : Prop :=
  (exists r, l = 239 :: 187 :: 191 :: r) \/ (exists r, l = 255 :: 254 :: r) \/ (exists r, l = 254 :: 255 :: r).
