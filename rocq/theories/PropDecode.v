(** Property theorems: decoding of file bytes (C02). *)
From Verif Require Import Base Decode SpecDecode DecodeProofs.
Open Scope N_scope.

Theorem C02_utf8 : forall t, Forall scalar t -> read_to_string (utf8 t) = t.
Proof. exact read_utf8. Qed.
Print Assumptions C02_utf8.

Theorem C02_windows_1252 : forall l, Forall byte l -> ~ is_utf8 l -> ~ has_bom l ->
  Forall2 windows_1252 l (read_to_string l).
Proof. exact read_1252. Qed.
Print Assumptions C02_windows_1252.

(** Nothing is lost: two different files of that kind read differently. *)
Theorem C02_windows_1252_lossless : forall l l', Forall byte l -> Forall byte l' ->
  ~ is_utf8 l -> ~ is_utf8 l' -> ~ has_bom l -> ~ has_bom l' -> read_to_string l = read_to_string l' -> l = l'.
Proof.
  intros l l' F F' N N' B B' E. pose proof (read_1252 l F N B) as R. pose proof (read_1252 l' F' N' B') as R'.
  rewrite <- E in R'. clear N N' B B' E. revert l' F' R'. induction R as [|b c l t H _ IH]; intros l' F' R'.
  - inversion R'. reflexivity.
  - inversion R' as [|b' ? l'' ? H' R'']; subst. inversion F; subst. inversion F'; subst. f_equal.
    + eapply windows_1252_inj; eassumption.
    + apply IH; assumption.
Qed.
Print Assumptions C02_windows_1252_lossless.

Theorem C02_ascii : forall l, Forall (fun b => b < 128) l -> read_to_string l = l.
Proof.
  intros l F. assert (U : utf8 l = l).
  { unfold utf8. induction F as [|b l H _ IH]; [reflexivity|]. cbn [flat_map]. rewrite IH. unfold utf8_char.
    apply N.ltb_lt in H. rewrite H. reflexivity. }
  rewrite <- U at 1. apply read_utf8. apply Forall_forall. rewrite Forall_forall in F. intros b I. specialize (F b I). left. lia.
Qed.
Print Assumptions C02_ascii.

(** Files with a byte order mark: UTF-16 is understood, the mark of a valid UTF-8 file stays in the text. *)
Theorem C02_utf16 : forall (le : bool) t, Forall scalar t ->
  read_to_string ((if le then [255; 254] else [254; 255]) ++ utf16_bytes le t) = t.
Proof. exact read_utf16. Qed.
Print Assumptions C02_utf16.

Theorem C02_utf8_bom_kept : forall t, Forall scalar t -> read_to_string ([239; 187; 191] ++ utf8 t) = 65279 :: t.
Proof.
  intros t F. change ([239; 187; 191] ++ utf8 t) with (utf8 (65279 :: t)). apply read_utf8. constructor; [right; lia | exact F].
Qed.
Print Assumptions C02_utf8_bom_kept.

(** The result is a sequence of Unicode scalar values in every case. *)
Theorem C02_scalars : forall l, Forall byte l -> Forall scalar (read_to_string l).
Proof. exact read_scalars. Qed.
Print Assumptions C02_scalars.

(** Without the byte order mark condition the windows-1252 claim fails. *)
Theorem C02_bom_refuted : exists l, Forall byte l /\ ~ is_utf8 l /\ ~ Forall2 windows_1252 l (read_to_string l).
Proof.
  exists [255; 254; 65; 0]. split; [repeat constructor|]. split; [apply not_utf8_ff; auto|].
  intros H. apply Forall2_length in H. vm_compute in H. discriminate H.
Qed.
Print Assumptions C02_bom_refuted.

(** "Grüß" in windows-1252 and in UTF-8, with a euro sign *)
Example C02_nonvacuous :
  read_to_string [71; 114; 252; 223; 128] = [71; 114; 252; 223; 8364] /\
  read_to_string [71; 114; 195; 188; 195; 159; 226; 130; 172] = [71; 114; 252; 223; 8364] /\
  ~ is_utf8 [71; 114; 252; 223; 128] /\ ~ has_bom [71; 114; 252; 223; 128] /\
  read_to_string [239; 187; 191; 65; 255; 66] = [65; 65533; 66].
Proof.
  split; [|split; [|split; [|split]]]; try (vm_compute; reflexivity).
  - intros [t [F E]]. assert (X : from_utf8 [71; 114; 252; 223; 128] = Some t) by (apply from_utf8_iff; auto). vm_compute in X. discriminate X.
  - intros [[r E]|[[r E]|[r E]]]; discriminate E.
Qed.
