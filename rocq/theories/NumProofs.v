From Coq Require Import ZifyBool ZifyN.
From Verif Require Import Base Num.
Ltac Zify.zify_post_hook ::= Z.div_mod_to_equations.

Lemma digit_val_char radix d :
  (d < radix)%N -> (radix <= 36)%N -> digit_val radix (digit_char d) = Some d.
Proof.
  intros H1 H2. unfold digit_val, digit_char, is_digit, is_upper, is_lower.
  destruct (d <? 10)%N eqn:E.
  - replace ((48 <=? 48 + d)%N && (48 + d <=? 57)%N) with true by lia.
    replace (48 + d - 48)%N with d by lia.
    replace (d <? radix)%N with true by lia. reflexivity.
  - replace ((48 <=? 87 + d)%N && (87 + d <=? 57)%N) with false by lia.
    replace ((65 <=? 87 + d)%N && (87 + d <=? 90)%N) with false by lia.
    replace ((97 <=? 87 + d)%N && (87 + d <=? 122)%N) with true by lia.
    replace (87 + d - 87)%N with d by lia.
    replace (d <? radix)%N with true by lia. reflexivity.
Qed.

Lemma digit_char_nosign d : (d < 36)%N -> digit_char d <> 43%N /\ digit_char d <> 45%N.
Proof. unfold digit_char; intros H; destruct (d <? 10)%N eqn:E; lia. Qed.

Lemma size_nat_bound n : (n < 2 ^ N.of_nat (N.size_nat n))%N.
Proof.
  destruct n as [|p]; [cbn; lia|].
  pose proof (N.size_gt (Npos p)) as S.
  assert (E : N.of_nat (N.size_nat (N.pos p)) = N.size (N.pos p)).
  { clear S. cbn. induction p as [p IH|p IH|]; cbn; [|..]; rewrite ?Nnat.Nat2N.inj_succ, ?IH; try reflexivity; cbn; lia. }
  rewrite E. exact S.
Qed.

Lemma fmt_aux_nonnil fuel radix n acc : fuel <> 0 -> fmt_aux fuel radix n acc <> [].
Proof.
  revert n acc; induction fuel as [|f IH]; intros n acc H; [lia|].
  cbn [fmt_aux]. destruct (n / radix =? 0)%N; [discriminate|].
  destruct f as [|f]; [cbn; discriminate | apply IH; lia].
Qed.

Lemma fmt_aux_len f radix m b : List.length (fmt_aux f radix m b) >= List.length b.
Proof.
  revert m b; induction f as [|f IH]; intros m b; cbn [fmt_aux]; [lia|].
  destruct (m / radix =? 0)%N; [cbn [List.length]; lia|].
  specialize (IH (m / radix)%N (digit_char (m mod radix) :: b)).
  cbn [List.length] in IH; lia.
Qed.

Lemma fmt_aux_val fuel radix n acc a :
  (2 <= radix)%N -> (radix <= 36)%N -> (n < 2 ^ N.of_nat fuel)%N ->
  digits_val radix a (fmt_aux fuel radix n acc)
  = digits_val radix (a * radix ^ N.of_nat (List.length (fmt_aux fuel radix n acc) - List.length acc) + n)%N acc.
Proof.
  intros R1 R2. revert n acc a; induction fuel as [|f IH]; intros n acc a Hn.
  - assert (n = 0)%N as -> by (cbn in Hn; lia). cbn [fmt_aux].
    rewrite Nat.sub_diag. cbn [N.of_nat]. rewrite N.pow_0_r. f_equal; lia.
  - cbn [fmt_aux]. assert (Hm : (n mod radix < radix)%N) by (apply N.mod_lt; lia).
    assert (Hd : n = (radix * (n / radix) + n mod radix)%N) by (apply N.div_mod'; lia).
    destruct (n / radix =? 0)%N eqn:E.
    + apply N.eqb_eq in E. cbn [digits_val].
      rewrite digit_val_char by lia.
      replace (List.length (digit_char (n mod radix) :: acc) - List.length acc) with 1 by (cbn [List.length]; lia).
      cbn [N.of_nat]. change (N.of_nat 1) with 1%N. rewrite N.pow_1_r.
      f_equal. rewrite E in Hd. lia.
    + rewrite IH.
      * cbn [digits_val]. rewrite digit_val_char by lia. f_equal.
        set (L := fmt_aux f radix (n / radix) (digit_char (n mod radix) :: acc)).
        assert (HL : List.length L > List.length acc).
        { unfold L.
          pose proof (fmt_aux_len f radix (n / radix) (digit_char (n mod radix) :: acc)) as G.
          cbn [List.length] in G; lia. }
        replace (N.of_nat (List.length L - List.length acc))
          with (N.succ (N.of_nat (List.length L - List.length (digit_char (n mod radix) :: acc)))) by (cbn [List.length]; lia).
        rewrite N.pow_succ_r'. revert Hd.
        generalize (radix ^ N.of_nat (List.length L - List.length (digit_char (n mod radix) :: acc)))%N as k.
        generalize (n / radix)%N as q, (n mod radix)%N as r. intros q r k ->. ring.
      * rewrite Nnat.Nat2N.inj_succ, N.pow_succ_r' in Hn.
        apply N.div_lt_upper_bound; [lia|]. nia.
Qed.

Lemma fmt_uint_nonnil radix n : fmt_uint radix n <> [].
Proof. apply fmt_aux_nonnil; lia. Qed.

Lemma digits_fmt_uint radix n :
  (2 <= radix)%N -> (radix <= 36)%N -> digits_val radix 0 (fmt_uint radix n) = Some n.
Proof.
  intros R1 R2. unfold fmt_uint. rewrite fmt_aux_val; [|lia|lia|].
  - cbn [digits_val]. f_equal; lia.
  - rewrite Nnat.Nat2N.inj_succ, N.pow_succ_r'. pose proof (size_nat_bound n). lia.
Qed.

Lemma digits_zeros radix k s :
  (1 <= radix)%N -> digits_val radix 0 (repeat 48%N k ++ s) = digits_val radix 0 s.
Proof.
  intros R; induction k as [|k IH]; [reflexivity|].
  cbn [repeat app digits_val]. unfold digit_val at 1; cbn.
  replace (0 <? radix)%N with true by lia. exact IH.
Qed.

(** Formatting, padded with zeros to any width, is undone by reading the digits. *)
Lemma digits_pad_fmt radix w n :
  (2 <= radix)%N -> (radix <= 36)%N ->
  digits_val radix 0 (pad_left 48 w (fmt_uint radix n)) = Some n.
Proof.
  intros R1 R2. unfold pad_left. rewrite digits_zeros by lia. apply digits_fmt_uint; assumption.
Qed.

Lemma pad_fmt_inj radix w a b :
  (2 <= radix)%N -> (radix <= 36)%N ->
  pad_left 48 w (fmt_uint radix a) = pad_left 48 w (fmt_uint radix b) -> a = b.
Proof.
  intros R1 R2 E. pose proof (digits_pad_fmt radix w a R1 R2) as A.
  rewrite E, (digits_pad_fmt radix w b R1 R2) in A. congruence.
Qed.

Lemma fmt_aux_chars fuel radix n acc (P : N -> Prop) :
  (1 <= radix)%N -> (forall d, (d < radix)%N -> P (digit_char d)) ->
  Forall P acc -> Forall P (fmt_aux fuel radix n acc).
Proof.
  intros R H. revert n acc; induction fuel as [|f IH]; intros n acc A; [exact A|].
  cbn [fmt_aux]. assert (P (digit_char (n mod radix))) by (apply H, N.mod_lt; lia).
  destruct (n / radix =? 0)%N; [constructor; assumption|].
  apply IH; constructor; assumption.
Qed.

Lemma pad_fmt_chars w radix n (P : N -> Prop) :
  (1 <= radix)%N -> (forall d, (d < radix)%N -> P (digit_char d)) ->
  Forall P (pad_left 48 w (fmt_uint radix n)).
Proof.
  intros R H. unfold pad_left. apply Forall_app; split.
  - apply Forall_forall. intros x I. apply repeat_spec in I; subst.
    exact (H 0%N ltac:(lia)).
  - apply fmt_aux_chars; auto.
Qed.

Lemma parse_uint_fmt radix max w n :
  (2 <= radix)%N -> (radix <= 36)%N -> (n <= max)%N ->
  parse_uint radix max (pad_left 48 w (fmt_uint radix n)) = Some n.
Proof.
  intros R1 R2 Hn. unfold parse_uint.
  pose proof (pad_fmt_chars w radix n (fun c => c <> 43%N) ltac:(lia)
                (fun d Hd => proj1 (digit_char_nosign d ltac:(lia)))) as F.
  pose proof (digits_pad_fmt radix w n R1 R2) as V.
  destruct (pad_left 48 w (fmt_uint radix n)) as [|c r] eqn:E.
  - exfalso. unfold pad_left in E. apply app_eq_nil in E. destruct E as [_ E].
    revert E; apply fmt_uint_nonnil.
  - inversion F; subst. destruct (N.eqb_spec c 43); [contradiction|].
    unfold digits1_val. rewrite V. replace (n <=? max)%N with true by lia. reflexivity.
Qed.
