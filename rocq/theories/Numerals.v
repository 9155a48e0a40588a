(** Numbers in texts: the grammars' and [str::parse]. *)
From Coq Require Import ZifyBool ZifyN ZifyNat.
From Verif Require Import Base Num Float FloatParse Peg Grammars SpecPeg PegProofs PegLang PegForward PegSkip Trees PegTree SpecText TextProofs.
Local Open Scope string_scope.
Local Open Scope list_scope.

Definition decimal_body : expr := Opt (str "-" // str "+") ~~ ((Star ASCII_DIGIT ~~ str "." ~~ Plus ASCII_DIGIT) // Plus ASCII_DIGIT).
Definition integer_body : expr := Opt (str "-" // str "+") ~~ Plus ASCII_DIGIT.
Definition pos_integer_body : expr := Opt (str "+") ~~ Plus ASCII_DIGIT.

Lemma star_digits_yes g a s r ts : a <> NonAtomic -> yes g a (Peg.Star ASCII_DIGIT) s r ts -> Forall (fun c => is_digit c = true) s /\ stops is_digit r /\ ts = [].
Proof. intros A Y. apply (yes_star_one g a _ is_digit) in Y; [tauto | exact A | apply one'_sat]. Qed.
Lemma sign_yes g a s r ts : yes g a (Opt (str "-" // str "+")) s r ts -> (s = [] \/ s = s2t "-" \/ s = s2t "+") /\ ts = [].
Proof. intros [[[-> ->]|[_ [-> ->]]]|[-> [-> _]]]; auto. Qed.
Lemma numeral_yes g s r ts : yes g Atomic decimal_body s r ts -> numeral s /\ stops is_digit r.
Proof.
  intros Y. unfold decimal_body in Y. apply yes_seq_at in Y; [|discriminate]. destruct Y as [c1 [c2 [t1 [t2 [-> [-> [Y1 Y]]]]]]].
  apply sign_yes in Y1. destruct Y1 as [S1 ->]. assert (U : unsigned_numeral c2 /\ stops is_digit r).
  { destruct Y as [Y|[_ Y]].
    - apply yes_seq_at in Y; [|discriminate]. destruct Y as [c3 [c4 [t3 [t4 [-> [-> [Y3 Y]]]]]]].
      apply yes_seq_at in Y; [|discriminate]. destruct Y as [c5 [c6 [t5 [t6 [-> [-> [[-> ->] Y6]]]]]]].
      apply star_digits_yes in Y3; [|discriminate]. apply digits_yes in Y6; [|discriminate]. split; [apply numeral_point; tauto | tauto].
    - apply digits_yes in Y; [|discriminate]. split; [apply numeral_int; tauto | tauto]. }
  split; [|tauto]. exists c1, c2. tauto.
Qed.

Lemma lower_other c s w : is_digit c = true \/ c = 46%N -> (forall x w', w = x :: w' -> is_digit x = false /\ x <> 46%N) -> eqb (map lower1 (c :: s)) w = false.
Proof.
  intros D W. apply eqb_false. cbn [map]. intros E. assert (L : lower1 c = c).
  { unfold lower1. unfold is_digit, is_upper in *. replace ((65 <=? c)%N && (c <=? 90)%N) with false; [reflexivity|]. lia. }
  destruct w as [|x w]; [discriminate|]. injection E as E _. rewrite L in E. subst x. destruct (W c w eq_refl) as [W1 W2]. destruct D; congruence.
Qed.
Lemma parse_numeral prec emax s : numeral s -> exists x, parse_float prec emax s = Some x.
Proof.
  intros [sg [u [-> [SG U]]]].
  assert (H : exists c u', u = c :: u' /\ (is_digit c = true \/ c = 46%N)).
  { destruct U as [a [N F]|a b F _].
    - destruct F as [|c a HC _]; [contradiction N; reflexivity|]. eauto.
    - destruct F as [|c a HC _]; [exists 46%N, b; auto|]. exists c, (a ++ s2t "." ++ b). auto. }
  assert (P : exists n k, forall neg : bool,
    (let l := map lower1 u in
     if eqb l (s2t "inf") || eqb l (s2t "infinity") then Some (S754_infinity neg)
     else if eqb l (s2t "nan") then Some S754_nan
     else
       let '(x, i, s) := take_digits 0 0 u in
       let '(y, j, s) := match s with
                         | c :: r => if (c =? 46)%N then take_digits x 0 r else (x, 0, s)
                         | [] => (x, 0, s)
                         end in
       if Nat.eqb (i + j) 0 then None
       else match parse_exp s with
            | Some e => Some (dec_float prec emax neg y (e - Z.of_nat j))
            | None => None
            end) = Some (dec_float prec emax neg n k)).
  { assert (L : eqb (map lower1 u) (s2t "inf") = false /\ eqb (map lower1 u) (s2t "infinity") = false /\ eqb (map lower1 u) (s2t "nan") = false).
    { destruct H as [c [u' [-> D]]]. repeat split; apply lower_other; try exact D; intros x w' E; injection E as <- _; split; [reflexivity | discriminate | reflexivity | discriminate | reflexivity | discriminate]. }
    destruct L as [L1 [L2 L3]]. cbv zeta. rewrite L1, L2, L3. cbn [orb]. destruct U as [a [N F]|a b F [NB FB]].
    - destruct (take_digits_app 0 0 a [] F I) as [n EA]. rewrite app_nil_r in EA. rewrite EA. exists n, (0 - Z.of_nat 0)%Z. intros neg.
      destruct a; [contradiction N; reflexivity|]. reflexivity.
    - destruct (take_digits_app 0 0 a (s2t "." ++ b) F eq_refl) as [n EA]. destruct (take_digits_app n 0 b [] FB I) as [m EB]. rewrite app_nil_r in EB.
      rewrite EA. cbn [s2t app]. change (N_of_ascii "."%char) with 46%N. cbn [N.eqb Pos.eqb]. rewrite EB.
      exists m, (0 - Z.of_nat (0 + List.length b))%Z. intros neg. destruct b as [|c b]; [contradiction NB; reflexivity|].
      replace (Nat.eqb (0 + List.length a + (0 + List.length (c :: b))) 0) with false; [reflexivity|]. cbn [List.length]. lia. }
  destruct P as [n [k P]], SG as [->|[->| ->]].
  - destruct H as [c [u' [-> D]]]. cbn [app]. unfold parse_float. replace (c =? 45)%N with false by (unfold is_digit in D; lia).
    replace (c =? 43)%N with false by (unfold is_digit in D; lia). exists (dec_float prec emax false n k). exact (P false).
  - exists (dec_float prec emax true n k). apply (P true).
  - exists (dec_float prec emax false n k). apply (P false).
Qed.
(** numbers of the rule [decimal] are read by [parse::<f64>] *)
Lemma born_decimal g (Q : tacit g = true) : get "decimal" g = Some (KAtomic, decimal_body) -> forall t, born g NonAtomic "decimal" t -> numeral (text_of t).
Proof.
  intros G t B. destruct (born_yes g Q _ _ _ B _ _ G ltac:(discriminate) ltac:(discriminate)) as [r Y].
  change (body_atom "decimal" KAtomic NonAtomic) with Atomic in Y. apply numeral_yes in Y. apply Y.
Qed.
Lemma numeral_f64 s : numeral s -> exists x, parse_f64 s = Some x.
Proof. apply parse_numeral. Qed.
