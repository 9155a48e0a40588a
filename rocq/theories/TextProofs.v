(** Lines, blanks, comments and decimals: the specification's and the grammars'. *)
From Coq Require Import ZifyBool ZifyN ZifyNat.
From Verif Require Import Base Float FloatParse Peg Grammars SpecPeg PegProofs PegLang PegForward PegSkip SpecText.
Local Open Scope string_scope.
Local Open Scope list_scope.

Definition DECIMAL_body : expr := Opt (str "-") ~~ Plus ASCII_DIGIT ~~ str "." ~~ Plus ASCII_DIGIT.

Lemma stops_app f s r : s <> [] -> stops f (s ++ r) <-> stops f s.
Proof. destruct s; [contradiction|]. reflexivity. Qed.
Lemma str_minus_ko g a r : (forall r', r <> 45%N :: r') -> ko g a (str "-") r.
Proof. intros H. apply ko_str. intros r' ->. apply (H r'). reflexivity. Qed.
Lemma digits_ok g a s r : a <> NonAtomic -> digits s -> stops is_digit r -> ok g a (Plus ASCII_DIGIT) s r [].
Proof. intros A [N F] S. apply ok_plus_sat; assumption. Qed.
Lemma digits_yes g a s r ts : a <> NonAtomic -> yes g a (Plus ASCII_DIGIT) s r ts -> digits s /\ stops is_digit r /\ ts = [].
Proof.
  intros A Y. apply (yes_plus_one g a _ is_digit) in Y; [|exact A | apply one'_sat]. destruct Y as [N [F [S ->]]]. repeat split; assumption.
Qed.
Lemma decimal_ok g s r : decimal s -> stops is_digit r -> ok g Atomic DECIMAL_body s r [].
Proof.
  intros D S. assert (P : forall a b, digits a -> digits b -> ok g Atomic (Plus ASCII_DIGIT ~~ str "." ~~ Plus ASCII_DIGIT) (a ++ s2t "." ++ b) r []).
  { intros a b HA HB. apply (ok_seq_at g Atomic _ _ a _ r [] []); [discriminate | apply digits_ok; [discriminate | exact HA | reflexivity]|].
    apply (ok_seq_at g Atomic _ _ (s2t ".") b r [] []); [discriminate | apply ok_str | apply digits_ok; [discriminate | exact HB | exact S]]. }
  destruct D as [a b HA HB|a b HA HB].
  - apply (ok_seq_at g Atomic _ _ [] (a ++ s2t "." ++ b) r [] []); [discriminate| |apply P; assumption].
    apply ok_opt_no, str_minus_ko. intros r' E. destruct HA as [NA FA]. destruct FA as [|x a HX _]; [contradiction NA; reflexivity|].
    injection E as -> _. discriminate HX.
  - apply (ok_seq_at g Atomic _ _ (s2t "-") (a ++ s2t "." ++ b) r [] []); [discriminate|apply ok_opt, ok_str|apply P; assumption].
Qed.
Lemma decimal_yes g s r ts : yes g Atomic DECIMAL_body s r ts -> decimal s /\ stops is_digit r /\ ts = [].
Proof.
  intros Y. unfold DECIMAL_body in Y. apply yes_seq_at in Y; [|discriminate]. destruct Y as [c1 [c2 [t1 [t2 [-> [-> [Y1 Y]]]]]]].
  apply yes_seq_at in Y; [|discriminate]. destruct Y as [c3 [c4 [t3 [t4 [-> [-> [Y3 Y]]]]]]].
  apply yes_seq_at in Y; [|discriminate]. destruct Y as [c5 [c6 [t5 [t6 [-> [-> [[-> ->] Y6]]]]]]].
  apply digits_yes in Y3; [|discriminate]. apply digits_yes in Y6; [|discriminate].
  destruct Y3 as [D3 [_ ->]], Y6 as [D6 [S ->]]. destruct Y1 as [[-> ->]|[-> [-> _]]].
  - split; [apply decimal_neg; assumption | auto].
  - split; [apply decimal_pos; assumption | auto].
Qed.
Lemma decimal_nonnil s : decimal s -> s <> [].
Proof. intros [[|x a] b [N _] _|a b _ _]; [contradiction|discriminate|discriminate]. Qed.
(** a decimal starts with a digit or a minus sign *)
Lemma decimal_hd s r : decimal s -> exists c s', s ++ r = c :: s' /\ (is_digit c = true \/ (c = 45 /\ exists s'', s = 45 :: s''))%N.
Proof.
  intros [a b [N F] _|a b _ _].
  - destruct F as [|x a HX _]; [contradiction N; reflexivity|]. cbn [app].
    exists x, ((a ++ s2t "." ++ b) ++ r). auto.
  - exists 45%N, ((a ++ s2t "." ++ b) ++ r). split; [reflexivity|]. right. split; [reflexivity|]. exists (a ++ s2t "." ++ b). reflexivity.
Qed.

(** [str::parse::<f64>] accepts decimals. *)
Lemma take_digits_app acc k s r : Forall (fun c => is_digit c = true) s -> stops is_digit r ->
  exists n, take_digits acc k (s ++ r) = (n, k + List.length s, r).
Proof.
  intros F ST. revert acc k. induction F as [|c s HC _ IH]; intros acc k; cbn [app].
  - exists acc. destruct r as [|x r]; cbn [take_digits List.length]; [rewrite Nat.add_0_r; reflexivity|].
    cbn [stops] in ST. rewrite ST, Nat.add_0_r. reflexivity.
  - cbn [take_digits List.length]. rewrite HC. destruct (IH (acc * 10 + (c - 48))%N (S k)) as [n ->]. exists n. f_equal. f_equal. lia.
Qed.
Lemma lower_digit c s w : is_digit c = true -> (forall x w', w = x :: w' -> is_digit x = false) -> eqb (map lower1 (c :: s)) w = false.
Proof.
  intros D W. apply eqb_false. cbn [map]. intros E. assert (L : lower1 c = c).
  { unfold lower1. unfold is_digit, is_upper in *. replace ((65 <=? c)%N && (c <=? 90)%N) with false; [reflexivity|]. lia. }
  destruct w as [|x w]; [discriminate|]. injection E as E _. rewrite L in E. subst x. specialize (W c w eq_refl). congruence.
Qed.
Lemma parse_decimal s : decimal s -> exists x, parse_f64 s = Some x.
Proof.
  assert (P : forall a b, digits a -> digits b -> exists n k, forall neg : bool,
    (let l := map lower1 (a ++ s2t "." ++ b) in
     if eqb l (s2t "inf") || eqb l (s2t "infinity") then Some (S754_infinity neg)
     else if eqb l (s2t "nan") then Some S754_nan
     else
       let '(x, i, s) := take_digits 0 0 (a ++ s2t "." ++ b) in
       let '(y, j, s) := match s with
                         | c :: r => if (c =? 46)%N then take_digits x 0 r else (x, 0, s)
                         | [] => (x, 0, s)
                         end in
       if Nat.eqb (i + j) 0 then None
       else match parse_exp s with
            | Some e => Some (dec_float 53 1024 neg y (e - Z.of_nat j))
            | None => None
            end) = Some (dec_float 53 1024 neg n k)).
  { intros a b [NA FA] [NB FB]. destruct (take_digits_app 0 0 a (s2t "." ++ b) FA eq_refl) as [n EA].
    destruct (take_digits_app n 0 b [] FB I) as [m EB]. rewrite app_nil_r in EB.
    exists m, (0 - Z.of_nat (0 + List.length b))%Z. intros neg. cbv zeta.
    destruct FA as [|c a HC FA]; [contradiction NA; reflexivity|]. cbn [app] in *.
    rewrite !lower_digit by (try exact HC; intros x w' E; injection E as <- _; reflexivity). cbn [orb].
    rewrite EA. cbn [s2t app]. replace (46 =? 46)%N with true by reflexivity.
    change (N_of_ascii "."%char) with 46%N. cbn [N.eqb Pos.eqb]. rewrite EB. reflexivity. }
  intros [a b HA HB|a b HA HB]; destruct (P a b HA HB) as [n [k E]].
  - exists (dec_float 53 1024 false n k). unfold parse_f64, parse_float.
    destruct HA as [NA FA]. destruct FA as [|c a HC FA]; [contradiction NA; reflexivity|]. cbn [app] in *.
    replace (c =? 45)%N with false by (unfold is_digit in HC; lia). replace (c =? 43)%N with false by (unfold is_digit in HC; lia).
    apply (E false).
  - exists (dec_float 53 1024 true n k). unfold parse_f64, parse_float. apply (E true).
Qed.

(** ** Gaps *)
Definition sptab (x : N) : bool := ((x =? 32) || (x =? 9))%N.
Lemma not_nl_line s : Forall (fun x => negb (is_nl x) = true) s <-> in_line s.
Proof.
  unfold in_line, is_nl. split; intros F; eapply Forall_impl; try exact F; cbn beta; intros c H; lia.
Qed.
Lemma void_line_spec c : void_line c <-> exists bl cm, c = bl ++ cm /\ blanks bl /\ (cm = [] \/ is_comment cm).
Proof.
  split.
  - intros [b B|b s B L|b s B L].
    + exists b, []. rewrite app_nil_r. auto.
    + exists b, (s2t ";" ++ s). split; [reflexivity|]. split; [exact B|]. right. exists (s2t ";"), s. rewrite not_nl_line. auto.
    + exists b, (s2t "//" ++ s). split; [reflexivity|]. split; [exact B|]. right. exists (s2t "//"), s. rewrite not_nl_line. auto.
  - intros [bl [cm [-> [B [->|[s [body [-> [[->| ->] F]]]]]]]]]; [rewrite app_nil_r; apply void_blank, B|..]; rewrite not_nl_line in F.
    + apply void_semi; assumption.
    + apply void_slashes; assumption.
Qed.
Lemma line_end_newline c : line_end c <-> newline c.
Proof. split; intros []; constructor. Qed.
Lemma line_end_stops nl r : line_end nl -> stops (fun x => negb (is_nl x)) (nl ++ r).
Proof. intros []; reflexivity. Qed.
Lemma void_gapped c r : void_line c -> stops (fun x => negb (is_nl x)) r -> gapped sptab c r.
Proof.
  intros V S. apply void_line_spec in V. destruct V as [bl [cm [-> [B C]]]]. exists bl, cm. split; [reflexivity|]. split; [exact B|].
  destruct C as [->|C]; [left | right; auto]. split; [reflexivity|]. apply nl_facts; try reflexivity. exact S.
Qed.
Lemma blanks_gapped c r : blanks c -> stops sptab r -> ~ comment_start r -> gapped sptab c r.
Proof. intros B S N. exists c, []. rewrite app_nil_r. auto 10. Qed.
Lemma gapped_void c r : gapped sptab c r -> void_line c.
Proof. intros [bl [cm [-> [F C]]]]. apply void_line_spec. exists bl, cm. split; [reflexivity|]. split; [exact F|]. tauto. Qed.
Lemma blanks_app a b : blanks a -> blanks b -> blanks (a ++ b).
Proof. intros A B. apply Forall_app. auto. Qed.
Lemma void_app b c : blanks b -> void_line c -> void_line (b ++ c).
Proof.
  intros B V. apply void_line_spec in V. destruct V as [bl [cm [-> [BL C]]]]. rewrite app_assoc. apply void_line_spec.
  exists (b ++ bl), cm. split; [reflexivity|]. split; [apply blanks_app; assumption | exact C].
Qed.
